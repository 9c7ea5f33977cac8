(** Model of the raw data file of trackers.py when writing can fail or stop: the calls of BackendModel's tracker with the steps of save_raw_data.
    [serialisable] says whether json.dumps accepts a record: it refuses numbers of numpy, as in number_of_shots when the caller passes one, with TypeError.
    The file is empty between opening it with mode "w+" and closing it; the text is written when the file is closed.  Simplification: the text of a closed file is there as a whole. *)
From Coq Require Import String ZArith.
From Verif Require Import Base BackendModel.
Open Scope list_scope.

Section TrackFile.
  Context {Circ Meas Dist CircD Inner : Type}
          (inner_run : Circ -> Z -> Inner -> Inner * result Meas)
          (inner_run_set : list Circ -> list Z -> Inner -> Inner * result (list Meas))
          (inner_dist : Circ -> Z -> Inner -> Inner * result Dist)
          (to_dict : Circ -> result CircD) (n_operations : Circ -> nat)
          (counts : Meas -> list (string * nat)) (shots : Meas -> list (list nat))
          (record_bitstrings : bool) (serialisable : @record Dist CircD -> bool).
  Notation rec := (@record Dist CircD).
  (** what the raw data file holds *)
  Inductive contents := Empty | Whole (l : list rec).
  Record tracked := { k_inner : Inner; k_raw : list rec; k_file : option contents }.
  (** trackers.py:20-39 *)
  Definition tracked_init (i : Inner) (existing : option contents) : tracked := {| k_inner := i; k_raw := []; k_file := existing |}.
  Definition set_inner (t : tracked) (i : Inner) : tracked := {| k_inner := i; k_raw := k_raw t; k_file := k_file t |}.
  Definition add_record (t : tracked) (r : rec) : tracked := {| k_inner := k_inner t; k_raw := k_raw t ++ [r]; k_file := k_file t |}.
  (** trackers.py:149-156, step by step *)
  Definition truncate (t : tracked) : tracked * result unit := ({| k_inner := k_inner t; k_raw := k_raw t; k_file := Some Empty |}, Ok tt).
  Definition dump (t : tracked) : tracked * result unit :=
    if forallb serialisable (k_raw t) then ({| k_inner := k_inner t; k_raw := k_raw t; k_file := Some (Whole (k_raw t)) |}, Ok tt) else (t, Err TypeError).
  Definition clear (t : tracked) : tracked * result unit := ({| k_inner := k_inner t; k_raw := []; k_file := k_file t |}, Ok tt).
  Definition save_steps : list (tracked -> tracked * result unit) := [truncate; dump; clear].
  Fixpoint do_steps (l : list (tracked -> tracked * result unit)) (t : tracked) : tracked * result unit :=
    match l with [] => (t, Ok tt) | s :: l' => match s t with (t1, Ok _) => do_steps l' t1 | (t1, Err e) => (t1, Err e) end end.
  (** the first [k] steps only, if the process dies; [None] runs all *)
  Definition save (crash : option nat) (t : tracked) : tracked * result unit := do_steps (match crash with Some k => firstn k save_steps | None => save_steps end) t.
  (** trackers.py:70-91 *)
  Definition note (c : Circ) (m : Meas) (t : tracked) : tracked * result unit :=
    match to_dict c with
    | Ok d => (add_record t (RMeasurement d (counts m) (n_operations c) (length (shots m)) (if record_bitstrings then Some (shots m) else None)), Ok tt)
    | Err e => (t, Err e)
    end.
  Fixpoint note_all (l : list (Circ * Meas)) (t : tracked) : tracked * result unit :=
    match l with
    | [] => (t, Ok tt)
    | (c, m) :: l' => match note c m t with (t1, Ok _) => note_all l' t1 | (t1, Err e) => (t1, Err e) end
    end.
  Inductive answer := AMeas (m : Meas) | AMeass (l : list Meas) | ADist (d : Dist).
  Definition finish (crash : option nat) (a : answer) (r : tracked * result unit) : tracked * result answer :=
    match r with
    | (t1, Ok _) => match save crash t1 with (t2, Ok _) => (t2, Ok a) | (t2, Err e) => (t2, Err e) end
    | (t1, Err e) => (t1, Err e)
    end.
  (** trackers.py:41-51, 53-68 and 93-147 *)
  Definition call (crash : option nat) (k : @tcall Circ) (t : tracked) : tracked * result answer :=
    match k with
    | TRun c n => match inner_run c n (k_inner t) with (i, Ok m) => finish crash (AMeas m) (note c m (set_inner t i)) | (i, Err e) => (set_inner t i, Err e) end
    | TRunSet cs ns => match inner_run_set cs ns (k_inner t) with (i, Ok ms) => finish crash (AMeass ms) (note_all (combine cs ms) (set_inner t i)) | (i, Err e) => (set_inner t i, Err e) end
    | TDist c n => match inner_dist c n (k_inner t) with
                   | (i, Ok d) => finish crash (ADist d) (match to_dict c with Ok cd => (add_record (set_inner t i) (RDistribution cd d (n_operations c) n), Ok tt) | Err e => (set_inner t i, Err e) end)
                   | (i, Err e) => (set_inner t i, Err e)
                   end
    end.
  (** a history of calls, with the outcomes *)
  Fixpoint history (l : list (@tcall Circ)) (t : tracked) : tracked * list (result answer) :=
    match l with [] => (t, []) | k :: l' => let (t1, r) := call None k t in let (t2, rs) := history l' t1 in (t2, r :: rs) end.
End TrackFile.
