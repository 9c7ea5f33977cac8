(** What is said about the raw data file when writing can fail (C108). *)
From Coq Require Import String ZArith.
From Verif Require Import Base BackendModel TrackFileModel.
Open Scope list_scope.

Section Spec.
  Context {Circ Meas Dist CircD Inner : Type}
          (inner_run : Circ -> Z -> Inner -> Inner * result Meas)
          (inner_run_set : list Circ -> list Z -> Inner -> Inner * result (list Meas))
          (inner_dist : Circ -> Z -> Inner -> Inner * result Dist)
          (to_dict : Circ -> result CircD) (n_operations : Circ -> nat)
          (counts : Meas -> list (string * nat)) (shots : Meas -> list (list nat)) (record_bitstrings : bool).
  Definition wrap {A B} (f : A -> B) (x : Inner * result A) : Inner * result B := (fst x, match snd x with Ok a => Ok (f a) | Err e => Err e end).
  (** what the wrapped backend does by itself *)
  Definition asks (k : @tcall Circ) (i : Inner) : Inner * result (@answer Meas Dist) :=
    match k with TRun c n => wrap AMeas (inner_run c n i) | TRunSet cs ns => wrap AMeass (inner_run_set cs ns i) | TDist c n => wrap ADist (inner_dist c n i) end.
  Fixpoint asks_all (l : list (@tcall Circ)) (i : Inner) : Inner * list (result (@answer Meas Dist)) :=
    match l with [] => (i, []) | k :: l' => let (i1, r) := asks k i in let (i2, rs) := asks_all l' i1 in (i2, r :: rs) end.
  Definition circuits_of (k : @tcall Circ) : list Circ := match k with TRun c _ | TDist c _ => [c] | TRunSet cs _ => cs end.
  Definition record_of (cm : Circ * Meas) (r : @record Dist CircD) : Prop :=
    exists d, to_dict (fst cm) = Ok d /\
      r = RMeasurement d (counts (snd cm)) (n_operations (fst cm)) (length (shots (snd cm))) (if record_bitstrings then Some (shots (snd cm)) else None).
  (** the records of a call that the backend has answered *)
  Definition belongs (k : @tcall Circ) (a : @answer Meas Dist) (rs : list (@record Dist CircD)) : Prop :=
    match k, a with
    | TRun c n, AMeas m => Forall2 record_of [(c, m)] rs
    | TRunSet cs ns, AMeass ms => Forall2 record_of (combine cs ms) rs
    | TDist c n, ADist d => exists cd, to_dict c = Ok cd /\ rs = [RDistribution cd d (n_operations c) n]
    | _, _ => False
    end.
End Spec.
