(** Model of openfermion fermion operators: fermion_operator.py, term_reordering.py, jordan_wigner.py, bravyi_kitaev.py (for
    FermionOperator input), operator_utils.py (hermitian_conjugated, count_qubits, is_identity), commutators.py, indexing.py.
    A ladder operator is (mode, action) with action 1 (creation) modelled by [true] and 0 (annihilation) by [false]. *)
From Coq Require Import String.
From Verif Require Import Base MatModel OpModel.
Open Scope list_scope.
Local Open Scope nat_scope.

Definition fterm := term bool.

Section Fermi.
  Context {K : cring} (small : K -> bool).
  Notation op := (fop K).
  Definition fermion_op (t : fterm) (c : K) : op := mk_op fermion_simplify t c.
  Definition fermion_add : op -> op -> op := op_add Bool.eqb small.
  Definition fermion_sub : op -> op -> op := op_sub Bool.eqb small.
  Definition fermion_mul : op -> op -> op := op_mul Bool.eqb fermion_simplify.

  (** ** Normal ordering *)
  (** State of the loops of normal_ordered_ladder_term: it returned early, or goes on with (term, coefficient, ordered_term). *)
  Inductive no_state := Returned (ordered : op) | Going (t : fterm) (c : K) (ordered : op).
  (** term_reordering.py:190-221: the loop over j.  [ls] is term[:j] reversed, [x] is term[j], [rs] is term[j+1:]; [rec] is the recursive call *)
  Fixpoint no_inner (rec : fterm -> K -> op) (ls : fterm) (x : factor bool) (rs : fterm) (c : K) (ordered : op) : no_state :=
    match ls with
    | [] => Going (x :: rs) c ordered
    | l :: ls' =>
        if snd x && negb (snd l) then
          let c' := kmul c (kopp k1) in
          let ordered' := if Nat.eqb (fst x) (fst l) then fermion_add ordered (rec (rev ls' ++ rs) (kmul (kopp k1) c')) else ordered in
          no_inner rec ls' x (l :: rs) c' ordered'
        else if Bool.eqb (snd x) (snd l) then
          if Nat.eqb (fst x) (fst l) then Returned ordered
          else if fst l <? fst x then no_inner rec ls' x (l :: rs) (kmul c (kopp k1)) ordered
          else no_inner rec ls' l (x :: rs) c ordered
        else no_inner rec ls' l (x :: rs) c ordered
    end.
  (** 189: one iteration of the loop over i *)
  Definition no_step (rec : fterm -> K -> op) (st : no_state) (i : nat) : no_state :=
    match st with
    | Returned o => Returned o
    | Going t c o => match skipn i t with
                     | x :: rs => no_inner rec (rev (firstn i t)) x rs c o
                     | [] => Going t c o
                     end
    end.
  (** 147-226 with parity = -1.  The recursion removes two ladder operators; [fuel] bounds its depth, and a depth equal to the length of the
      term is never exhausted. *)
  Fixpoint normal_ordered_ladder_term (fuel : nat) (t : fterm) (c : K) : op :=
    match fold_left (no_step (match fuel with O => fun _ _ => [] | S f => normal_ordered_ladder_term f end)) (seq 1 (length t - 1)) (Going t c []) with
    | Returned o => o
    | Going t' c' o => fermion_add o (fermion_op t' c')
    end.
  (** 67-144, FermionOperator *)
  Definition normal_ordered (a : op) : op :=
    fold_left (fun o tc => fermion_add o (normal_ordered_ladder_term (length (fst tc)) (fst tc) (snd tc))) a [].

  (** term_reordering.py:24-64.  A normal ordered term has length 0, 2 or 4; the indexing of term[0..3] is by pattern matching, other lengths would
      be an IndexError and do not occur. *)
  Definition chemist_ordered (a : op) : result op :=
    if negb (is_two_body_number_conserving a false) then Err TypeError
    else foldM (fun o (tc : fterm * K) =>
        match fst tc with
        | [] => Ok (fermion_add o (fermion_op (fst tc) (snd tc)))
        | [_; _] => Ok (fermion_add o (fermion_op (fst tc) (snd tc)))
        | t0 :: t1 :: t2 :: t3 :: _ =>
            let o' := if Nat.eqb (fst t1) (fst t2) then fermion_add o (fermion_op [t0; t3] (snd tc)) else o in
            Ok (fermion_add o' (fermion_op [t0; t2; t1; t3] (kopp (snd tc))))
        | _ => Err IndexError
        end) (normal_ordered a) [].

  (** ** Hermitian conjugation and widths *)
  (** operator_utils.py:50-59 *)
  Definition fermion_conjugated (a : op) : op :=
    fold_left (fun o (tc : fterm * K) => dset (term_eqb Bool.eqb) (map (fun f : factor bool => (fst f, negb (snd f))) (rev (fst tc))) (kconj (snd tc)) o) a [].
  (** 62-65 *)
  Definition qubit_conjugated (a : qop K) : qop K :=
    fold_left (fun o (tc : term pauli * K) => dset (term_eqb pauli_eqb) (fst tc) (kconj (snd tc)) o) a [].
  (** 141-147: fermion operators look at every factor *)
  Definition fermion_count_qubits (a : op) : nat :=
    fold_left (fun n (tc : fterm * K) => fold_left (fun n (f : factor bool) => if n <? fst f + 1 then fst f + 1 else n) (fst tc) n) a 0.
  (** 150-156, 163-169: qubit and Ising operators look at the last factor of every term *)
  Definition sorted_count_qubits {A} (a : sop A K) : nat :=
    fold_left (fun n (tc : term A * K) => match rev (fst tc) with [] => n | f :: _ => if n <? fst f + 1 then fst f + 1 else n end) a 0.
  (** 176-188 *)
  Definition is_identity {A} (a : sop A K) : bool := match a with [([], _)] => true | _ => false end.

  (** commutators.py:24-44, 47-67 for two operators of the same class, given their product and difference/sum *)
  Definition commutator {A} (mul sub : sop A K -> sop A K -> sop A K) (a b : sop A K) : sop A K := sub (mul a b) (mul b a).
  Definition anticommutator {A} (mul add : sop A K -> sop A K -> sop A K) (a b : sop A K) : sop A K := add (mul a b) (mul b a).

  (** ** Reindexing *)
  (** indexing.py:43-65 *)
  Definition up_then_down (mode_idx num_modes : nat) : nat :=
    let halfway := (num_modes + 1) / 2 in
    if Nat.eqb (mode_idx mod 2) 1 then mode_idx / 2 + halfway else mode_idx / 2.
  (** term_reordering.py:229-263 for an operator class with constructor [mk] and sum [add]; a missing mode is a KeyError, and the maximum over
      no factors a ValueError *)
  Definition reorder {A} (mk : term A -> K -> sop A K) (add : sop A K -> sop A K -> sop A K) (a : sop A K)
      (order_function : nat -> nat -> nat) (num_modes : option nat) (reverse : bool) : result (sop A K) :=
    let! n := match num_modes with
              | Some n => Ok n
              | None => match flat_map (fun tc : term A * K => map fst (fst tc)) a with [] => Err ValueError | l => Ok (max_nat l + 1) end
              end in
    let mode_map := map (fun i => (i, order_function i n)) (seq 0 n) in
    let mode_map := if reverse then dict_of Nat.eqb (map (fun kv => (snd kv, fst kv)) mode_map) else mode_map in
    foldM (fun o (tc : term A * K) =>
        let! t := mapM (fun f : factor A => match dget Nat.eqb (fst f) mode_map with Some m => Ok (m, snd f) | None => Err KeyError end) (fst tc) in
        Ok (add o (mk t (snd tc)))) a [].
End Fermi.
Arguments Returned {K} ordered.
Arguments Going {K} t c ordered.

(** ** Fermion-to-qubit transforms *)
Section Transforms.
  Context {K : cring} (im half : K) (small : K -> bool).
  Notation qsimp := (qubit_simplify im).
  Notation qmk := (mk_op qsimp).
  Notation qadd := (op_add pauli_eqb small).
  Notation qsub := (op_sub pauli_eqb small).
  Notation qmul := (op_mul pauli_eqb qsimp).

  (** jordan_wigner.py:55-68: the image of one ladder operator *)
  Definition jw_ladder (f : factor bool) : qop K :=
    let z_factors := map (fun index => (index, Pz)) (seq 0 (fst f)) in
    let pauli_x_component := qmk (z_factors ++ [(fst f, Px)]) half in
    let pauli_y_component := qmk (z_factors ++ [(fst f, Py)]) (if snd f then kopp (kmul half im) else kmul half im) in
    qadd pauli_x_component pauli_y_component.
  (** 49-70 *)
  Definition jordan_wigner (a : fop K) : qop K :=
    fold_left (fun o (tc : fterm * K) => qadd o (fold_left (fun q f => qmul q (jw_ladder f)) (fst tc) (qmk [] (snd tc)))) a [].

  (** bravyi_kitaev.py:56-71, [index & -index].  Loops are modelled with fuel; n_qubits + 1 (and index + 1) iterations suffice. *)
  Definition low_bit (i : N) : N := Z.to_N (Z.land (Z.of_N i) (- Z.of_N i)).
  Fixpoint update_loop (fuel : nat) (index n_qubits : N) : list N :=
    match fuel with
    | O => []
    | S f => if (index <=? n_qubits)%N then N.pred index :: update_loop f (index + low_bit index)%N n_qubits else []
    end.
  Definition update_set (index n_qubits : N) : list N :=
    let index := N.succ index in let index := (index + low_bit index)%N in update_loop (S (N.to_nat n_qubits)) index n_qubits.
  (** 92-101 *)
  Fixpoint parity_loop (fuel : nat) (index : N) : list N :=
    match fuel with
    | O => []
    | S f => if (0 <? index)%N then N.pred index :: parity_loop f (N.land index (N.pred index)) else []
    end.
  Definition parity_set (index : N) : list N := parity_loop (S (N.to_nat index)) index.
  (** 74-89 *)
  Fixpoint occupation_loop (fuel : nat) (index parent : N) : list N :=
    match fuel with
    | O => []
    | S f => if N.eqb index parent then [] else N.pred index :: occupation_loop f (N.land index (N.pred index)) parent
    end.
  Definition occupation_set (index : N) : list N :=
    let index := N.succ index in
    N.pred index :: occupation_loop (S (N.to_nat index)) (N.pred index) (N.land index (N.pred index)).

  (** 188-223.  [order] is the order in which Python iterates over a set; [^] and [-] on sets are the symmetric and plain difference *)
  Definition set_minus (l m : list N) : list N := filter (fun x => negb (memb N.eqb x m)) l.
  Definition sym_diff (l m : list N) : list N := set_minus l m ++ set_minus m l.
  Definition bk_ladder (order : list N -> list N) (n_qubits : N) (f : factor bool) : qop K :=
    let index := N.of_nat (fst f) in
    let us := update_set index n_qubits in
    let us := if memb N.eqb index us then us else us ++ [index] in
    let os := occupation_set index in
    let ps := parity_set index in
    let on p l : term pauli := map (fun i => (N.to_nat i, p)) (order l) in
    let majorana_sum := qmk (on Px us ++ on Pz ps) half in
    let majorana_difference := qmk ([(fst f, Py)] ++ on Px (set_minus us [index]) ++ on Pz (set_minus (sym_diff ps os) [index])) (kopp (kmul half im)) in
    if snd f then qadd majorana_sum majorana_difference else qsub majorana_sum majorana_difference.
  (** 149-185, 226-249 *)
  Definition bravyi_kitaev (order : list N -> list N) (a : fop K) (n_qubits : option nat) : result (qop K) :=
    let N0 := fermion_count_qubits a in
    let n := match n_qubits with Some n => n | None => N0 end in
    if n <? N0 then Err ValueError
    else Ok (fold_left (fun o (tc : fterm * K) => qadd o (fold_left (fun q f => qmul q (bk_ladder order (N.of_nat n) f)) (fst tc) (qmk [] (snd tc)))) a []).
End Transforms.
