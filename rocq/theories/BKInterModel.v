(** Model of the Bravyi-Kitaev transform of interaction operators,
    /repo/src/python/zquantum/core/openfermion/transforms/opconversions/bravyi_kitaev.py:252-800.
    The sets [update_set], [parity_set] and [occupation_set] are those of FermiModel.v.
    Simplification: the two parallel lists of operators and coefficients are one list of pairs. *)
From Coq Require Import NArith.
From Verif Require Import Base MatModel OpModel FermiModel TensorModel JWInterModel.
Open Scope list_scope.
Local Open Scope nat_scope.

(** [l & m] of two sets *)
Definition set_inter (l m : list N) : list N := filter (fun x => memb N.eqb x m) l.
(** [l.union({x})] *)
Definition set_add (l : list N) (x : N) : list N := if memb N.eqb x l then l else l ++ [x].
(** bravyi_kitaev.py:756-757 *)
Definition remainder_set (i : N) : list N := set_minus (parity_set i) (occupation_set i).
(** 760-761 *)
Definition F_ij_set (i j : N) : list N := sym_diff (occupation_set i) (occupation_set j).
(** 764-766 *)
Definition P0_ij_set (i j : N) : list N := sym_diff (parity_set i) (parity_set j).
(** 769-771 *)
Definition P1_ij_set (i j : N) : list N := sym_diff (parity_set i) (remainder_set j).
(** 774-776 *)
Definition P2_ij_set (i j : N) : list N := sym_diff (remainder_set i) (parity_set j).
(** 779-781 *)
Definition P3_ij_set (i j : N) : list N := sym_diff (remainder_set i) (remainder_set j).
(** 784-786 *)
Definition U_ij_set (i j n : N) : list N := sym_diff (update_set i n) (update_set j n).
(** 799-800 *)
Definition alpha_set (i j n : N) : list N := set_inter (update_set i n) (parity_set j).
(** 789-791 *)
Definition U_diff_a_set (i j n : N) : list N := set_minus (U_ij_set i j n) (alpha_set i j n).
(** 794-796 *)
Definition P0_ij_diff_a_set (i j n : N) : list N := set_minus (P0_ij_set i j) (alpha_set i j n).

(** [for i in l: for j in f i: ...] as the list of the pairs visited *)
Definition nested {X Y} (l : list X) (f : X -> list Y) : list (X * Y) := flat_map (fun x => map (pair x) (f x)) l.

Section BK.
  Context {K : cring} (im half : K) (small is_zero : K -> bool) (order : list N -> list N).
  Open Scope K_scope.
  Notation qsimp := (qubit_simplify im).
  Notation qmk := (mk_op qsimp).
  Notation qadd := (op_add pauli_eqb small).
  Notation qmul := (op_mul pauli_eqb qsimp).

  (** tuple((index, letter) for index in a_set) *)
  Definition pad (p : pauli) (l : list N) : term pauli := map (fun i => (N.to_nat i, p)) (order l).

  (** 416-753 [_seeley_richard_love]; complex(0, z) is [im * z], also for complex z *)
  Definition seeley_richard_love (i j : nat) (coef : K) (n_qubits : nat) : list (term pauli * K) :=
    let coef := half * half * coef in
    let iN := N.of_nat i in let jN := N.of_nat j in let n := N.of_nat n_qubits in
    let icoef := im * coef in let micoef := im * - coef in
    let i_in_parity := memb N.eqb iN (parity_set jN) in
    let j_in_update := memb N.eqb jN (update_set iN n) in
    let alpha := alpha_set iN jN n in
    (* Case 0 *)
    if Nat.eqb i j then [(pad Pz (occupation_set iN), - coef * (1 + 1)); ([], coef * (1 + 1))]
    (* Case 1 *)
    else if (Nat.even i && Nat.even j)%bool then
      let left_pad := pad Px (U_diff_a_set iN jN n) ++ pad Py alpha ++ pad Pz (P0_ij_diff_a_set iN jN n) in
      combine [left_pad ++ [(j, Py); (i, Px)]; left_pad ++ [(j, Px); (i, Py)]; left_pad ++ [(j, Px); (i, Px)]; left_pad ++ [(j, Py); (i, Py)]]
        (if Nat.ltb i j then [coef; - coef; micoef; micoef] else [micoef; icoef; - coef; - coef])
    (* Case 2 *)
    else if (Nat.odd i && Nat.even j && negb i_in_parity)%bool then
      let left_pad := pad Px (U_diff_a_set iN jN n) ++ pad Py alpha in
      let right_pad_1 := pad Pz (set_minus (P0_ij_set iN jN) alpha) in
      let right_pad_2 := pad Pz (set_minus (P2_ij_set iN jN) alpha) in
      combine [left_pad ++ [(j, Py); (i, Px)] ++ right_pad_1; left_pad ++ [(j, Px); (i, Px)] ++ right_pad_1; left_pad ++ [(j, Px); (i, Py)] ++ right_pad_2; left_pad ++ [(j, Py); (i, Py)] ++ right_pad_2]
        (if Nat.ltb i j then [coef; micoef; - coef; micoef] else [micoef; - coef; icoef; - coef])
    (* Case 3 *)
    else if (Nat.odd i && Nat.even j && i_in_parity)%bool then
      let left_pad := pad Px (U_ij_set iN jN n) in
      let right_pad_1 := pad Pz (set_minus (P0_ij_set iN jN) [iN]) in
      let right_pad_2 := pad Pz (set_minus (P2_ij_set iN jN) [iN]) in
      [(left_pad ++ [(j, Py); (i, Py)] ++ right_pad_1, coef); (left_pad ++ [(j, Px); (i, Py)] ++ right_pad_1, micoef);
       (left_pad ++ [(j, Px); (i, Px)] ++ right_pad_2, coef); (left_pad ++ [(j, Py); (i, Px)] ++ right_pad_2, icoef)]
    (* Case 4 *)
    else if (Nat.even i && Nat.odd j && negb i_in_parity && negb j_in_update)%bool then
      let left_pad := pad Px (U_diff_a_set iN jN n) ++ pad Py alpha in
      let right_pad_1 := pad Pz (set_minus (P0_ij_set iN jN) alpha) in
      let right_pad_2 := pad Pz (set_minus (P1_ij_set iN jN) alpha) in
      combine [left_pad ++ [(j, Px); (i, Py)] ++ right_pad_1; left_pad ++ [(j, Px); (i, Px)] ++ right_pad_1; left_pad ++ [(j, Py); (i, Px)] ++ right_pad_2; left_pad ++ [(j, Py); (i, Py)] ++ right_pad_2]
        (if Nat.ltb i j then [- coef; micoef; coef; micoef] else [icoef; - coef; micoef; - coef])
    (* Case 5 *)
    else if (Nat.even i && Nat.odd j && negb i_in_parity && j_in_update)%bool then
      let x_range_1 := set_minus (U_ij_set iN jN n) [jN] in
      let left_pad_1 := pad Px x_range_1 in
      let left_pad_2 := pad Px (set_minus x_range_1 alpha) in
      let right_pad_1 := pad Py alpha ++ pad Pz (set_minus (P0_ij_set iN jN) alpha) in
      let right_pad_2 := pad Pz (set_add (P1_ij_set iN jN) jN) in
      [(left_pad_2 ++ [(i, Py)] ++ right_pad_1, - coef); (left_pad_2 ++ [(i, Px)] ++ right_pad_1, micoef);
       (left_pad_1 ++ [(i, Py)] ++ right_pad_2, icoef); (left_pad_1 ++ [(i, Px)] ++ right_pad_2, - coef)]
    (* Case 6 *)
    else if (Nat.even i && Nat.odd j && i_in_parity && j_in_update)%bool then
      let left_pad := pad Px (set_minus (U_ij_set iN jN n) [jN]) in
      let right_pad := pad Pz (set_add (P1_ij_set iN jN) jN) in
      [(left_pad ++ [(i, Px)], coef); (left_pad ++ [(i, Py)], micoef);
       (left_pad ++ [(i, Py)] ++ right_pad, icoef); (left_pad ++ [(i, Px)] ++ right_pad, - coef)]
    (* Case 7 *)
    else if (Nat.odd i && Nat.odd j && negb i_in_parity && negb j_in_update)%bool then
      let left_pad := pad Px (U_diff_a_set iN jN n) ++ pad Py alpha in
      let right_pad_1 := pad Pz (set_minus (P0_ij_set iN jN) alpha) in
      let right_pad_2 := pad Pz (set_minus (P1_ij_set iN jN) alpha) in
      let right_pad_3 := pad Pz (set_minus (P2_ij_set iN jN) alpha) in
      let right_pad_4 := pad Pz (set_minus (P3_ij_set iN jN) alpha) in
      combine [left_pad ++ [(j, Px); (i, Px)] ++ right_pad_1; left_pad ++ [(j, Py); (i, Px)] ++ right_pad_2; left_pad ++ [(j, Px); (i, Py)] ++ right_pad_3; left_pad ++ [(j, Py); (i, Py)] ++ right_pad_4]
        (if Nat.ltb i j then [micoef; coef; - coef; micoef] else [- coef; micoef; icoef; - coef])
    (* Case 8 *)
    else if (Nat.odd i && Nat.odd j && i_in_parity && negb j_in_update)%bool then
      let left_pad := pad Px (U_ij_set iN jN n) in
      let right_pad_1 := pad Pz (set_minus (P0_ij_set iN jN) [iN]) in
      let right_pad_2 := pad Pz (set_minus (P1_ij_set iN jN) [iN]) in
      let right_pad_3 := pad Pz (set_minus (P2_ij_set iN jN) [iN]) in
      let right_pad_4 := pad Pz (set_minus (P3_ij_set iN jN) [iN]) in
      [(left_pad ++ [(j, Px); (i, Py)] ++ right_pad_1, micoef); (left_pad ++ [(j, Py); (i, Py)] ++ right_pad_2, coef);
       (left_pad ++ [(j, Px); (i, Px)] ++ right_pad_3, coef); (left_pad ++ [(j, Py); (i, Px)] ++ right_pad_4, icoef)]
    (* Case 9 *)
    else if (Nat.odd i && Nat.odd j && negb i_in_parity && j_in_update)%bool then
      let x_range_1 := set_minus (U_ij_set iN jN n) [jN] in
      let left_pad_3 := pad Px x_range_1 in
      let left_pad_1 := pad Px (set_minus x_range_1 alpha) in
      let left_pad_2 := pad Px (set_minus (set_add x_range_1 iN) alpha) in
      let right_pad_1 := pad Pz (set_minus (P2_ij_set iN jN) alpha) ++ pad Py alpha in
      let right_pad_2 := pad Pz (set_minus (P0_ij_set iN jN) alpha) ++ pad Py alpha in
      let right_pad_3 := pad Pz (set_add (P1_ij_set iN jN) jN) in
      let right_pad_4 := pad Pz (set_add (P3_ij_set iN jN) jN) in
      [(left_pad_1 ++ [(i, Py)] ++ right_pad_1, - coef); (left_pad_2 ++ right_pad_2, micoef);
       (left_pad_3 ++ [(i, Px)] ++ right_pad_3, - coef); (left_pad_3 ++ [(i, Py)] ++ right_pad_4, icoef)]
    (* Case 10 *)
    else if (Nat.odd i && Nat.odd j && i_in_parity && j_in_update)%bool then
      let left_pad := pad Px (set_minus (U_ij_set iN jN n) [jN]) in
      let right_pad_1 := pad Pz (set_minus (P0_ij_set iN jN) [iN]) in
      let right_pad_2 := pad Pz (set_minus (P2_ij_set iN jN) [iN]) in
      let right_pad_3 := pad Pz (P1_ij_set iN jN) in
      let right_pad_4 := pad Pz (P3_ij_set iN jN) in
      [(left_pad ++ [(i, Py)] ++ right_pad_1, micoef); (left_pad ++ [(i, Px)] ++ right_pad_2, coef);
       (left_pad ++ [(j, Pz); (i, Px)] ++ right_pad_3, - coef); (left_pad ++ [(j, Pz); (i, Py)] ++ right_pad_4, icoef)]
    else [].

  (** 404-413 [_qubit_operator_creation] *)
  Definition qubit_operator_creation (l : list (term pauli * K)) : qop K :=
    fold_left (fun o (tc : term pauli * K) => qadd o (qmk (fst tc) (snd tc))) l [].
  Definition excitation (i j : nat) (coef : K) (n : nat) : qop K := qubit_operator_creation (seeley_richard_love i j coef n).

  (** 383-401 [_hermitian_one_body_product] *)
  Definition hermitian_one_body_product (a b c d : nat) (coef : K) (n : nat) : qop K :=
    let c_dag_c_ac := qmul (excitation a c coef n) (excitation b d 1 n) in
    let c_dag_c_ca := qmul (excitation c a (kconj coef) n) (excitation d b 1 n) in
    qadd c_dag_c_ac c_dag_c_ca.

  (** one_body[p, q] and two_body[p, q, r, s]: an index beyond the array is an IndexError of numpy *)
  Definition one_body (h : heap K) (a : ptensor K) (p q : nat) : result K := iop_item h a [(p, true); (q, false)].
  Definition two_body (h : heap K) (a : ptensor K) (p q r s : nat) : result K := iop_item h a [(p, true); (q, true); (r, false); (s, false)].
  (** 374-380 [_two_body_coef] *)
  Definition two_body_coef (h : heap K) (t : ptensor K) (a b c d : nat) : result K :=
    let! t1 := two_body h t a b c d in
    let! t2 := two_body h t a b d c in
    let! t3 := two_body h t b a d c in
    let! t4 := two_body h t b a c d in
    Ok (t1 - t2 + t3 - t4).

  (** The loop variables of 276-314: the operator, the list of terms still to be added and the constant *)
  Definition bk_state : Type := qop K * list (term pauli * K) * K.
  (** 284-314 *)
  Definition coulomb_step (h : heap K) (a : ptensor K) (n i : nat) (s : bk_state) (j : nat) : result bk_state :=
    let '(ham, ops, const) := s in
    let! c := one_body h a i j in
    let ops := if is_zero c then ops else (ops ++ seeley_richard_love i j c n) ++ seeley_richard_love j i (kconj c) n in
    let! d := two_body_coef h a i j j i in
    let coef := half * half * d in
    if is_zero coef then Ok (ham, ops, const)
    else
      let iN := N.of_nat i in let jN := N.of_nat j in
      Ok (ham, ops ++ [(pad Pz (occupation_set iN), - coef); (pad Pz (occupation_set jN), - coef); (pad Pz (F_ij_set iN jN), coef)], const + coef).
  (** 276-314 *)
  Definition number_step (h : heap K) (a : ptensor K) (n : nat) (s : bk_state) (i : nat) : result bk_state :=
    let '(ham, ops, const) := s in
    let! c := one_body h a i i in
    let ham := if is_zero c then ham else qadd ham (excitation i i c n) in
    foldM (coulomb_step h a n i) (seq 0 i) (ham, ops, const).
  (** 317-342 *)
  Definition excitation_step (h : heap K) (a : ptensor K) (n : nat) (ham : qop K) (ijk : nat * (nat * nat)) : result (qop K) :=
    let '(i, (j, k)) := ijk in
    if (Nat.eqb i j || Nat.eqb i k)%bool then Ok ham
    else
      let! coef := two_body_coef h a i j k i in
      if is_zero coef then Ok ham
      else
        let number := excitation i i 1 n in
        let excited := qubit_operator_creation (seeley_richard_love j k coef n ++ seeley_richard_love k j (kconj coef) n) in
        Ok (qadd ham (qmul number excited)).
  (** 349-365, one of the three groups *)
  Definition double_one (h : heap K) (t : ptensor K) (n a b c d : nat) (ham : qop K) : result (qop K) :=
    let! coef := two_body_coef h t a b c d in
    let coef := - coef in
    Ok (if is_zero coef then ham else qadd ham (hermitian_one_body_product a b c d coef n)).
  (** 345-365 *)
  Definition double_step (h : heap K) (a : ptensor K) (n : nat) (ham : qop K) (ijkl : nat * (nat * (nat * nat))) : result (qop K) :=
    let '(i, (j, (k, l))) := ijkl in
    let! ham := double_one h a n i j k l ham in
    let! ham := double_one h a n i k j l ham in
    double_one h a n i l j k ham.

  (** 252-371 [_bravyi_kitaev_interaction_operator] *)
  Definition bravyi_kitaev_interaction_operator (h : heap K) (a : ptensor K) (nq : option nat) : result (qop K) :=
    let n := match nq with Some n => n | None => n_qubits a end in
    if Nat.ltb n (n_qubits a) then Err ValueError
    else
      let! c := TensorModel.constant a in
      let! s := foldM (number_step h a n) (seq 0 n) ([], [], c) in
      let '(ham, ops, const) := s in
      let! ham := foldM (excitation_step h a n) (nested (seq 0 n) (fun _ => nested (seq 0 n) (fun j => seq 0 j))) ham in
      let! ham := foldM (double_step h a n) (nested (seq 0 n) (fun i => nested (seq 0 i) (fun j => nested (seq 0 j) (fun k => seq 0 k)))) ham in
      Ok (qadd ham (qubit_operator_creation (ops ++ [([], const)]))).
End BK.
