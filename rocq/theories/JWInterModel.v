(** Model of openfermion/transforms/opconversions/jordan_wigner.py, lines 73-279: the Jordan-Wigner transform of an InteractionOperator, which maps one-body and
    two-body terms to Pauli strings directly.  Modes are natural numbers (negative indices of numpy are not modelled). *)
From Verif Require Import Base MatModel OpModel FermiModel TensorModel.
Open Scope list_scope.
Local Open Scope nat_scope.

(** itertools.combinations(l, 2) *)
Fixpoint combinations2 {X} (l : list X) : list (X * X) :=
  match l with [] => [] | x :: l' => map (fun y => (x, y)) l' ++ combinations2 l' end.
(** itertools.product("XY", repeat=k) *)
Fixpoint xy_product (k : nat) : list (list pauli) :=
  match k with O => [[]] | S k' => map (cons Px) (xy_product k') ++ map (cons Py) (xy_product k') end.
Definition letters_in (ops : list pauli) (l : list (list pauli)) : bool := memb (list_eqb pauli_eqb) ops l.
(** len(set(l)) *)
Definition count_unique (l : list nat) : nat := length (uniq Nat.eqb l).

Section JW.
  Context {K : cring} (im half : K) (small is_zero : K -> bool).
  Open Scope K_scope.
  Notation qmk := (mk_op (qubit_simplify im)).
  Notation qadd := (op_add pauli_eqb small).
  Notation qsub := (op_sub pauli_eqb small).
  Notation qmul := (op_mul pauli_eqb (qubit_simplify im)).

  (** The attributes .real and .imag of a number. *)
  Definition real (c : K) : K := half * (c + kconj c).
  Definition imag (c : K) : K := half * (im * (kconj c - c)).
  Definition parity_string (a b : nat) : term pauli := map (fun z => (z, Pz)) (seq (S a) (b - S a)).
  Definition hops (coefficient : K) : list (K * (pauli * pauli)) :=
    [(real coefficient, (Px, Px)); (real coefficient, (Py, Py)); (imag coefficient, (Py, Px)); (- imag coefficient, (Px, Py))].

  (** 131-158 [jordan_wigner_one_body] *)
  Definition jordan_wigner_one_body (p q : nat) (coefficient : K) : qop K :=
    if negb (Nat.eqb p q)
    then
      let '(p, q, coefficient) := if Nat.ltb q p then (q, p, kconj coefficient) else (p, q, coefficient) in
      fold_left (fun o '(c, (op_a, op_b)) => qadd o (qmk ([(p, op_a)] ++ parity_string p q ++ [(q, op_b)]) (half * c))) (hops coefficient) []
    else qadd (qadd [] (qmk [] (half * coefficient))) (qmk [(p, Pz)] (- half * coefficient)).

  (** 180-188: the coefficient of a choice of X and Y on four modes; 0.125 is half * half * half *)
  Definition four_coefficient (ops : list pauli) (coefficient : K) : K :=
    if Nat.eqb (length (filter (pauli_eqb Px) ops) mod 2) 1
    then let coeff := half * half * half * imag coefficient in
         if letters_in ops [[Px; Py; Px; Px]; [Py; Px; Px; Px]; [Py; Py; Px; Py]; [Py; Py; Py; Px]] then coeff * (- (1)) else coeff
    else let coeff := half * half * half * real coefficient in
         if negb (letters_in ops [[Px; Px; Py; Py]; [Py; Py; Px; Px]]) then coeff * (- (1)) else coeff.
  (** 191-210: the Pauli string of a choice of X and Y *)
  Definition four_string (p q r s : nat) (ops : list pauli) : term pauli :=
    match sort_by (fun x y => Nat.leb (fst x) (fst y)) (combine [p; q; r; s] ops) with
    | [(a, operator_a); (b, operator_b); (c, operator_c); (d, operator_d)] =>
        [(a, operator_a)] ++ parity_string a b ++ [(b, operator_b)] ++ [(c, operator_c)] ++ parity_string c d ++ [(d, operator_d)]
    | _ => []
    end.
  (** 174-213: four different modes *)
  Definition two_body_four (p q r s : nat) (coefficient : K) : qop K :=
    let coefficient := if xorb (Nat.ltb q p) (Nat.ltb s r) then coefficient * (- (1)) else coefficient in
    fold_left (fun o ops =>
        let coeff := four_coefficient ops coefficient in
        if is_zero coeff then o else qadd o (qmk (four_string p q r s ops) coeff)) (xy_product 4) [].
  (** 218-247: the two modes between which a particle hops, the mode that must be occupied, and the coefficient *)
  Definition three_modes (p q r s : nat) (coefficient : K) : nat * nat * nat * K :=
    if Nat.eqb p r then
      let '(a, b, coefficient) := if Nat.ltb s q then (s, q, - kconj coefficient) else (q, s, - coefficient) in (a, b, p, coefficient)
    else if Nat.eqb p s then
      let '(a, b, coefficient) := if Nat.ltb r q then (r, q, kconj coefficient) else (q, r, coefficient) in (a, b, p, coefficient)
    else if Nat.eqb q r then
      let '(a, b, coefficient) := if Nat.ltb s p then (s, p, kconj coefficient) else (p, s, coefficient) in (a, b, q, coefficient)
    else
      let '(a, b, coefficient) := if Nat.ltb r p then (r, p, - kconj coefficient) else (p, r, - coefficient) in (a, b, q, coefficient).
  (** 249-265: three different modes; c / 4 is half * half * c *)
  Definition two_body_three (p q r s : nat) (coefficient : K) : qop K :=
    let '(a, b, c, coefficient) := three_modes p q r s coefficient in
    let pauli_z := qmk [(c, Pz)] 1 in
    fold_left (fun o '(c, (op_a, op_b)) =>
        if is_zero c then o
        else let hopping_term := qmk ([(a, op_a)] ++ parity_string a b ++ [(b, op_b)]) (half * half * c) in
             qadd (qsub o (qmul pauli_z hopping_term)) hopping_term) (hops coefficient) [].
  (** 268-280: two different modes *)
  Definition two_body_two (p q r s : nat) (coefficient : K) : qop K :=
    let coeff := if Nat.eqb p s then - (half * half) * coefficient else half * half * coefficient in
    let o := qsub [] (qmk [] coeff) in
    let o := qadd o (qmk [(p, Pz)] coeff) in
    let o := qadd o (qmk [(q, Pz)] coeff) in
    qsub o (qmk [(Nat.min q p, Pz); (Nat.max q p, Pz)] coeff).
  (** 161-279 [jordan_wigner_two_body] *)
  Definition jordan_wigner_two_body (p q r s : nat) (coefficient : K) : qop K :=
    if Nat.eqb p q || Nat.eqb r s then []
    else if Nat.eqb (count_unique [p; q; r; s]) 4 then two_body_four p q r s coefficient
    else if Nat.eqb (count_unique [p; q; r; s]) 3 then two_body_three p q r s coefficient
    else if Nat.eqb (count_unique [p; q; r; s]) 2 then two_body_two p q r s coefficient
    else [].

  (** iop[...]: an index beyond the array is an IndexError of numpy *)
  Definition iop_item (h : heap K) (a : ptensor K) (args : list (nat * bool)) : result K :=
    if forallb (fun f => Nat.ltb (fst f) (n_qubits a)) args then getitem h a args else Err IndexError.
  (** 92-95 *)
  Definition diagonal_step (h : heap K) (a : ptensor K) (o : qop K) (p : nat) : result (qop K) :=
    let! coefficient := iop_item h a [(p, true); (p, false)] in
    Ok (qadd o (jordan_wigner_one_body p p coefficient)).
  (** 98-110 *)
  Definition pair_step (h : heap K) (a : ptensor K) (o : qop K) (pq : nat * nat) : result (qop K) :=
    let '(p, q) := pq in
    let! c1 := iop_item h a [(p, true); (q, false)] in
    let! c2 := iop_item h a [(q, true); (p, false)] in
    let o := qadd o (jordan_wigner_one_body p q (half * (c1 + kconj c2))) in
    let! d1 := iop_item h a [(p, true); (q, true); (p, false); (q, false)] in
    let! d2 := iop_item h a [(p, true); (q, true); (q, false); (p, false)] in
    let! d3 := iop_item h a [(q, true); (p, true); (p, false); (q, false)] in
    let! d4 := iop_item h a [(q, true); (p, true); (q, false); (p, false)] in
    Ok (qadd o (jordan_wigner_two_body p q p q (d1 - d2 - d3 + d4))).
  (** 113-127 *)
  Definition pairs_step (h : heap K) (a : ptensor K) (o : qop K) (pqrs : (nat * nat) * (nat * nat)) : result (qop K) :=
    let '((p, q), (r, s)) := pqrs in
    let! c1 := iop_item h a [(p, true); (q, true); (r, false); (s, false)] in
    let! c2 := iop_item h a [(s, true); (r, true); (q, false); (p, false)] in
    let! c3 := iop_item h a [(p, true); (q, true); (s, false); (r, false)] in
    let! c4 := iop_item h a [(r, true); (s, true); (q, false); (p, false)] in
    let! c5 := iop_item h a [(q, true); (p, true); (r, false); (s, false)] in
    let! c6 := iop_item h a [(s, true); (r, true); (p, false); (q, false)] in
    let! c7 := iop_item h a [(q, true); (p, true); (s, false); (r, false)] in
    let! c8 := iop_item h a [(r, true); (s, true); (p, false); (q, false)] in
    Ok (qadd o (jordan_wigner_two_body p q r s (half * (c1 + kconj c2 - c3 - kconj c4 - c5 - kconj c6 + c7 + kconj c8)))).
  (** 73-128 [_jordan_wigner_interaction_op]; count_qubits of an InteractionOperator is its n_qubits *)
  Definition jordan_wigner_interaction_op (h : heap K) (a : ptensor K) (nq : option nat) : result (qop K) :=
    let n := match nq with Some n => n | None => n_qubits a end in
    if Nat.ltb n (n_qubits a) then Err ValueError
    else
      let! c := TensorModel.constant a in
      let! o := foldM (diagonal_step h a) (seq 0 n) (qmk [] c) in
      let! o := foldM (pair_step h a) (combinations2 (seq 0 n)) o in
      foldM (pairs_step h a) (combinations2 (combinations2 (seq 0 n))) o.
End JW.
