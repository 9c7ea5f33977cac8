(** Proofs for C73: the pieces of the transform. *)
From Coq Require Import Permutation Sorted Ring.
From Verif Require Import Base BaseFacts MatModel MatFacts LiftSpec LiftProofs OpModel OpSpec OpProofs PauliProofs OpProofs2 ConjProofs
  FermiModel FermiSpec FermiProofs FermiProofs2 FermiProofs3 BKProofs FermiProofs4 RevJWProps TensorModel TensorSpec DiagSpec JWInterModel JWInterSpec.
Open Scope list_scope.
Local Open Scope nat_scope.

Definition four_facts (p q r s : nat) (o1 o2 o3 o4 : pauli) (f g : nat -> bool) (a b c d : nat) : Prop :=
  a < b /\ b < c /\ c < d /\ Permutation [a; b; c; d] [p; q; r; s] /\
  Permutation (four_string p q r s [o1; o2; o3; o4]) ([(p, o1); (q, o2); (r, o3); (s, o4)] ++ parity_string a b ++ parity_string c d) /\
  (xorb (xorb (f a) (f b)) (xorb (f c) (f d)) = xorb (f p) (xorb (f q) (xorb (f r) (f s)))) /\
  (g p = g q -> g r = negb (g p) -> g s = negb (g p) -> xorb (g a) (g c) = negb (xorb (xorb (s <? q) (r <? q)) (xorb (s <? p) (r <? p)))).
Lemma four_perm {X} (A B C D : X) U W l : Permutation [A; B; C; D] l -> Permutation ([A] ++ U ++ [B] ++ [C] ++ W ++ [D]) (l ++ U ++ W).
Proof.
  intros P. etransitivity; [|apply Permutation_app_tail; exact P]. cbn [app]. apply perm_skip. etransitivity; [symmetry; apply Permutation_middle|]. apply perm_skip.
  etransitivity; [symmetry; apply Permutation_middle|]. apply perm_skip. rewrite app_assoc. symmetry. apply Permutation_cons_append.
Qed.
Lemma four_cases p q r s o1 o2 o3 o4 f g : NoDup [p; q; r; s] -> match sort_by Nat.leb [p; q; r; s] with [a; b; c; d] => four_facts p q r s o1 o2 o3 o4 f g a b c d | _ => False end.
Proof.
  intros N.
  assert (D : p <> q /\ p <> r /\ p <> s /\ q <> r /\ q <> s /\ r <> s).
  { inversion N as [|? ? H1 N1]; subst. inversion N1 as [|? ? H2 N2]; subst. inversion N2 as [|? ? H3 N3]; subst. cbn in *. intuition congruence. }

  clear N. pose proof (sort_by_perm (fun x y : nat * pauli => Nat.leb (fst x) (fst y)) (combine [p; q; r; s] [o1; o2; o3; o4])) as P.
  pose proof (sort_by_perm Nat.leb [p; q; r; s]) as P0. revert P P0.
  unfold four_facts, four_string. cbn [combine sort_by insert_by fold_right fst snd].
  repeat (match goal with |- context [Nat.leb ?u ?v] => destruct (Nat.leb_spec u v); try (exfalso; lia); cbn [sort_by insert_by fst snd] end); intros P P0.
  all: (split; [lia|]; split; [lia|]; split; [lia|]; split; [exact P0|]; split; [apply four_perm, P|]; split; [destruct (f p), (f q), (f r), (f s); reflexivity|]).
  all: (intros G1 G2 G3; rewrite ?G3, ?G2, <- ?G1; repeat match goal with |- context [Nat.ltb ?u ?v] => destruct (Nat.ltb_spec u v); try (exfalso; lia) end; destruct (g p); reflexivity).
Qed.

Section Acts.
  Context {K : cring} (im half : K) (Him : kmul im im = kopp k1) (Hhalf : kadd half half = k1) (small : K -> bool) (n : nat).
  Add Ring Kring_jwi : (kth K).
  Open Scope K_scope.
  Notation M := (qop_matrix (K := K) im n).
  Notation qmk := (mk_op (qubit_simplify im)).
  Notation qadd := (op_add pauli_eqb small).
  Notation qsub := (op_sub pauli_eqb small).
  Notation qmul := (op_mul pauli_eqb (qubit_simplify im)).
  Notation V := (list bool -> list bool -> K).
  Notation acts := (acts_up_to im small n).
  Definition E (o : qop K) (x y : list bool) : K := ent (M o) (bval x) (bval y).

  Lemma E_app (a b : qop K) x y : E (a ++ b) x y = E a x y + E b x y.
  Proof. unfold E. rewrite !qop_matrix_ent. induction a as [|[t c] a IH]; cbn [app lval fst snd]; [ring|]. rewrite IH. ring. Qed.
  Lemma acts_ext B o v w : (forall x y, length x = n -> length y = n -> v x y = w x y) -> acts B o v -> acts B o w.
  Proof. intros H (r & S & L & X). exists r. split; [auto|]. split; [auto|]. intros x y Hx Hy. rewrite X, H by auto. reflexivity. Qed.
  Lemma acts_le B B' o v : (B <= B')%nat -> acts B o v -> acts B' o v.
  Proof. intros H (r & S & L & X). exists r. split; [auto|]. split; [lia|auto]. Qed.
  Lemma acts_nil : acts 0 [] (fun _ _ => 0).
  Proof. exists []. split; [constructor|]. split; [auto|]. intros x y _ _. cbn. ring. Qed.
  Lemma acts_self o : acts 0 o (E o).
  Proof. exists []. split; [constructor|]. split; [auto|]. intros x y _ _. unfold E. cbn. ring. Qed.
  Lemma bval_n (x : list bool) : length x = n -> (bval x < 2 ^ n)%nat.
  Proof. intros <-. apply bval_lt. Qed.
  Lemma merge_E f sg (a b : qop K) : (forall x y, f x y = x + sg * y) ->
    exists r : qop K, all_small small r /\ (length r <= length b)%nat /\
      forall x y, length x = n -> length y = n -> E (fold_left (merge_term pauli_eqb small f) b a) x y + E r x y = E a x y + sg * E b x y.
  Proof.
    intros Hf. destruct (qop_merge_matrix im n f small sg a b Hf) as (r & S & _ & L & X). exists r. split; [exact S|]. split; [exact L|].
    intros x y Hx Hy. destruct X as (N1 & N2 & X). cbn [nr nc madd] in *. unfold E.
    specialize (X (bval x) (bval y)). cbn [ent madd mscale] in X. apply X; [rewrite (proj1 (qop_matrix_shape _ _ _))|rewrite (proj2 (qop_matrix_shape _ _ _))]; apply bval_n; auto.
  Qed.
  Lemma acts_add B1 B2 o1 o2 v1 v2 : acts B1 o1 v1 -> acts B2 o2 v2 -> acts (B1 + (B2 + length o2)) (qadd o1 o2) (fun x y => v1 x y + v2 x y).
  Proof.
    intros (r1 & S1 & L1 & X1) (r2 & S2 & L2 & X2). destruct (merge_E kadd 1 o1 o2) as (r & S & L & X); [intros; ring|].
    exists (r1 ++ r2 ++ r). split; [unfold all_small; rewrite !Forall_app; auto|]. split; [rewrite !app_length; lia|].
    intros x y Hx Hy. rewrite <- X1, <- X2 by auto. fold (E (qadd o1 o2) x y) (E (r1 ++ r2 ++ r) x y) (E o1 x y) (E r1 x y) (E o2 x y) (E r2 x y). rewrite !E_app.
    specialize (X x y Hx Hy). transitivity ((E (qadd o1 o2) x y + E r x y) + E r1 x y + E r2 x y); [ring|]. unfold op_add at 1. rewrite X. ring.
  Qed.
  Lemma acts_sub B1 o1 o2 v1 : acts B1 o1 v1 -> acts (B1 + length o2) (qsub o1 o2) (fun x y => v1 x y - E o2 x y).
  Proof.
    intros (r1 & S1 & L1 & X1). destruct (merge_E ksub (- (1)) o1 o2) as (r & S & L & X); [intros; ring|].
    exists (r1 ++ r). split; [unfold all_small; rewrite !Forall_app; auto|]. split; [rewrite !app_length; lia|].
    intros x y Hx Hy. rewrite <- X1 by auto. fold (E (qsub o1 o2) x y) (E (r1 ++ r) x y) (E o1 x y) (E r1 x y). rewrite !E_app.
    specialize (X x y Hx Hy). transitivity ((E (qsub o1 o2) x y + E r x y) + E r1 x y); [ring|]. unfold op_sub at 1. rewrite X. ring.
  Qed.
  Lemma mk_length t (c : K) : length (qmk t c) = 1%nat.
  Proof. unfold mk_op. destruct (qubit_simplify im t c). reflexivity. Qed.
  Lemma add_length (a b : qop K) : (length (qadd a b) <= length a + length b)%nat.
  Proof. apply (merge_length (A := pauli)). Qed.
  Lemma sub_length (a b : qop K) : (length (qsub a b) <= length a + length b)%nat.
  Proof. apply (merge_length (A := pauli)). Qed.

  Lemma add_mk_length k (a : qop K) t c : (length a <= k)%nat -> (length (qadd a (qmk t c)) <= S k)%nat.
  Proof. intros H. pose proof (add_length a (qmk t c)) as L. rewrite mk_length in L. lia. Qed.
  Lemma sub_mk_length k (a : qop K) t c : (length a <= k)%nat -> (length (qsub a (qmk t c)) <= S k)%nat.
  Proof. intros H. pose proof (sub_length a (qmk t c)) as L. rewrite mk_length in L. lia. Qed.

  (** ** Entries of single Pauli strings *)
  Definition on (t : term pauli) : Prop := forall f, In f t -> (fst f < n)%nat.
  Definition tact (t : term pauli) (x y : list bool) : K :=
    if list_eqb Bool.eqb x (snd (term_act im t y)) then fst (term_act im t y) else 0.
  Lemma term_entry t x y : on t -> length x = n -> length y = n -> ent (term_matrix im n t) (bval x) (bval y) = tact t x y.
  Proof.
    intros Ht Hx Hy. destruct (term_matrix_mono im n t Ht) as (_ & _ & X). rewrite X.
    - apply mono_ent; auto. apply term_keeps; auto.
    - rewrite (proj1 (term_matrix_shape im n _)). apply bval_n; auto.
    - rewrite (proj2 (term_matrix_shape im n _)). apply bval_n; auto.
  Qed.
  Lemma E_mk t c x y : on t -> length x = n -> length y = n -> E (qmk t c) x y = c * tact t x y.
  Proof.
    intros Ht Hx Hy. unfold E. destruct (mk_op_matrix im Him n t c Ht) as (_ & _ & X). rewrite X.
    - cbn [ent mscale]. rewrite term_entry by auto. reflexivity.
    - rewrite (proj1 (qop_matrix_shape _ _ _)). apply bval_n; auto.
    - rewrite (proj2 (qop_matrix_shape _ _ _)). apply bval_n; auto.
  Qed.
  Lemma tact_perm t u x y : Permutation t u -> NoDup (map fst t) -> tact t x y = tact u x y.
  Proof.
    intros P N. unfold tact. assert (Q : term_act im t y = term_act im u y); [|rewrite Q; reflexivity].
    revert y N. induction P as [|f t u P IH|f g t|t u w P1 IH1 P2 IH2]; intros y N.
    - reflexivity.
    - cbn [term_act]. unfold mcomp. rewrite IH by (inversion N; auto). reflexivity.
    - cbn [term_act]. inversion N as [|? ? Hf _]; subst.
      assert (D : fst f <> fst g) by (intros X; apply Hf; cbn [map]; left; auto).
      pose proof (factor_comm im f g (snd (term_act im t y)) D) as C. rewrite <- !(mcomp_assoc (factor_act im _)). unfold mcomp at 1 3. rewrite C. reflexivity.
    - rewrite IH1 by auto. apply IH2. eapply Permutation_NoDup; [apply Permutation_map; eauto|auto].
  Qed.
  (** The sign of Z on the modes between a and b. *)
  Definition below (p : nat) (y : list bool) : bool := odd_count (firstn p y).
  Lemma between_act a b y : (a < b)%nat -> (b < length y)%nat ->
    term_act im (parity_string a b) y = (sgn (xorb (xorb (below a y) (below b y)) (nth a y false)), y).
  Proof.
    intros Hab Hb. unfold parity_string. rewrite z_act. f_equal. f_equal. unfold below.
    assert (Q : firstn b y = firstn a y ++ nth a y false :: map (fun q => nth q y false) (seq (S a) (b - S a))).
    { rewrite <- (FermiProofs4.map_nth_seq b y), <- (FermiProofs4.map_nth_seq a y) by lia. replace b with (a + (1 + (b - S a)))%nat at 1 by lia. rewrite seq_app, map_app. f_equal. }
    rewrite Q, odd_count_app. cbn [odd_count fold_right]. fold (odd_count (map (fun q => nth q y false) (seq (S a) (b - S a)))).
    destruct (odd_count (firstn a y)), (nth a y false), (odd_count (map _ _)); reflexivity.
  Qed.
  Lemma lad t x y : on_modes n t -> length x = n -> length y = n ->
    ladders (K := K) n t x y = if list_eqb Bool.eqb x (snd (FermiProofs3.fact (K := K) t y)) then fst (FermiProofs3.fact (K := K) t y) else 0.
  Proof.
    intros Ht Hx Hy. unfold ladders. destruct (fterm_mono (K := K) n t Ht) as (_ & _ & X). rewrite X.
    - apply mono_ent; auto. rewrite fact_length. auto.
    - rewrite (proj1 (fterm_shape (K := K) n t)). apply bval_n; auto.
    - rewrite (proj2 (fterm_shape (K := K) n t)). apply bval_n; auto.
  Qed.
  Definition hop_string (a b : nat) (oa ob : pauli) : term pauli := [(a, oa)] ++ parity_string a b ++ [(b, ob)].
  Lemma hop_on a b oa ob : (a < b)%nat -> (b < n)%nat -> on (hop_string a b oa ob).
  Proof.
    intros Hab Hb f Hf. unfold hop_string in Hf. apply in_app_or in Hf as [[<-|[]]|Hf]; [cbn; lia|]. apply in_app_or in Hf as [Hf|[<-|[]]]; [|cbn; lia].
    apply in_map_iff in Hf as (z & <- & Hz'). apply in_seq in Hz'. cbn. lia.
  Qed.
  Definition phase (o : pauli) (v : bool) : K := fst (pauli_bit im o v).
  Definition is_xy (o : pauli) : Prop := o = Px \/ o = Py.
  Lemma xy_flip o v : is_xy o -> pauli_bit im o v = (phase o v, negb v).
  Proof. intros [->| ->]; reflexivity. Qed.
  Definition zsign_between (a b : nat) (y : list bool) : K := sgn (xorb (xorb (below a y) (below b y)) (nth a y false)).
  Lemma below_setb p q v y : (q < length y)%nat -> below p (setb q v y) = if q <? p then xorb (below p y) (xorb v (nth q y false)) else below p y.
  Proof. apply odd_count_setb. Qed.
  Lemma hop_act a b oa ob y : (a < b)%nat -> (b < length y)%nat -> is_xy oa -> is_xy ob ->
    term_act im (hop_string a b oa ob) y =
      (phase oa (nth a y false) * phase ob (nth b y false) * zsign_between a b y, setb a (negb (nth a y false)) (setb b (negb (nth b y false)) y)).
  Proof.
    intros Hab Hb Ha Hob. unfold hop_string. cbn [app term_act]. unfold mcomp at 1. rewrite !(term_act_app im). unfold mcomp. cbn [term_act]. unfold mcomp.
    cbn [factor_act fst snd]. rewrite (xy_flip ob) by auto. cbn [fst snd]. rewrite between_act by (auto; rewrite setb_length; auto). cbn [fst snd].
    rewrite nth_setb_other by lia. rewrite (xy_flip oa) by auto. cbn [fst snd]. rewrite !below_setb by auto. rewrite Nat.ltb_irrefl. replace (b <? a) with false by (symmetry; apply Nat.ltb_ge; lia).
    apply pair_equal_spec; split; [|reflexivity]. unfold zsign_between. ring.
  Qed.
  Notation re := (real half).
  Notation ig := (imag im half).
  Lemma real_imag c : re c + im * ig c = c.
  Proof.
    unfold real, imag. transitivity (half * (c + kconj c) + half * (im * im) * (kconj c - c)); [ring|]. rewrite Him. transitivity ((half + half) * c); [ring|]. rewrite Hhalf. ring.
  Qed.
  Lemma real_imag_conj c : re c - im * ig c = kconj c.
  Proof.
    unfold real, imag. transitivity (half * (c + kconj c) - half * (im * im) * (kconj c - c)); [ring|]. rewrite Him. transitivity ((half + half) * kconj c); [ring|]. rewrite Hhalf. ring.
  Qed.
  Lemma sgn_xor a b : sgn (K := K) (xorb a b) = sgn a * sgn b.
  Proof. destruct a, b; cbn; ring. Qed.
  Lemma sgn_sq' b : sgn (K := K) b * sgn b = 1.
  Proof. destruct b; cbn; ring. Qed.
  Lemma half_two (z : K) : half * z + half * z = z.
  Proof. transitivity ((half + half) * z); [ring|rewrite Hhalf; ring]. Qed.
  Lemma xy_x : is_xy Px. Proof. left; auto. Qed.
  Lemma xy_y : is_xy Py. Proof. right; auto. Qed.
  Hint Resolve xy_x xy_y : core.
  Lemma hop_sum a b c x y : (a < b)%nat -> (b < n)%nat -> length x = n -> length y = n ->
    half * re c * tact (hop_string a b Px Px) x y + half * re c * tact (hop_string a b Py Py) x y
      + half * ig c * tact (hop_string a b Py Px) x y + half * - ig c * tact (hop_string a b Px Py) x y =
    c * ladders n [(a, true); (b, false)] x y + kconj c * ladders n [(b, true); (a, false)] x y.
  Proof.
    intros Hab Hb Hx Hy. rewrite !lad; auto; try (intros f Hf; cbn in Hf; intuition (subst; cbn; lia)).
    cbn [FermiProofs3.fact]. unfold mcomp, ladder_act. cbn [fst snd negb].
    rewrite !nth_setb_other by lia. rewrite !odd_count_setb by lia. replace (b <? a) with false by (symmetry; apply Nat.ltb_ge; lia). replace (a <? b) with true by (symmetry; apply Nat.ltb_lt; lia).
    unfold tact. rewrite !hop_act by (auto; lia). cbn [fst snd]. unfold phase, zsign_between. rewrite !sgn_xor. fold (below a y) (below b y).
    pose proof (real_imag c) as R1. pose proof (real_imag_conj c) as R2. set (u := re c) in *. set (v := ig c) in *. clearbody u v.
    rewrite <- R1 at 1. rewrite <- R2. clear R1 R2. rewrite (setb_comm b a) by lia.
    destruct (nth a y false) eqn:Ya, (nth b y false) eqn:Yb; cbn [negb Bool.eqb pauli_bit fst sgn xorb];
      repeat match goal with |- context [list_eqb Bool.eqb ?w ?z] => destruct (list_eqb Bool.eqb w z) end; try ring [Him].
    1,2: transitivity ((half + half) * ((u - im * v) * (sgn (below a y) * sgn (below b y) * - (1)))); [ring [Him]|rewrite Hhalf; ring].
    1,2: transitivity ((half + half) * ((u + im * v) * (sgn (below a y) * sgn (below b y)))); [ring [Him]|rewrite Hhalf; ring].
  Qed.

  (** ** Number operators *)
  Lemma z_entry p x y : length x = n -> length y = n -> tact [(p, Pz)] x y = if list_eqb Bool.eqb x y then if nth p y false then - (1) else 1 else 0.
  Proof.
    intros Hx Hy. unfold tact. cbn [term_act]. unfold mcomp, factor_act. cbn [fst snd pauli_bit]. rewrite setb_nth. destruct (list_eqb _ _ _); [ring|reflexivity].
  Qed.
  Lemma zz_entry p q x y : length x = n -> length y = n -> tact [(p, Pz); (q, Pz)] x y = if list_eqb Bool.eqb x y then (if nth p y false then - (1) else 1) * (if nth q y false then - (1) else 1) else 0.
  Proof.
    intros Hx Hy. unfold tact. cbn [term_act]. unfold mcomp, factor_act. cbn [fst snd pauli_bit]. rewrite !setb_nth. destruct (list_eqb _ _ _); [ring|reflexivity].
  Qed.
  Lemma nil_entry x y : tact [] x y = if list_eqb Bool.eqb x y then 1 else 0.
  Proof. reflexivity. Qed.
  Lemma number_first p t x y : (p < n)%nat -> on_modes n t -> length x = n -> length y = n ->
    ladders (K := K) n ((p, true) :: (p, false) :: t) x y = if nth p x false then ladders n t x y else 0.
  Proof.
    intros Hp Ht Hx Hy.
    assert (Ht' : on_modes n ((p, true) :: (p, false) :: t)) by (intros f [<-|[<-|Hf]]; cbn; auto).
    rewrite !lad by auto. cbn [FermiProofs3.fact]. unfold mcomp, ladder_act. cbn [fst snd negb]. set (f := FermiProofs3.fact t y). assert (L : length (snd f) = n) by (unfold f; rewrite fact_length; auto). clearbody f.
    destruct f as [c z]. cbn [fst snd] in *. rewrite setb_setb, nth_setb_same, odd_count_setb by lia. rewrite Nat.ltb_irrefl. cbn [negb Bool.eqb].
    pose proof (sgn_sq' (odd_count (firstn p z))) as Q. destruct (nth p z false) eqn:Z; cbn [negb Bool.eqb].
    - replace (setb p true z) with z by (rewrite <- Z, setb_nth; reflexivity). destruct (list_eqb Bool.eqb x z) eqn:X.
      + apply (list_eqb_spec _ bool_eqb_spec) in X. subst x. rewrite Z. transitivity (sgn (odd_count (firstn p z)) * sgn (odd_count (firstn p z)) * c); [ring|rewrite Q; ring].
      + destruct (nth p x false); reflexivity.
    - destruct (nth p x false) eqn:Xp.
      + destruct (list_eqb Bool.eqb x z) eqn:X; [apply (list_eqb_spec _ bool_eqb_spec) in X; subst x; congruence|]. destruct (list_eqb Bool.eqb x (setb p true z)); ring.
      + destruct (list_eqb Bool.eqb x (setb p true z)); ring.
  Qed.
  Lemma number_entry p x y : (p < n)%nat -> length x = n -> length y = n ->
    ladders (K := K) n [(p, true); (p, false)] x y = if list_eqb Bool.eqb x y then if nth p y false then 1 else 0 else 0.
  Proof.
    intros Hp Hx Hy. rewrite number_first by (auto; intros f []). unfold ladders. cbn [fterm_matrix fold_right ent eye]. rewrite eqb_bval by congruence.
    destruct (list_eqb Bool.eqb x y) eqn:X; [apply (list_eqb_spec _ bool_eqb_spec) in X; subst x|]; cbn [delta]; destruct (nth p _ false); reflexivity.
  Qed.
  Lemma swap_modes l f g r x y : on_modes n (l ++ f :: g :: r) -> fst f <> fst g -> length x = n -> length y = n ->
    ladders (K := K) n (l ++ f :: g :: r) x y = - ladders n (l ++ g :: f :: r) x y.
  Proof.
    intros Hn D Hx Hy. unfold ladders. destruct (mat_carf (K := K) n (bval x) (bval y) (bval_n x Hx) (bval_n y Hy)) as [C _].
    specialize (C l f g r Hn). unfold car in C.
    assert (Z : Nat.eqb (fst f) (fst g) = false) by (apply Nat.eqb_neq; auto). rewrite Z in C. cbn [andb] in C.
    match goal with |- ?u = - ?w => transitivity (u + w - w); [ring|] end.
    match type of C with ?u = _ => transitivity (u - ent (fterm_matrix n (l ++ g :: f :: r)) (bval x) (bval y)); [ring|] end. rewrite C. ring.
  Qed.
  Lemma creation_twice l p d r x y : on_modes n (l ++ (p, d) :: (p, d) :: r) -> length x = n -> length y = n ->
    ladders (K := K) n (l ++ (p, d) :: (p, d) :: r) x y = 0.
  Proof.
    intros Hn Hx Hy. destruct (mat_carf (K := K) n (bval x) (bval y) (bval_n x Hx) (bval_n y Hy)) as [C1 C2]. apply C2. exact Hn.
  Qed.

  (** ** One-body terms *)
  Lemma kconj_half : kconj half = half.
  Proof.
    pose proof (kconj_add K half half) as H. rewrite Hhalf in H. rewrite kconj_1 in H. transitivity ((half + half) * kconj half); [rewrite Hhalf; ring|].
    transitivity (half * (kconj half + kconj half)); [ring|]. rewrite <- H. ring.
  Qed.
  Lemma one_body_length p q c : (length (jordan_wigner_one_body im half small p q c) <= 4)%nat.
  Proof.
    unfold jordan_wigner_one_body. destruct (negb (Nat.eqb p q)).
    - destruct (if Nat.ltb q p then _ else _) as [[a b] c']. unfold hops. cbn [fold_left].
      repeat apply add_mk_length. cbn. lia.
    - etransitivity; [repeat apply add_mk_length; apply le_n|cbn; lia].
  Qed.
  Lemma hops_acts a b c : (a < b)%nat -> (b < n)%nat ->
    acts 4 (fold_left (fun o '(c, (op_a, op_b)) => qadd o (qmk ([(a, op_a)] ++ parity_string a b ++ [(b, op_b)]) (half * c))) (hops im half c) [])
      (fun x y => c * ladders n [(a, true); (b, false)] x y + kconj c * ladders n [(b, true); (a, false)] x y).
  Proof.
    intros Hab Hb. unfold hops. cbn [fold_left].
    pose proof (acts_add _ _ _ _ _ _ (acts_add _ _ _ _ _ _ (acts_add _ _ _ _ _ _ (acts_add _ _ _ _ _ _ acts_nil
      (acts_self (qmk (hop_string a b Px Px) (half * re c)))) (acts_self (qmk (hop_string a b Py Py) (half * re c)))) (acts_self (qmk (hop_string a b Py Px) (half * ig c)))) (acts_self (qmk (hop_string a b Px Py) (half * - ig c)))) as H.
    rewrite !mk_length in H. eapply acts_ext; [|eapply acts_le; [|exact H]]; [|cbn; lia].
    intros x y Hx Hy. cbn beta. rewrite !E_mk by (auto; apply hop_on; auto). rewrite <- hop_sum by auto. ring.
  Qed.
  Lemma one_body_acts p q c : (p < n)%nat -> (q < n)%nat -> acts 4 (jordan_wigner_one_body im half small p q c) (one_body_entry n p q c).
  Proof.
    intros Hp Hq. unfold jordan_wigner_one_body. destruct (Nat.eqb_spec p q) as [->|D]; cbn [negb].
    - pose proof (acts_add _ _ _ _ _ _ (acts_add _ _ _ _ _ _ acts_nil (acts_self (qmk [] (half * c)))) (acts_self (qmk [(q, Pz)] (- half * c)))) as H.
      rewrite !mk_length in H. eapply acts_ext; [|eapply acts_le; [|exact H]]; [|cbn; lia].
      intros x y Hx Hy. cbn beta. rewrite !E_mk by (auto; intros f Hf; cbn in Hf; intuition (subst; cbn; lia)).
      unfold one_body_entry. rewrite Nat.eqb_refl, number_entry, nil_entry, z_entry by auto. destruct (list_eqb Bool.eqb x y); [|ring]. destruct (nth q y false); [|ring].
      transitivity ((half + half) * c); [ring|rewrite Hhalf; ring].
    - destruct (Nat.ltb_spec q p) as [L|L].
      + eapply acts_ext; [|apply (hops_acts q p (kconj c)); lia]. intros x y Hx Hy. cbn beta. unfold one_body_entry. replace (p =? q) with false by (symmetry; apply Nat.eqb_neq; auto). rewrite kconj_invol. ring.
      + eapply acts_ext; [|apply (hops_acts p q c); lia]. intros x y Hx Hy. cbn beta. unfold one_body_entry. replace (p =? q) with false by (symmetry; apply Nat.eqb_neq; auto). reflexivity.
  Qed.

  (** ** Two-body terms on two modes *)
  Lemma two_numbers p q x y : (p < n)%nat -> (q < n)%nat -> length x = n -> length y = n ->
    ladders (K := K) n [(p, true); (p, false); (q, true); (q, false)] x y = if list_eqb Bool.eqb x y then if nth p y false then if nth q y false then 1 else 0 else 0 else 0.
  Proof.
    intros Hp Hq Hx Hy. rewrite number_first by (auto; intros f Hf; cbn in Hf; intuition (subst; cbn; lia)). rewrite number_entry by auto.
    destruct (list_eqb Bool.eqb x y) eqn:X; [apply (list_eqb_spec _ bool_eqb_spec) in X; subst x; destruct (nth p y false), (nth q y false); reflexivity|destruct (nth p x false); reflexivity].
  Qed.
  Ltac modes := let f := fresh in let H := fresh in intros f H; cbn in H; intuition (subst; cbn; lia).
  Ltac sw l f g r := let S := fresh in pose proof (swap_modes l f g r) as S; cbn [app] in S; rewrite S by (first [assumption | modes | (cbn; lia)]); clear S.
  Lemma direct_two p q x y : p <> q -> (p < n)%nat -> (q < n)%nat -> length x = n -> length y = n ->
    ladders (K := K) n [(p, true); (q, true); (p, false); (q, false)] x y = - ladders n [(p, true); (p, false); (q, true); (q, false)] x y.
  Proof. intros D Hp Hq Hx Hy. exact (swap_modes [(p, true)] (q, true) (p, false) [(q, false)] x y ltac:(modes) ltac:(cbn; auto) Hx Hy). Qed.
  Lemma exchange_two p q x y : p <> q -> (p < n)%nat -> (q < n)%nat -> length x = n -> length y = n ->
    ladders (K := K) n [(p, true); (q, true); (q, false); (p, false)] x y = ladders n [(p, true); (p, false); (q, true); (q, false)] x y.
  Proof.
    intros D Hp Hq Hx Hy. sw [(p, true); (q, true)] (q, false) (p, false) (@nil (nat * bool)).
    rewrite direct_two by auto. ring.
  Qed.
  Lemma quarter (z : K) : half * half * z + half * half * z + half * half * z + half * half * z = z.
  Proof. transitivity ((half + half) * (half + half) * z); [ring|rewrite Hhalf; ring]. Qed.
  Lemma two_body_two_acts p q r s c : p <> q -> (p < n)%nat -> (q < n)%nat -> (p = r /\ q = s \/ p = s /\ q = r) ->
    acts 4 (two_body_two im half small p q r s c) (fun x y => c * ladders n [(p, true); (q, true); (r, false); (s, false)] x y).
  Proof.
    intros D Hp Hq C. unfold two_body_two. set (d := if Nat.eqb p s then _ else _).
    pose proof (acts_sub _ _ (qmk [(Nat.min q p, Pz); (Nat.max q p, Pz)] d) _ (acts_add _ _ _ _ _ _ (acts_add _ _ _ _ _ _ (acts_sub _ _ (qmk [] d) _ acts_nil) (acts_self (qmk [(p, Pz)] d))) (acts_self (qmk [(q, Pz)] d)))) as H.
    rewrite !mk_length in H. eapply acts_ext; [|eapply acts_le; [|exact H]]; [|cbn; lia].
    intros x y Hx Hy. cbn beta. rewrite !E_mk by (auto; modes). rewrite zz_entry, !z_entry, nil_entry by auto.
    assert (Zs : (if nth (Nat.min q p) y false then - (1) else 1) * (if nth (Nat.max q p) y false then - (1) else 1) = (if nth p y false then - (1) else 1) * (if nth q y false then - (1) else (1 : K))).
    { destruct (Nat.le_ge_cases q p) as [L|L]; [rewrite Nat.min_l, Nat.max_r by auto|rewrite Nat.min_r, Nat.max_l by auto]; ring. }
    rewrite Zs. clear Zs.
    assert (F : ladders (K := K) n [(p, true); (q, true); (r, false); (s, false)] x y = (if Nat.eqb p s then 1 else - (1)) * ladders n [(p, true); (p, false); (q, true); (q, false)] x y).
    { destruct C as [[<- <-]|[<- <-]].
      - rewrite direct_two by auto. replace (p =? q) with false by (symmetry; apply Nat.eqb_neq; auto). ring.
      - rewrite exchange_two by auto. rewrite Nat.eqb_refl. ring. }
    rewrite F, two_numbers by auto. unfold d. pose proof (quarter c) as Q4.
    destruct (list_eqb Bool.eqb x y); [|ring]. destruct (nth p y false), (nth q y false), (Nat.eqb p s); try ring; [transitivity (half * half * c + half * half * c + half * half * c + half * half * c); [ring|rewrite Q4; ring]|transitivity (- (half * half * c + half * half * c + half * half * c + half * half * c)); [ring|rewrite Q4; ring]].
  Qed.

  (** ** Two-body terms on three modes *)
  Lemma three_pr p q s x y : p <> q -> p <> s -> (p < n)%nat -> (q < n)%nat -> (s < n)%nat -> length x = n -> length y = n ->
    ladders (K := K) n [(p, true); (q, true); (p, false); (s, false)] x y = - (if nth p x false then ladders n [(q, true); (s, false)] x y else 0).
  Proof.
    intros D1 D2 Hp Hq Hs Hx Hy. sw [(p, true)] (q, true) (p, false) [(s, false)]. rewrite number_first by (auto; modes). reflexivity.
  Qed.
  Lemma three_ps p q r x y : p <> q -> p <> r -> (p < n)%nat -> (q < n)%nat -> (r < n)%nat -> length x = n -> length y = n ->
    ladders (K := K) n [(p, true); (q, true); (r, false); (p, false)] x y = if nth p x false then ladders n [(q, true); (r, false)] x y else 0.
  Proof.
    intros D1 D2 Hp Hq Hr Hx Hy. sw [(p, true); (q, true)] (r, false) (p, false) (@nil (nat * bool)). rewrite three_pr by auto. ring.
  Qed.
  Lemma three_qr p q s x y : p <> q -> q <> s -> (p < n)%nat -> (q < n)%nat -> (s < n)%nat -> length x = n -> length y = n ->
    ladders (K := K) n [(p, true); (q, true); (q, false); (s, false)] x y = if nth q x false then ladders n [(p, true); (s, false)] x y else 0.
  Proof.
    intros D1 D2 Hp Hq Hs Hx Hy. sw (@nil (nat * bool)) (p, true) (q, true) [(q, false); (s, false)]. rewrite three_pr by auto. ring.
  Qed.
  Lemma three_qs p q r x y : p <> q -> q <> r -> (p < n)%nat -> (q < n)%nat -> (r < n)%nat -> length x = n -> length y = n ->
    ladders (K := K) n [(p, true); (q, true); (r, false); (q, false)] x y = - (if nth q x false then ladders n [(p, true); (r, false)] x y else 0).
  Proof.
    intros D1 D2 Hp Hq Hr Hx Hy. sw [(p, true); (q, true)] (r, false) (q, false) (@nil (nat * bool)). rewrite three_qr by auto. reflexivity.
  Qed.
  Lemma mk_on t (c : K) : on t -> on_qubits n (qmk t c).
  Proof.
    intros Ht u d Hu f Hf. unfold mk_op in Hu. pose proof (simplify_qubits im t c n Ht) as H. destruct (qubit_simplify im t c) as [c' t']. destruct Hu as [G|[]]. inversion G; subst. apply H. exact Hf.
  Qed.
  Lemma E_mul t u (c d : K) x y : on t -> on u -> length x = n -> length y = n -> E (qmul (qmk t c) (qmk u d)) x y = c * d * tact (t ++ u) x y.
  Proof.
    intros Ht Hu Hx Hy. assert (Htu : on (t ++ u)) by (intros f Hf; apply in_app_or in Hf as [Hf|Hf]; auto).
    rewrite <- (term_entry (t ++ u)) by auto. unfold E.
    pose proof (bval_n x Hx) as Bx. pose proof (bval_n y Hy) as By.
    destruct (qop_mul_matrix im Him n (qmk t c) (qmk u d) (mk_on t c Ht) (mk_on u d Hu)) as (_ & _ & X).
    rewrite X by (rewrite ?(proj1 (qop_matrix_shape _ _ _)), ?(proj2 (qop_matrix_shape _ _ _)); auto).
    destruct (term_matrix_app im n t u) as (_ & _ & Y). rewrite Y by (rewrite ?(proj1 (term_matrix_shape im n _)), ?(proj2 (term_matrix_shape im n _)); auto).
    cbn [ent mmul]. rewrite (proj2 (qop_matrix_shape _ _ _)), (proj2 (term_matrix_shape im n _)), bigsum_mul_l. apply bigsum_ext. intros k Hk.
    destruct (mk_op_matrix im Him n t c Ht) as (_ & _ & X1). destruct (mk_op_matrix im Him n u d Hu) as (_ & _ & X2).
    rewrite X1, X2 by (rewrite ?(proj1 (qop_matrix_shape _ _ _)), ?(proj2 (qop_matrix_shape _ _ _)); auto). cbn [ent mscale]. ring.
  Qed.
  Lemma z_first p t x y : tact ((p, Pz) :: t) x y = (if nth p x false then - (1) else 1) * tact t x y.
  Proof.
    unfold tact. cbn [term_act]. unfold mcomp, factor_act. cbn [fst snd pauli_bit]. rewrite setb_nth.
    destruct (list_eqb Bool.eqb x (snd (term_act im t y))) eqn:X; [|ring]. apply (list_eqb_spec _ bool_eqb_spec) in X. rewrite <- X. destruct (nth p x false); ring.
  Qed.
  Context (is_zero : K -> bool) (Hz : forall c, is_zero c = true -> c = k0).
  (** One step of the loop over the four strings. *)
  Definition three_step (a b : nat) (z : qop K) (o : qop K) (h : K * (pauli * pauli)) : qop K :=
    let '(c, (op_a, op_b)) := h in
    if is_zero c then o else let hopping_term := qmk ([(a, op_a)] ++ parity_string a b ++ [(b, op_b)]) (half * half * c) in qadd (qsub o (qmul z hopping_term)) hopping_term.
  Lemma mul_mk_length t u (c d : K) : (length (qmul (qmk t c) (qmk u d)) <= 1)%nat.
  Proof. etransitivity; [apply (mul_length pauli_eqb)|]. rewrite !mk_length. cbn. lia. Qed.
  Lemma three_step_acts a b p B o v c oa ob : (a < b)%nat -> (b < n)%nat -> (p < n)%nat -> acts B o v ->
    acts (B + 2) (three_step a b (qmk [(p, Pz)] 1) o (c, (oa, ob))) (fun x y => v x y + (if nth p x false then half * c * tact (hop_string a b oa ob) x y else 0)).
  Proof.
    intros Hab Hb Hp H. unfold three_step. destruct (is_zero c) eqn:Z.
    - apply Hz in Z. subst c. eapply acts_ext; [|eapply acts_le; [|exact H]]; [|lia]. intros x y Hx Hy. cbn beta. destruct (nth p x false); ring.
    - cbn zeta. fold (hop_string a b oa ob). pose proof (acts_add _ _ _ _ _ _ (acts_sub _ _ (qmul (qmk [(p, Pz)] 1) (qmk (hop_string a b oa ob) (half * half * c))) _ H) (acts_self (qmk (hop_string a b oa ob) (half * half * c)))) as G.
      pose proof (mul_mk_length [(p, Pz)] (hop_string a b oa ob) 1 (half * half * c)) as L. rewrite !mk_length in G.
      eapply acts_ext; [|eapply acts_le; [|exact G]]; [|lia].
      intros x y Hx Hy. cbn beta. rewrite E_mul, E_mk by (auto using hop_on; intros f [<-|[]]; cbn; auto). cbn [app]. rewrite z_first.
      destruct (nth p x false); [|ring]. transitivity (v x y + (half + half) * (half * c * tact (hop_string a b oa ob) x y)); [ring|rewrite Hhalf; ring].
  Qed.
  Lemma three_acts a b p c : (a < b)%nat -> (b < n)%nat -> (p < n)%nat ->
    acts 8 (fold_left (three_step a b (qmk [(p, Pz)] 1)) (hops im half c) [])
      (fun x y => if nth p x false then c * ladders n [(a, true); (b, false)] x y + kconj c * ladders n [(b, true); (a, false)] x y else 0).
  Proof.
    intros Hab Hb Hp. unfold hops. cbn [fold_left].
    eapply acts_ext; [|eapply acts_le; [|do 4 (eapply three_step_acts; auto); apply acts_nil]]; [|lia].
    intros x y Hx Hy. cbn beta. destruct (nth p x false); [|ring]. rewrite <- hop_sum by auto. ring.
  Qed.
  Lemma three_step_length a b p (o : qop K) (h : K * (pauli * pauli)) k : (length o <= k)%nat -> (length (three_step a b (qmk [(p, Pz)] 1%K) o h) <= k + 2)%nat.
  Proof.
    intros H. destruct h as [c [oa ob]]. unfold three_step. destruct (is_zero c); [lia|]. cbn zeta.
    match goal with |- (length (qadd ?u ?w) <= _)%nat => pose proof (add_length u w) as L1 end.
    match type of L1 with context [length (qsub ?u ?w)] => pose proof (sub_length u w) as L2 end.
    match type of L2 with context [length (qmul (qmk ?t ?c1) (qmk ?u ?c2))] => pose proof (mul_mk_length t u c1 c2) as L3 end. rewrite mk_length in L1. lia.
  Qed.
  Lemma two_body_three_acts p q r s c : p <> q -> r <> s -> (p < n)%nat -> (q < n)%nat -> (r < n)%nat -> (s < n)%nat ->
    (p = r /\ q <> s \/ p = s /\ q <> r \/ q = r /\ p <> s \/ q = s /\ p <> r) ->
    acts 8 (two_body_three im half small is_zero p q r s c)
      (fun x y => c * ladders n [(p, true); (q, true); (r, false); (s, false)] x y + kconj c * ladders n [(s, true); (r, true); (q, false); (p, false)] x y).
  Proof.
    intros D1 D2 Hp Hq Hr Hs C. unfold two_body_three, three_modes.
    assert (Cj : forall z : K, kconj (- z) = - kconj z) by (intros; apply kconj_opp).
    destruct (Nat.eqb_spec p r) as [->|N1].
    { assert (q <> s) by intuition congruence.
      destruct (Nat.ltb_spec s q) as [L|L]; (eapply acts_ext; [|apply three_acts; lia]); intros x y Hx Hy; cbn beta;
        rewrite three_pr, three_qs by auto; rewrite Cj, ?kconj_invol; destruct (nth r x false); ring. }
    destruct (Nat.eqb_spec p s) as [->|N2].
    { assert (q <> r) by intuition congruence.
      destruct (Nat.ltb_spec r q) as [L|L]; (eapply acts_ext; [|apply three_acts; lia]); intros x y Hx Hy; cbn beta;
        rewrite three_ps, three_ps by auto; rewrite ?kconj_invol; destruct (nth s x false); ring. }
    destruct (Nat.eqb_spec q r) as [->|N3].
    { destruct (Nat.ltb_spec s p) as [L|L]; (eapply acts_ext; [|apply three_acts; lia]); intros x y Hx Hy; cbn beta;
        rewrite three_qr, three_qr by auto; rewrite ?kconj_invol; destruct (nth r x false); ring. }
    assert (q = s) by intuition congruence. subst s.
    destruct (Nat.ltb_spec r p) as [L|L]; (eapply acts_ext; [|apply three_acts; lia]); intros x y Hx Hy; cbn beta;
        rewrite three_qs, three_pr by auto; rewrite Cj, ?kconj_invol; destruct (nth q x false); ring.
  Qed.

  (** ** Two-body terms on four modes *)
  Lemma four_NoDup a b c d : (a < b)%nat -> (b < c)%nat -> (c < d)%nat -> NoDup ([a; b; c; d] ++ map fst (parity_string a b) ++ map fst (parity_string c d)).
  Proof.
    intros H1 H2 H3. unfold parity_string. rewrite !map_map. cbn [fst]. rewrite !map_id.
    assert (N4 : NoDup [a; b; c; d]) by (repeat constructor; cbn; lia).
    apply NoDup_app; [exact N4| |].
    - apply NoDup_app; [apply seq_NoDup|apply seq_NoDup|]. intros z Hz1 Hz2. apply in_seq in Hz1, Hz2. lia.
    - intros z Hz1 Hz2. apply in_app_or in Hz2 as [Hz2|Hz2]; apply in_seq in Hz2; cbn in Hz1; lia.
  Qed.
  Definition flip4 (p q r s : nat) (y : list bool) : list bool :=
    setb p (negb (nth p y false)) (setb q (negb (nth q y false)) (setb r (negb (nth r y false)) (setb s (negb (nth s y false)) y))).
  Lemma four_act p q r s a b c d t y : NoDup [p; q; r; s] -> (forall z, In z [p; q; r; s] -> (z < length y)%nat) ->
    (a < b)%nat -> (b < c)%nat -> (c < d)%nat -> (d < length y)%nat -> Forall is_xy t -> length t = 4%nat ->
    term_act im (combine [p; q; r; s] t ++ parity_string a b ++ parity_string c d) y =
      (fold_right (fun f k => phase (snd f) (nth (fst f) y false) * k) 1 (combine [p; q; r; s] t) *
         sgn (xorb (xorb (xorb (below a y) (below b y)) (xorb (below c y) (below d y))) (xorb (nth a y false) (nth c y false))), flip4 p q r s y).
  Proof.
    intros N B H1 H2 H3 H4 Ht Hl.
    assert (D : p <> q /\ p <> r /\ p <> s /\ q <> r /\ q <> s /\ r <> s).
    { inversion N as [|? ? X1 N1]; subst. inversion N1 as [|? ? X2 N2]; subst. inversion N2 as [|? ? X3 N3]; subst. cbn in *. intuition congruence. }
    destruct t as [|o1 [|o2 [|o3 [|o4 [|]]]]]; try discriminate. inversion Ht as [|? ? T1 Ht1]; subst. inversion Ht1 as [|? ? T2 Ht2]; subst. inversion Ht2 as [|? ? T3 Ht3]; subst. inversion Ht3 as [|? ? T4 _]; subst.
    assert (Z : term_act im (parity_string a b ++ parity_string c d) y = (sgn (xorb (xorb (below a y) (below b y)) (nth a y false)) * sgn (xorb (xorb (below c y) (below d y)) (nth c y false)), y)).
    { rewrite (term_act_app im). unfold mcomp. rewrite (between_act c d) by (auto; lia). cbn [fst snd]. rewrite (between_act a b) by lia. reflexivity. }
    rewrite (term_act_app im). unfold mcomp at 1. rewrite Z. cbn [fst snd]. clear Z.
    cbn [combine term_act fold_right fst snd]. unfold mcomp, factor_act. cbn [fst snd].
    rewrite !(xy_flip o4), !(xy_flip o3), !(xy_flip o2), !(xy_flip o1) by auto. cbn [fst snd].
    rewrite ?nth_setb_other by intuition.
    apply pair_equal_spec; split; [|reflexivity]. rewrite !sgn_xor. ring.
  Qed.
  Definition four_sign (p q r s : nat) (y : list bool) : bool := xorb (below p y) (xorb (below q y) (xorb (below r y) (below s y))).
  Lemma four_entry p q r s x y : NoDup [p; q; r; s] -> (forall z, In z [p; q; r; s] -> (z < n)%nat) -> length x = n -> length y = n ->
    exists w, (forall t, Forall is_xy t -> length t = 4%nat -> on (four_string p q r s t) /\ tact (four_string p q r s t) x y =
      (if list_eqb Bool.eqb x (flip4 p q r s y) then fold_right (fun f k => phase (snd f) (nth (fst f) y false) * k) 1 (combine [p; q; r; s] t) * sgn w else 0)) /\
      (nth p y false = nth q y false -> nth r y false = negb (nth p y false) -> nth s y false = negb (nth p y false) ->
       w = xorb (four_sign p q r s y) (negb (xorb (xorb (s <? q) (r <? q)) (xorb (s <? p) (r <? p))))).
  Proof.
    intros N B Hx Hy.
    destruct (sort_by Nat.leb [p; q; r; s]) as [|a [|b [|c [|d [|]]]]] eqn:E4; pose proof (fun o1 o2 o3 o4 => four_cases p q r s o1 o2 o3 o4 (fun z => below z y) (fun z => nth z y false) N) as F; rewrite E4 in F;
      try (exfalso; exact (F Px Px Px Px)).
    exists (xorb (xorb (xorb (below a y) (below b y)) (xorb (below c y) (below d y))) (xorb (nth a y false) (nth c y false))). split.
    - intros t Ht Hl. destruct t as [|o1 [|o2 [|o3 [|o4 [|]]]]]; try discriminate.
      destruct (F o1 o2 o3 o4) as (H1 & H2 & H3 & P0 & P & _ & _).
      assert (Hd : (d < n)%nat) by (apply B; eapply Permutation_in; [exact P0|]; cbn; auto).
      assert (Nf : NoDup (map fst (four_string p q r s [o1; o2; o3; o4]))).
      { eapply Permutation_NoDup; [symmetry; apply Permutation_map; exact P|]. rewrite !map_app. cbn [map fst]. eapply Permutation_NoDup; [apply Permutation_app_tail; exact P0|]. apply four_NoDup; auto. }
      split.
      + intros f Hf. eapply Permutation_in in Hf; [|exact P]. apply in_app_or in Hf as [Hf|Hf]; [apply B; cbn in Hf; cbn; intuition (subst; auto)|].
        apply in_app_or in Hf as [Hf|Hf]; apply in_map_iff in Hf as (z & <- & Hz'); apply in_seq in Hz'; cbn; lia.
      + rewrite (tact_perm _ _ x y P Nf). unfold tact. change [(p, o1); (q, o2); (r, o3); (s, o4)] with (combine [p; q; r; s] [o1; o2; o3; o4]).
        rewrite (four_act p q r s a b c d) by (auto; try lia; intros z Hz'; rewrite Hy; auto). reflexivity.
    - intros G1 G2 G3. destruct (F Px Px Px Px) as (_ & _ & _ & _ & _ & Ff & Fg). rewrite Ff, Fg by auto. reflexivity.
  Qed.
  (** the sum over the sixteen strings, for the bits of the four modes *)
  Definition ph (o : pauli) (v : bool) : K := phase o v.
  Definition sum16 (c : K) (b1 b2 b3 b4 : bool) : K :=
    fold_right (fun t k => four_coefficient im half t c * fold_right (fun f k => phase (fst f) (snd f) * k) 1 (combine t [b1; b2; b3; b4]) + k) 0 (xy_product 4).
  Lemma eighth (z : K) : half * half * half * (z + z + z + z + z + z + z + z) = z.
  Proof. transitivity ((half + half) * ((half + half) * ((half + half) * z))); [ring|rewrite Hhalf; ring]. Qed.
  Lemma sum16_value c b1 b2 b3 b4 : sum16 c b1 b2 b3 b4 =
    match b1, b2, b3, b4 with false, false, true, true => - c | true, true, false, false => - kconj c | _, _, _, _ => 0 end.
  Proof.
    unfold sum16. cbn [xy_product map app fold_right combine fst snd].
    pose proof (real_imag c) as R1. pose proof (real_imag_conj c) as R2. unfold four_coefficient. set (u := re c) in *. set (v := ig c) in *. clearbody u v.
    cbn [filter pauli_eqb length Nat.modulo Nat.divmod fst snd Nat.sub Nat.eqb letters_in memb existsb list_eqb andb orb negb].
    set (e := half * half * half). pose proof eighth as E8. fold e in E8. clearbody e. unfold phase.
    destruct b1, b2, b3, b4; cbn [pauli_bit fst snd]; try ring [Him].
    - rewrite <- R2, <- (E8 (u - im * v)). ring [Him].
    - rewrite <- R1, <- (E8 (u + im * v)). ring [Him].
  Qed.
End Acts.
