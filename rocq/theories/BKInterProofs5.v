(** Operators on encoded occupation states: sums, products and the terms of the Bravyi-Kitaev transform. *)
From Coq Require Import NArith Nnat Permutation Ring.
From Verif Require Import Base BaseFacts MatModel MatFacts LiftSpec LiftProofs OpModel OpSpec OpProofs PauliProofs OpProofs2 ConjProofs
  FermiModel FermiSpec FermiProofs FermiProofs2 FermiProofs3 FermiProofs4 BKProofs FermiProofs5 FermiProofs6 FermiProofs7 JWInterModel JWInterSpec JWInterProofs JWInterProofs2
  BKInterModel BKInterProofs BKInterProofs2 BKInterProofs3 BKInterProofs4.
Open Scope list_scope.
Local Open Scope nat_scope.

Section Rep.
  Context {K : cring} (im half : K) (Him : kmul im im = kopp k1) (Hhalf : kadd half half = k1) (small : K -> bool) (Hs : only_zero small)
    (order : list N -> list N) (Horder : forall l, Permutation (order l) l) (n : nat).
  Add Ring Kring_rep : (kth K).
  Open Scope K_scope.
  Notation M := (qop_matrix (K := K) im n).
  Notation qmk := (mk_op (qubit_simplify im)).
  Notation qadd := (op_add pauli_eqb small).
  Notation qmul := (op_mul pauli_eqb (qubit_simplify im)).
  Notation E := (JWInterProofs.E im n).
  Notation on := (JWInterProofs.on n).
  Notation tact := (JWInterProofs.tact im).
  Notation code := (bk_code n).
  Notation B := (bk_encoding (K := K) n).
  Notation V := (list bool -> list bool -> K).
  Notation val l x v := (lsum (fun tk : term pauli * K => snd tk * tact (fst tk) x (code v)) l).
  Definition tidy (o : qop K) : Prop := on_qubits n o /\ wf_op o /\ canonical_op o.
  Lemma tidy_nil : tidy [].
  Proof. split; [intros t c []|]. split; [constructor|intros t c []]. Qed.
  Lemma tidy_add a b : tidy a -> tidy b -> tidy (qadd a b).
  Proof. intros (O1 & W1 & C1) (O2 & W2 & C2). split; [apply qadd_on; auto|]. split; [apply (merge_wf pauli_eqb pauli_eqb_spec), W1|]. apply merge_canonical; auto. Qed.
  Lemma tidy_mul a b : tidy a -> tidy b -> tidy (qmul a b).
  Proof. intros (O1 & W1 & C1) (O2 & W2 & C2). split; [apply (mul_on_qubits im n); auto|]. split; [apply (mul_wf pauli_eqb pauli_eqb_spec)|apply mul_canonical]. Qed.
  Lemma tidy_mk t c : on t -> tidy (qmk t c).
  Proof.
    intros H. split; [apply (mk_on im n); auto|]. unfold mk_op. pose proof (simplify_canonical im t c) as G. destruct (qubit_simplify im t c) as [c' t']. split; [repeat constructor; intros []|].
    intros u d [Q|[]]. inversion Q; subst. exact G.
  Qed.
  Definition rep (o : qop K) (v : V) : Prop := tidy o /\ forall x y, length x = n -> length y = n -> E o (code x) (code y) = v x y.
  Definition lrep (l : list (term pauli * K)) (v : V) : Prop := (forall tk, In tk l -> on (fst tk)) /\ forall x y, length x = n -> length y = n -> val l (code x) y = v x y.
  Lemma rep_ext o v w : (forall x y, length x = n -> length y = n -> v x y = w x y) -> rep o v -> rep o w.
  Proof. intros H [O X]. split; [auto|]. intros x y Hx Hy. rewrite X, H by auto. reflexivity. Qed.
  Lemma lrep_ext l v w : (forall x y, length x = n -> length y = n -> v x y = w x y) -> lrep l v -> lrep l w.
  Proof. intros H [O X]. split; [auto|]. intros x y Hx Hy. rewrite X, H by auto. reflexivity. Qed.
  Lemma lrep_app l m v w : lrep l v -> lrep m w -> lrep (l ++ m) (fun x y => v x y + w x y).
  Proof.
    intros [O1 X1] [O2 X2]. split; [intros tk H; apply in_app_or in H as [H|H]; auto|]. intros x y Hx Hy. rewrite lsum_app, X1, X2 by auto. reflexivity.
  Qed.
  Lemma E_qadd (a b : qop K) x y : length x = n -> length y = n -> E (qadd a b) x y = E a x y + E b x y.
  Proof.
    intros Hx Hy. destruct (qadd_exact im small n a b Hs) as (_ & _ & X). unfold JWInterProofs.E. rewrite X; [reflexivity|rewrite (proj1 (qop_matrix_shape im _ _))|rewrite (proj2 (qop_matrix_shape im _ _))]; apply bval_n; auto.
  Qed.
  Lemma rep_add o p v w : rep o v -> rep p w -> rep (qadd o p) (fun x y => v x y + w x y).
  Proof.
    intros [O1 X1] [O2 X2]. split; [apply tidy_add; auto|]. intros x y Hx Hy. rewrite E_qadd, X1, X2 by (auto using bk_code_length). reflexivity.
  Qed.
  Lemma rep_nil : rep [] (fun _ _ => 0).
  Proof. split; [apply tidy_nil|]. intros x y _ _. reflexivity. Qed.
  Lemma rep_creation l v : lrep l v -> rep (qubit_operator_creation im small l) v.
  Proof.
    intros [O X]. assert (G : forall l o, (forall tk, In tk l -> on (fst tk)) -> tidy o ->
      tidy (fold_left (fun o (tc : term pauli * K) => qadd o (qmk (fst tc) (snd tc))) l o) /\
      forall x y, length x = n -> length y = n -> E (fold_left (fun o (tc : term pauli * K) => qadd o (qmk (fst tc) (snd tc))) l o) (code x) (code y) = E o (code x) (code y) + val l (code x) y).
    { clear l v O X. induction l as [|[t k] l IH]; intros o O Oo; cbn [fold_left].
      - split; [auto|]. intros. cbn [lsum fold_right]. ring.
      - destruct (IH (qadd o (qmk t k))) as [I1 I2]; [intros; apply O; right; auto|apply tidy_add; [auto|]; apply tidy_mk; apply (O (t, k)); left; auto|].
        split; [exact I1|]. intros x y Hx Hy. rewrite I2 by auto. rewrite E_qadd by (auto using bk_code_length). cbn [fst snd]. rewrite (E_mk im Him n) by (auto using bk_code_length; apply (O (t, k)); left; auto).
        unfold lsum. cbn [fold_right fst snd]. ring. }
    destruct (G l [] O) as [G1 G2]; [apply tidy_nil|]. split; [exact G1|]. intros x y Hx Hy. unfold qubit_operator_creation. rewrite G2, X by auto. unfold JWInterProofs.E. cbn. ring.
  Qed.
  Definition mat_of (v : V) : mat K := Build_mat (2 ^ n) (2 ^ n) (fun i j => v (bits n i) (bits n j)).
  Lemma twist_of o v : rep o v <-> tidy o /\ meq (mmul (M o) B) (mmul B (mat_of v)).
  Proof.
    assert (L : forall x y, length y = n -> ent (mmul (M o) B) (bval x) (bval y) = E o x (code y)).
    { intros x y Hy. transitivity (ent (mmul (M o) (mono n (fun c => (1, code c)))) (bval x) (bval y)).
      - cbn [ent mmul]. apply bigsum_ext. intros k Hk. rewrite (proj2 (qop_matrix_shape im n o)) in Hk. f_equal. destruct (encoding_mono (K := K) n) as (_ & _ & X). apply X; [exact Hk|rewrite <- Hy; apply bval_lt].
      - rewrite mmul_mono_r; [|apply qop_matrix_shape|auto|apply bk_code_length]. cbn [fst snd]. unfold JWInterProofs.E. ring. }
    assert (R : forall x y, length x = n -> length y = n -> ent (mmul B (mat_of v)) (bval (code x)) (bval y) = v x y).
    { intros x y Hx Hy. cbn [ent mmul mat_of nc bk_encoding]. rewrite (bigsum_single _ (bval x)).
      - rewrite !bits_bval_n by (auto using bk_code_length). rewrite (eqb_spec_refl _ (list_eqb_spec _ bool_eqb_spec)). ring.
      - apply bval_n; auto.
      - intros k Hk Ne. rewrite bits_bval_n by (auto using bk_code_length). destruct (list_eqb _ _ _) eqn:Q; [|ring]. exfalso. apply Ne. apply (list_eqb_spec _ bool_eqb_spec) in Q.
        apply bk_code_injective in Q; [|auto|apply bits_length]. rewrite Q. rewrite bval_bits_small; auto. }
    split; intros [O X]; split; auto.
    - apply (meq_bits n); try reflexivity; [apply qop_matrix_shape|]. intros z y Hz Hy. destruct (onto n code) with (b := z) as (x & Hx & <-); auto; [intros; apply bk_code_length|intros c d Hc Hd; apply bk_code_injective; auto|].
      rewrite L, R, X by auto. reflexivity.
    - intros x y Hx Hy. rewrite <- L, <- R by auto. destruct X as (_ & _ & X). apply X; cbn [nr nc mmul bk_encoding]; rewrite ?(proj1 (qop_matrix_shape im n o)); apply bval_n; auto using bk_code_length.
  Qed.
  Lemma rep_mul o p v w : rep o v -> rep p w -> rep (qmul o p) (fun x y => bigsum (2 ^ n) (fun k => v x (bits n k) * w (bits n k) y)).
  Proof.
    intros R1 R2. apply twist_of in R1 as [O1 X1]. apply twist_of in R2 as [O2 X2]. apply twist_of. split; [apply tidy_mul; auto|].
    assert (HB : sq (2 ^ n) B) by (split; reflexivity).
    etransitivity; [apply (mmul_sq (2 ^ n)); [apply sq_qop|exact HB|apply (qop_mul_matrix im Him n); [apply O1|apply O2]|reflexivity]|].
    etransitivity; [apply (mul_transfer n B HB (M o) (M p) (mat_of v) (mat_of w)); auto; try apply sq_qop; split; reflexivity|].
    apply (mmul_sq (2 ^ n)); [exact HB|split; reflexivity|reflexivity|]. split; [reflexivity|]. split; [reflexivity|]. intros i j _ _. reflexivity.
  Qed.
  Lemma ladders_app t u x y : length x = n -> length y = n -> bigsum (2 ^ n) (fun k => ladders (K := K) n t x (bits n k) * ladders n u (bits n k) y) = ladders n (t ++ u) x y.
  Proof.
    intros Hx Hy. unfold ladders. destruct (fterm_app (K := K) n t u) as (_ & _ & X). rewrite X; [|rewrite (proj1 (fterm_shape (K := K) n _)); apply bval_n; auto|rewrite (proj2 (fterm_shape (K := K) n _)); apply bval_n; auto].
    cbn [ent mmul]. rewrite (proj2 (fterm_shape (K := K) n t)). apply bigsum_ext. intros k Hk. rewrite bval_bits_small by auto. reflexivity.
  Qed.
  Lemma column_ladders t x y : on_modes n t -> length x = n -> length y = n -> column n t (code x) y = ladders (K := K) n t x y.
  Proof.
    intros Ht Hx Hy. rewrite (lad n) by auto. unfold column. destruct (list_eqb Bool.eqb x _) eqn:Q.
    - apply (list_eqb_spec _ bool_eqb_spec) in Q. rewrite <- Q. rewrite (eqb_spec_refl _ (list_eqb_spec _ bool_eqb_spec)). reflexivity.
    - destruct (list_eqb Bool.eqb (code x) _) eqn:Q'; [|reflexivity]. apply (list_eqb_spec _ bool_eqb_spec) in Q'. apply bk_code_injective in Q'; [|auto|rewrite fact_length; auto].
      rewrite <- Q', (eqb_spec_refl _ (list_eqb_spec _ bool_eqb_spec)) in Q. discriminate.
  Qed.
  Lemma on_of t : on_n n t -> on t.
  Proof. intros H f Hf. unfold on_n in H. rewrite Forall_forall in H. apply H, Hf. Qed.
  Notation lad2 i j := [(i, true); (j, false)].
  Lemma lrep_srl i j c : (i < n)%nat -> (j < n)%nat -> lrep (seeley_richard_love im half order i j c n) (fun x y => c * ladders n (lad2 i j) x y).
  Proof.
    intros Hi Hj. split.
    - destruct (Nat.eq_dec i j) as [<-|Hij].
      + intros tk H. unfold seeley_richard_love in H. rewrite Nat.eqb_refl in H. destruct H as [<-|[<-|[]]]; [|intros f []]. cbn [fst]. apply on_of. apply pad_on; auto with sets.
      + destruct (all_cases im half Him order Horder i j n Hij Hi Hj c) as (s0 & s1 & s2 & s3 & P & S0 & S1 & S2 & S3). intros tk H. apply (Permutation_in _ P) in H.
        destruct H as [<-|[<-|[<-|[<-|[]]]]]; apply on_of; [apply S0|apply S1|apply S2|apply S3].
    - intros x y Hx Hy. rewrite (srl_val im half Him Hhalf order Horder n) by (auto using bk_code_length). rewrite column_ladders; auto. intros f [<-|[<-|[]]]; auto.
  Qed.
  Lemma rep_excitation i j c : (i < n)%nat -> (j < n)%nat -> rep (excitation im half small order i j c n) (fun x y => c * ladders n (lad2 i j) x y).
  Proof. intros. apply rep_creation, lrep_srl; auto. Qed.
  Lemma lrep_const c : lrep [([], c)] (fun x y => c * if list_eqb Bool.eqb x y then 1 else 0).
  Proof.
    split; [intros tk [<-|[]] f []|]. intros x y Hx Hy. cbn [lsum fold_right fst snd]. unfold JWInterProofs.tact. cbn [term_act fst snd].
    destruct (list_eqb Bool.eqb x y) eqn:Q.
    - apply (list_eqb_spec _ bool_eqb_spec) in Q. subst. rewrite (eqb_spec_refl _ (list_eqb_spec _ bool_eqb_spec)). ring.
    - destruct (list_eqb Bool.eqb (code x) _) eqn:Q'; [|ring]. apply (list_eqb_spec _ bool_eqb_spec) in Q'. apply bk_code_injective in Q'; auto.
      rewrite <- Q', (eqb_spec_refl _ (list_eqb_spec _ bool_eqb_spec)) in Q. discriminate.
  Qed.
  Lemma code_eqb x y : length x = n -> length y = n -> list_eqb Bool.eqb (code x) (code y) = list_eqb Bool.eqb x y.
  Proof.
    intros Hx Hy. apply Bool.eq_iff_eq_true. split; intros H; apply (list_eqb_spec _ bool_eqb_spec) in H; apply (list_eqb_spec _ bool_eqb_spec); [revert H; apply bk_code_injective; auto|congruence].
  Qed.
  Lemma lrep_coulomb i j d : (i < n)%nat -> (j < n)%nat ->
    lrep ([(pad order Pz (occupation_set (N.of_nat i)), - (half * half * d)); (pad order Pz (occupation_set (N.of_nat j)), - (half * half * d)); (pad order Pz (F_ij_set (N.of_nat i) (N.of_nat j)), half * half * d)] ++ [([], half * half * d)])
      (fun x y => d * ladders n [(i, true); (i, false); (j, true); (j, false)] x y).
  Proof.
    intros Hi Hj. split.
    - intros tk [<-|[<-|[<-|[<-|[]]]]]; cbn [fst]; try (intros f []); apply on_of; (apply pad_on; [auto|unfold F_ij_set; auto with sets]).
    - intros x y Hx Hy. cbn [app lsum fold_right fst snd]. rewrite !(z_string im order Horder n) by (unfold F_ij_set; auto with sets).
      change (fun q => memb N.eqb (N.of_nat q) (occupation_set (N.of_nat i))) with (fun q => inF (N.of_nat i) (N.of_nat q)).
      change (fun q => memb N.eqb (N.of_nat q) (occupation_set (N.of_nat j))) with (fun q => inF (N.of_nat j) (N.of_nat q)).
      rewrite (zpar_ext (fun q => memb N.eqb (N.of_nat q) (F_ij_set (N.of_nat i) (N.of_nat j))) (fun q => xorb (inF (N.of_nat i) (N.of_nat q)) (inF (N.of_nat j) (N.of_nat q)))) by (intros q _; unfold F_ij_set, inF; apply memb_sym).
      rewrite zpar_xor, !occ_par by auto. unfold JWInterProofs.tact. cbn [term_act fst snd]. rewrite code_eqb by auto. rewrite (two_numbers im small n) by auto.
      destruct (list_eqb Bool.eqb x y); [|ring]. destruct (nth i y false), (nth j y false); cbn [xorb sgn]; try ring. rewrite <- (quarter4 half Hhalf d) at 5. ring.
  Qed.
  Lemma rep_number_excited i j k c c' : (i < n)%nat -> (j < n)%nat -> (k < n)%nat ->
    rep (qmul (excitation im half small order i i 1 n) (qubit_operator_creation im small (seeley_richard_love im half order j k c n ++ seeley_richard_love im half order k j c' n)))
      (fun x y => c * ladders n [(i, true); (i, false); (j, true); (k, false)] x y + c' * ladders n [(i, true); (i, false); (k, true); (j, false)] x y).
  Proof.
    intros Hi Hj Hk. eapply rep_ext; [|apply rep_mul; [apply rep_excitation; auto|apply rep_creation, lrep_app; apply lrep_srl; auto]]. intros x y Hx Hy. cbn beta.
    change [(i, true); (i, false); (j, true); (k, false)] with (lad2 i i ++ lad2 j k). change [(i, true); (i, false); (k, true); (j, false)] with (lad2 i i ++ lad2 k j).
    rewrite <- !ladders_app by auto. rewrite !bigsum_mul_l, <- bigsum_add. apply bigsum_ext. intros. ring.
  Qed.
  Lemma rep_one_product a b c d k k' : (a < n)%nat -> (b < n)%nat -> (c < n)%nat -> (d < n)%nat ->
    rep (qmul (excitation im half small order a c k n) (excitation im half small order b d k' n)) (fun x y => k * k' * ladders n [(a, true); (c, false); (b, true); (d, false)] x y).
  Proof.
    intros. eapply rep_ext; [|apply rep_mul; apply rep_excitation; auto]. intros x y Hx Hy. cbn beta.
    change [(a, true); (c, false); (b, true); (d, false)] with (lad2 a c ++ lad2 b d). rewrite <- !ladders_app by auto. rewrite !bigsum_mul_l. apply bigsum_ext. intros. ring.
  Qed.
  Lemma rep_product a b c d k : (a < n)%nat -> (b < n)%nat -> (c < n)%nat -> (d < n)%nat ->
    rep (hermitian_one_body_product im half small order a b c d k n)
      (fun x y => k * ladders n [(a, true); (c, false); (b, true); (d, false)] x y + kconj k * ladders n [(c, true); (a, false); (d, true); (b, false)] x y).
  Proof.
    intros. unfold hermitian_one_body_product. eapply rep_ext; [|apply rep_add; apply rep_one_product; auto]. intros x y Hx Hy. cbn beta. ring.
  Qed.
End Rep.
