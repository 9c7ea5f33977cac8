(** Expectations of qubit operators from reduced density matrices. *)
From Coq Require Import ZArith Ring Permutation.
From Verif Require Import Base BaseFacts MatModel MatFacts LiftSpec LiftProofs OpModel OpSpec OpProofs PauliProofs OpProofs2 FermiModel FermiSpec FermiProofs FermiProofs2 FermiProofs3 FermiProofs7 FermiProps
  TensorModel TensorSpec TensorProps DiagModel DiagSpec DiagProofs ConvModel ConvProofs ActsProofs MolModel MolProofs9 SectorSpec SectorProofs SectorProofs2 RevJWModel RevJWSpec RevJWProps RdmModel RdmSpec RdmProofs.
Open Scope list_scope.
Local Open Scope nat_scope.

Section S.
  Context {K : cring}.
  Add Ring Kring_rdm2 : (kth K).
  Open Scope K_scope.
  Lemma fterm_particles n t x y : on_modes n t -> length x = n -> length y = n -> (particles x + length (annihilators t) <> particles y + length (creators t))%nat ->
    ent (fterm_matrix (K := K) n t) (bval x) (bval y) = 0.
  Proof.
    intros Ht Hx Hy N. destruct (fterm_mono (K := K) n t Ht) as (_ & _ & E). rewrite E.
    2,3: rewrite ?(proj1 (fterm_shape n t)), ?(proj2 (fterm_shape n t)); first [rewrite <- Hx; apply bval_lt|rewrite <- Hy; apply bval_lt].
    rewrite mono_ent by (auto; rewrite fact_length; auto). destruct (list_eqb Bool.eqb x _) eqn:L; [|ring]. apply (list_eqb_spec _ bool_eqb_spec) in L.
    destruct (fact_particles (K := K) n t y Ht Hy) as [Z|Z]; [rewrite Z; ring|]. exfalso. apply N. rewrite L. lia.
  Qed.
  (** A term that changes the number of particles has average 0 in a state that does not mix numbers. *)
  Lemma unbalanced_average n (rho : mat K) t : on_modes n t -> conserves_number n rho -> length (creators t) <> length (annihilators t) -> average n rho (fterm_matrix n t) = 0.
  Proof.
    intros Ht Hc N. rewrite average_AV. rewrite (AV_ext n rho _ (fun i j => ent (fterm_matrix n t) i j)) by auto. unfold AV. apply bigsum_0. intros i Hi. apply bigsum_0. intros j Hj.
    rewrite <- (bval_bits_small n i Hi), <- (bval_bits_small n j Hj). pose proof (bits_length n i) as Li. pose proof (bits_length n j) as Lj.
    destruct (Nat.eq_dec (particles (bits n j)) (particles (bits n i))) as [E|E]; [|rewrite Hc by auto; ring].
    rewrite fterm_particles by (auto; lia). ring.
  Qed.
  Lemma charge_counts t : charge t = (Z.of_nat (length (annihilators t)) - Z.of_nat (length (creators t)))%Z.
  Proof.
    unfold creators, annihilators. rewrite !map_length. induction t as [|[p d] t IH]; [reflexivity|]. unfold charge in *. cbn [fold_right snd filter]. rewrite IH. destruct d; cbn [negb length]; lia.
  Qed.
  Lemma sides t : (length (creators t) + length (annihilators t))%nat = length t.
  Proof. unfold creators, annihilators. induction t as [|[p []] t IH]; cbn [filter map length snd fst negb] in *; lia. Qed.
  Lemma balanced_iff (t : fterm) : (length t <= 4)%nat -> (is_two_body_number_conserving (fermion_op (K := K) t 1) false = true <-> length (creators t) = length (annihilators t)).
  Proof.
    intros H4. unfold fermion_op, mk_op, fermion_simplify. cbn [fst snd]. rewrite two_body_spec. pose proof (sides t) as S. unfold balanced.
    split.
    - intros H. destruct (H t 1 (or_introl eq_refl)) as [_ H2]. rewrite charge_counts in H2; lia.
    - intros H u c [E|[]]. inversion E; subst u. split; [cbn [In]; lia|]. rewrite charge_counts; lia.
  Qed.
  Lemma long_term (t : fterm) : (4 < length t)%nat -> is_two_body_number_conserving (fermion_op (K := K) t 1) false = false.
  Proof.
    intros H. destruct (is_two_body_number_conserving _ _) eqn:E; [|reflexivity]. apply two_body_spec with (t := t) (c := 1) in E; [|left; reflexivity]. destruct E as [E _]. cbn [In] in E. lia.
  Qed.
  (** The shape of a short balanced term in normal order. *)
  Lemma normal_short (t : fterm) : normal_term t -> (length t <= 4)%nat -> length (creators t) = length (annihilators t) ->
    t = [] \/ (exists p q, t = [(p, true); (q, false)]) \/ (exists p q r s, t = [(p, true); (q, true); (r, false); (s, false)]).
  Proof.
    intros N L B. pose proof (sides t) as S.
    assert (O : forall i j f g, (i < j)%nat -> nth_error t i = Some f -> nth_error t j = Some g -> snd g = true -> snd f = true).
    { intros i j f g Hij Hf Hg Hs. pose proof (N i j f g Hij Hf Hg) as Bf. unfold before in Bf. destruct (snd f), (snd g); try reflexivity; try discriminate; tauto || (destruct Bf as [[? ?]|[? ?]]; congruence) || idtac. all: firstorder congruence. }
    unfold creators, annihilators in B. destruct t as [|[p a] [|[q b] [|[r c] [|[s d] [|]]]]]; cbn [length] in *; try lia.
    - left; reflexivity.
    - exfalso. destruct a; cbn in B; lia.
    - right; left. pose proof (O 0%nat 1%nat _ _ ltac:(lia) eq_refl eq_refl) as O1. cbn [snd] in O1. exists p, q. destruct a, b; cbn in B; try lia; try reflexivity; specialize (O1 eq_refl); discriminate.
    - exfalso. destruct a, b, c; cbn in B; lia.
    - right; right. pose proof (O 0%nat 1%nat _ _ ltac:(lia) eq_refl eq_refl) as O1. pose proof (O 1%nat 2%nat _ _ ltac:(lia) eq_refl eq_refl) as O2. pose proof (O 2%nat 3%nat _ _ ltac:(lia) eq_refl eq_refl) as O3. cbn [snd] in *.
      exists p, q, r, s. destruct a, b, c, d; cbn in B; try lia; try reflexivity; exfalso; auto; try (specialize (O1 eq_refl); discriminate); try (specialize (O2 eq_refl); discriminate); specialize (O3 eq_refl); discriminate.
  Qed.

  Section Loop.
    Context (n : nat) (rho : mat K) (h : heap K) (rdm : ptensor K).
    Context (HR : is_rdm n rho h rdm) (HN : normalized n rho) (HC : conserves_number n rho).
    Lemma step_ok s t c : normal_term t -> on_modes n t -> (length t <= 4)%nat -> fermion_expectation h rdm s (t, c) = Ok (s + c * average n rho (fterm_matrix n t)).
    Proof.
      intros N O L. unfold fermion_expectation. pose proof (balanced_iff t L) as B. destruct (is_two_body_number_conserving (fermion_op t 1) false).
      - pose proof (proj1 B eq_refl) as B'. destruct HR as (Hr & Hn & H1 & H2). destruct (rdm_parts h rdm Hr) as (r1 & r2 & E & S1 & S2).
        unfold value in H1, H2. rewrite E in H1, H2. cbn [dget key_eqb list_eqb Bool.eqb andb element] in H1, H2.
        destruct (normal_short t N L B') as [->|[(p & q & ->)|(p & q & r & s' & ->)]].
        + unfold normalized in HN. cbn [fterm_matrix fold_right]. rewrite HN. f_equal. ring.
        + cbn [map fst length Nat.eqb combine]. unfold rdm_item, array_at, aget. rewrite E. cbn [map snd fst dget key_eqb list_eqb Bool.eqb andb rbind]. rewrite S1, Hn. cbn [forallb].
          assert (Hp : (p < n)%nat) by (apply (O (p, true)); cbn; auto). assert (Hq : (q < n)%nat) by (apply (O (q, false)); cbn; auto).
          rewrite (proj2 (Nat.ltb_lt p n) Hp), (proj2 (Nat.ltb_lt q n) Hq). cbn [andb rbind]. rewrite H1 by auto. f_equal. ring.
        + cbn [map fst length Nat.eqb combine]. unfold rdm_item, array_at, aget. rewrite E. cbn [map snd fst dget key_eqb list_eqb Bool.eqb andb rbind]. rewrite S2, Hn. cbn [forallb].
          assert (Hp : (p < n)%nat) by (apply (O (p, true)); cbn; auto). assert (Hq : (q < n)%nat) by (apply (O (q, true)); cbn; auto).
          assert (Hr' : (r < n)%nat) by (apply (O (r, false)); cbn; auto). assert (Hs : (s' < n)%nat) by (apply (O (s', false)); cbn; auto 6).
          rewrite (proj2 (Nat.ltb_lt p n) Hp), (proj2 (Nat.ltb_lt q n) Hq), (proj2 (Nat.ltb_lt r n) Hr'), (proj2 (Nat.ltb_lt s' n) Hs). cbn [andb rbind]. rewrite H2 by auto. f_equal. ring.
      - destruct (Nat.ltb_spec 4 (length t)); [lia|]. rewrite unbalanced_average; auto; [f_equal; ring|]. intros E. apply B in E. discriminate.
    Qed.
    Lemma step_long s t c : (4 < length t)%nat -> fermion_expectation h rdm s (t, c) = Err GenericException.
    Proof. intros L. unfold fermion_expectation. rewrite long_term by auto. rewrite (proj2 (Nat.ltb_lt _ _) L). reflexivity. Qed.
    Lemma loop_ok (b : fop K) : forall s, (forall t c, In (t, c) b -> normal_term t /\ on_modes n t /\ (length t <= 4)%nat) ->
      foldM (fermion_expectation h rdm) b s = Ok (s + lval (fun t => average n rho (fterm_matrix n t)) b).
    Proof.
      induction b as [|[t c] b IH]; intros s H; cbn [foldM lval fst snd]; [f_equal; ring|]. destruct (H t c (or_introl eq_refl)) as (H1 & H2 & H3). rewrite step_ok by auto. cbn [rbind].
      rewrite IH by (intros u d Hu; apply (H u d); right; auto). f_equal. ring.
    Qed.
    Lemma loop_long (b : fop K) : forall s, (forall t c, In (t, c) b -> normal_term t /\ on_modes n t) -> (exists t c, In (t, c) b /\ (4 < length t)%nat) ->
      foldM (fermion_expectation h rdm) b s = Err GenericException.
    Proof.
      induction b as [|[t c] b IH]; intros s H (u & d & Hin & L); [destruct Hin|]. cbn [foldM]. destruct (le_lt_dec (length t) 4) as [Lt|Lt]; [|rewrite step_long by auto; reflexivity].
      destruct (H t c (or_introl eq_refl)) as (H1 & H2). rewrite step_ok by auto. cbn [rbind]. apply IH; [intros u' d' Hu; apply (H u' d'); right; auto|]. destruct Hin as [E|Hin]; [inversion E; subst; lia|eauto].
    Qed.
  End Loop.

  Section Term.
    Context (im : K) (Him : im * im = - (1)) (small : K -> bool) (Hs1 : small 1 = false) (Hs2 : small (- (1 + 1)) = false) (Hs3 : small (- im) = false) (Hz : only_zero small) (H0 : small 0 = true).
    Context (n : nat) (rho : mat K) (h : heap K) (rdm : ptensor K).
    Context (HR : is_rdm n rho h rdm) (HN : normalized n rho) (HC : conserves_number n rho).
    Lemma reversed_form t : canonical t -> (forall f, In f t -> (fst f < n)%nat) ->
      exists f, reverse_jordan_wigner im small (mk_op (qubit_simplify im) t 1) None = Ok f /\ on_qubits n (normal_ordered small f) /\ meq (fop_matrix n (normal_ordered small f)) (term_matrix im n t).
    Proof.
      intros C O. unfold mk_op. rewrite canonical_simplify by auto.
      assert (Sf : stored_form [(t, (1 : K))]) by (split; [repeat constructor; intros []|intros u c [E|[]]; inversion E; subst; auto]).
      assert (On : on_qubits n [(t, (1 : K))]) by (intros u c [E|[]]; inversion E; subst; auto).
      destruct (C70_acts im Him small Hs1 Hs2 Hs3 n [(t, 1)] None Sf On I) as (f & r & E & Of & Sr & _ & M). exists f. split; [exact E|].
      destruct (normal_ordered_ok small (on_modes n) (on_modes_perm n) (on_modes_del n) f Of) as [G _]. split.
      { intros u c Hin. apply (good_In _ bool_eqb_spec _ _ _ G u c Hin). }
      etransitivity; [apply C46_same_operator_exact; auto|]. etransitivity; [apply (fop_exact small n _ _ r); eauto; apply fop_shape|].
      split; [rewrite (proj1 (term_matrix_shape im n t)); apply qop_matrix_shape|]. split; [rewrite (proj2 (term_matrix_shape im n t)); apply qop_matrix_shape|]. intros i j _ _. rewrite qop_matrix_ent. cbn [lval fst snd]. ring.
    Qed.
    Lemma long_not_few t f : meq (fop_matrix n (normal_ordered small f)) (term_matrix im n t) -> on_qubits n (normal_ordered small f) -> few_body n (term_matrix im n t) ->
      forall u c, In (u, c) (normal_ordered small f) -> (length u <= 4)%nat.
    Proof.
      intros M On (b & Wb & Ob & Nb & Lb & Mb) u c Hin. destruct (C46_normal small f) as (N & W & NS & _). pose proof (NS u c Hin) as Sc.
      assert (U : forall t, coef Bool.eqb (normal_ordered small f) t = coef Bool.eqb b t).
      { apply (normal_unique n); auto.
        - intros v Hv. apply in_map_iff in Hv. destruct Hv as ([v' d] & <- & Hv). split; [apply sorted_normal; eapply N; eauto|exact (On v' d Hv)].
        - intros v Hv. apply in_map_iff in Hv. destruct Hv as ([v' d] & <- & Hv). split; [apply sorted_normal; eapply Nb; eauto|exact (Ob v' d Hv)].
        - etransitivity; [exact M|symmetry; exact Mb]. }
      specialize (U u). unfold coef in U. pose proof (BaseFacts.In_dget (term_eqb Bool.eqb) (term_eqb_spec _ bool_eqb_spec) u c (normal_ordered small f) W Hin) as D. rewrite D in U.
      destruct (dget (term_eqb Bool.eqb) u b) as [d|] eqn:Db; [|rewrite U, H0 in Sc; discriminate]. apply (dget_In _ (term_eqb_spec _ bool_eqb_spec)) in Db. eapply Lb; eauto.
    Qed.
    Lemma qubit_expectation_cases t : canonical t -> (forall f, In f t -> (fst f < n)%nat) ->
      (few_body n (term_matrix im n t) /\ qubit_expectation im small h rdm t = Ok (average n rho (term_matrix im n t))) \/
      (~ few_body n (term_matrix im n t) /\ qubit_expectation im small h rdm t = Err GenericException).
    Proof.
      intros C O. destruct (reversed_form t C O) as (f & E & On & M). unfold qubit_expectation. rewrite E. cbn [rbind]. destruct (C46_normal small f) as (N & W & NS & _).
      destruct (existsb (fun tc : fterm * K => (4 <? length (fst tc))%nat) (normal_ordered small f)) eqn:X.
      - right. apply existsb_exists in X. destruct X as ([u c] & Hin & L). apply Nat.ltb_lt in L. cbn [fst] in L. split.
        + intros Fb. pose proof (long_not_few t f M On Fb u c Hin). lia.
        + apply (loop_long n rho h rdm HR HN HC); [intros u' c' Hin'; split; [eapply N; eauto|exact (On u' c' Hin')]|eauto].
      - left.
        assert (L : forall u c, In (u, c) (normal_ordered small f) -> (length u <= 4)%nat).
        { intros u c Hin. destruct (le_lt_dec (length u) 4) as [L|L]; [exact L|]. exfalso. assert (Y : existsb (fun tc : fterm * K => (4 <? length (fst tc))%nat) (normal_ordered small f) = true) by (apply existsb_exists; exists (u, c); split; [exact Hin|apply Nat.ltb_lt, L]). congruence. }
        split; [exists (normal_ordered small f); repeat split; auto; apply M|].
        rewrite (loop_ok n rho h rdm HR HN HC) by (intros u c Hin; split; [eapply N; eauto|split; [exact (On u c Hin)|eauto]]). f_equal. rewrite <- average_fop. etransitivity; [|apply (average_meq n rho (fop_matrix n (normal_ordered small f))); [apply fop_shape|apply fop_shape|exact M]]. ring.
    Qed.
    Definition short_form (t : term pauli) : bool :=
      match reverse_jordan_wigner im small (mk_op (qubit_simplify im) t 1) None with Ok f => forallb (fun tc : fterm * K => (length (fst tc) <=? 4)%nat) (normal_ordered small f) | Err _ => false end.
    Lemma short_form_spec t : canonical t -> (forall f, In f t -> (fst f < n)%nat) -> (short_form t = true <-> few_body n (term_matrix im n t)).
    Proof.
      intros C O. destruct (reversed_form t C O) as (f & E & On & M). unfold short_form. rewrite E, forallb_forall. destruct (C46_normal small f) as (N & W & NS & _). split.
      - intros L. exists (normal_ordered small f). repeat split; auto; try apply M. intros u c Hin. apply Nat.leb_le. apply (L _ Hin).
      - intros Fb [u c] Hin. apply Nat.leb_le. exact (long_not_few t f M On Fb u c Hin).
    Qed.
  End Term.
End S.
