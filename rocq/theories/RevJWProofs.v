(** Proofs for C70: the reverse Jordan-Wigner transform. *)
From Coq Require Import ZArith Permutation Sorted Ring.
From Verif Require Import Base BaseFacts MatModel MatFacts LiftSpec LiftProofs OpModel OpSpec OpProofs PauliProofs OpProofs2 ConjProofs
  FermiModel FermiSpec FermiProofs FermiProofs2 FermiProofs3 FermiProofs4 FermiProofs6 FermiProofs7 RevJWModel.
Open Scope list_scope.
Local Open Scope nat_scope.

(** ** Simplifying a term whose upper part is canonical already *)
Section Split.
  Context {K : cring} (im : K) (Him : kmul im im = kopp k1).
  Add Ring Kring_rj1 : (kth K).
  Open Scope K_scope.
  Definition under (u : term pauli) (q : nat) : Prop := forall f, In f u -> fst f < q.
  Lemma insert_app f (l b : term pauli) : (forall g, In g b -> fst f < fst g) -> insert_by index_leb f (l ++ b) = insert_by index_leb f l ++ b.
  Proof.
    intros H. induction l as [|g l IH]; cbn [insert_by app].
    - destruct b as [|h b]; [reflexivity|]. cbn [insert_by]. assert (E : index_leb f h = true) by (apply Nat.leb_le; specialize (H h (or_introl eq_refl)); lia). rewrite E. reflexivity.
    - destruct (index_leb f g); [reflexivity|]. rewrite IH. reflexivity.
  Qed.
  Lemma sort_app (l b : term pauli) : canonical b -> (forall f g, In f l -> In g b -> fst f < fst g) -> sort_by index_leb (l ++ b) = sort_by index_leb l ++ b.
  Proof.
    intros Hb H. induction l as [|f l IH]; cbn [sort_by app]; [apply canonical_sorted; auto|].
    rewrite IH by (intros; apply H; [right|]; auto). apply insert_app. intros g Hg. apply H; [left|]; auto.
  Qed.
  Lemma merge_app (l b : term pauli) : canonical b -> forall lf c, (forall f g, In f (lf :: l) -> In g b -> fst f < fst g) ->
    merge_factors im lf (l ++ b) c = (fst (merge_factors im lf l c), snd (merge_factors im lf l c) ++ b).
  Proof.
    intros Hb. induction l as [|rf l IH]; intros lf c H; cbn [merge_factors app].
    - destruct b as [|g b]; cbn [merge_factors fst snd]; [rewrite app_nil_r; reflexivity|].
      destruct (Nat.eqb_spec (fst lf) (fst g)) as [E|E]; [specialize (H lf g (or_introl eq_refl) (or_introl eq_refl)); lia|].
      pose proof (canonical_simplify im (g :: b) c Hb) as S. unfold qubit_simplify in S. rewrite canonical_sorted in S by auto. rewrite S.
      destruct (pauli_eqb (snd lf) Pid); reflexivity.
    - destruct (Nat.eqb (fst lf) (fst rf)).
      + destruct (pauli_product im (snd lf) (snd rf)) as [d a]. apply IH. intros f g [<-|Hf] Hg; [apply (H lf); auto; left; auto|apply H; auto; right; right; auto].
      + rewrite IH by (intros f g Hf Hg; apply H; auto; right; auto). destruct (merge_factors im rf l c) as [c' t]. cbn [fst snd]. destruct (pauli_eqb (snd lf) Pid); reflexivity.
  Qed.
  Lemma simplify_app (l b : term pauli) c : canonical b -> (forall f g, In f l -> In g b -> fst f < fst g) ->
    qubit_simplify im (l ++ b) c = (fst (qubit_simplify im l c), snd (qubit_simplify im l c) ++ b).
  Proof.
    intros Hb H. unfold qubit_simplify. rewrite sort_app by auto.
    assert (H' : forall f g, In f (sort_by index_leb l) -> In g b -> fst f < fst g).
    { intros f g Hf Hg. apply H; auto. eapply Permutation_in; [apply sort_by_perm|exact Hf]. }
    destruct (sort_by index_leb l) as [|f l']; cbn [app].
    - pose proof (canonical_simplify im b c Hb) as S. unfold qubit_simplify in S. rewrite canonical_sorted in S by auto. cbn [fst snd]. rewrite app_nil_l. exact S.
    - apply merge_app; auto.
  Qed.

  Notation qmul := (op_mul pauli_eqb (qubit_simplify im)).
  Notation qmk := (mk_op (qubit_simplify im)).
  Lemma mul_single (t u : term pauli) c d : qmul [(t, c)] [(u, d)] = let '(e, w) := qubit_simplify im (t ++ u) (c * d) in [(w, e)].
  Proof. unfold op_mul. cbn [fold_left fst snd]. destruct (qubit_simplify im (t ++ u) (c * d)) as [e w]. reflexivity. Qed.
  Lemma mk_z j (c : K) : qmk [(j, Pz)] c = [([(j, Pz)], c)].
  Proof. unfold mk_op. rewrite canonical_simplify; [reflexivity|]. cbn. repeat split; auto. discriminate. Qed.

  (** multiplying by Z's below the upper part only changes the lower part *)
  Lemma z_fold n q (hi : term pauli) (js : list nat) : canonical hi -> (forall g, In g hi -> q <= fst g) -> (forall j, In j js -> j < q) -> (q <= n)%nat ->
    forall (lo : term pauli) c, canonical lo -> under lo q ->
    exists lo' c', fold_left (fun w j => qmul (qmk [(j, Pz)] 1) w) js [(lo ++ hi, c)] = [(lo' ++ hi, c')] /\ canonical lo' /\ under lo' q /\
      forall b, length b = n -> scaled c' (term_act im lo' b) = scaled c (term_act im (map (fun j => (j, Pz)) (rev js) ++ lo) b).
  Proof.
    intros Hh Hq Hj Hn. induction js as [|j js IH]; intros lo c Hlo Hu; cbn [fold_left].
    - exists lo, c. repeat split; auto.
    - rewrite mk_z, mul_single. change ([(j, Pz)] ++ lo ++ hi) with (((j, Pz) :: lo) ++ hi).
      assert (U : under ((j, Pz) :: lo) q) by (intros f [<-|Hf]; [apply Hj; left; auto|apply Hu; auto]).
      rewrite simplify_app by (auto; intros f g Hf Hg; specialize (U f Hf); specialize (Hq g Hg); lia).
      pose proof (simplify_canonical im ((j, Pz) :: lo) (1 * c)) as C1. pose proof (simplify_qubits im ((j, Pz) :: lo) (1 * c) q U) as C2.
      pose proof (fun b => simplify_act im Him ((j, Pz) :: lo) (1 * c) b) as C3.
      destruct (qubit_simplify im ((j, Pz) :: lo) (1 * c)) as [c1 lo1]. cbn [fst snd] in *.
      destruct (IH (fun j' Hj' => Hj j' (or_intror Hj')) lo1 c1 C1 C2) as (lo' & c' & E & Ca & Un & Ac). exists lo', c'. split; [exact E|]. split; [auto|]. split; [auto|].
      intros b Hb. rewrite Ac by auto. cbn [rev]. rewrite map_app, <- app_assoc. cbn [map app].
      specialize (C3 b ltac:(intros f Hf; specialize (U f Hf); lia)). rewrite !(term_act_app im _ _ b). unfold scaled, mcomp in *. cbn [fst snd] in *.
      apply pair_equal_spec in C3 as [E1 E2]. rewrite E2. f_equal.
      set (a := fst (term_act im (map (fun j0 : nat => (j0, Pz)) (rev js)) (snd (term_act im ((j, Pz) :: lo) b)))).
      transitivity (a * (c1 * fst (term_act im lo1 b))); [ring|]. rewrite E1. ring.
  Qed.
End Split.

(** ** Sizes of products and sums *)

(** ** One Pauli operator and one term *)
Section Step.
  Context {K : cring} (im : K) (Him : kmul im im = kopp k1) (small : K -> bool).
  (** the coefficients the code adds to others are not small *)
  Context (Hs1 : small k1 = false) (Hs2 : small (kopp (kadd k1 k1)) = false) (Hs3 : small (kopp im) = false).
  Add Ring Kring_rj2 : (kth K).
  Open Scope K_scope.
  Context (n : nat).
  Notation F := (fop_matrix (K := K) n).
  Notation T := (term_matrix im n).
  Notation act := (term_act im).

  Lemma single_ent (t : term bool) b c : on_modes n t -> length b = n -> length c = n ->
    ent (fterm_matrix (K := K) n t) (bval b) (bval c) = if list_eqb Bool.eqb b (snd (fact (K := K) t c)) then fst (fact (K := K) t c) else 0.
  Proof.
    intros Ht Hb Hc. destruct (fterm_mono (K := K) n t Ht) as (_ & _ & E).
    rewrite E; [apply mono_ent; auto; rewrite fact_length; auto| |]; rewrite ?(proj1 (fterm_shape n t)), ?(proj2 (fterm_shape n t)); rewrite <- ?Hb, <- ?Hc; try apply bval_lt.
    rewrite Hb, <- Hc. apply bval_lt.
  Qed.
  (** a raising and a lowering operator of one mode *)
  Lemma pair_matrix p (u v : K) : (p < n)%nat ->
    meq (F [([(p, true)], u); ([(p, false)], v)])
      (mono n (fun c => (sgn (odd_count (firstn p c)) * (if nth p c false then v else u), setb p (negb (nth p c false)) c))).
  Proof.
    intros Hp. assert (O1 : forall d, on_modes n [(p, d)]) by (intros d f [<-|[]]; exact Hp).
    apply (meq_bits n); [apply fop_shape|apply fop_shape|reflexivity|reflexivity|]. intros b c Hb Hc.
    rewrite mono_ent by (auto; cbn; rewrite setb_length; auto). rewrite fop_ent. cbn [lval fst snd]. rewrite !single_ent by auto.
    cbn [fact]. unfold mcomp, ladder_act. cbn [fst snd]. destruct (nth p c false); cbn [negb Bool.eqb];
      destruct (list_eqb Bool.eqb b (setb p true c)), (list_eqb Bool.eqb b (setb p false c)); ring.
  Qed.
  (** 1 - 2 n *)
  Lemma z_matrix p : (p < n)%nat -> meq (F [([], 1); ([(p, true); (p, false)], - (1 + 1))]) (mono n (act [(p, Pz)])).
  Proof.
    intros Hp. apply (meq_bits n); [apply fop_shape|apply fop_shape|reflexivity|reflexivity|]. intros b c Hb Hc.
    rewrite mono_ent by (auto; apply (term_keeps im n); auto). rewrite fop_ent. cbn [lval fst snd].
    rewrite !single_ent by (auto; intros f Hf; cbn in Hf; intuition (subst; exact Hp)).
    cbn [fact term_act]. unfold mcomp, ladder_act. cbn [fst snd factor_act pauli_bit]. rewrite !setb_setb, !setb_nth.
    rewrite nth_setb_same by lia. rewrite odd_count_setb by lia. rewrite Nat.ltb_irrefl. cbn [negb Bool.eqb].
    set (s := odd_count (firstn p c)). pose proof (sgn_sq (K := K) s) as Q.
    destruct (nth p c false) eqn:E; cbn [negb Bool.eqb].
    - rewrite <- E, setb_nth. destruct (list_eqb Bool.eqb b c); [|ring]. transitivity (1 - (1 + 1) * (sgn s * sgn s) : K); [ring|rewrite Q; ring].
    - destruct (list_eqb Bool.eqb b c), (list_eqb Bool.eqb b (setb p true c)); ring.
  Qed.

  Lemma canonical_app (l r : term pauli) : canonical (l ++ r) -> canonical l /\ canonical r /\ forall f g, In f l -> In g r -> fst f < fst g.
  Proof.
    induction l as [|h l IH]; intros H; [split; [exact I|]; split; [exact H|]; intros f g []|].
    pose proof (canonical_head h (l ++ r) H) as Hh. destruct H as (H1 & _ & H3). destruct (IH H3) as (A & B & C). split; [|split; [exact B|]].
    - apply canonical_cons_intro; auto. intros g Hg. apply Hh. apply in_or_app; auto.
    - intros f g [<-|Hf] Hg; [apply Hh; apply in_or_app; auto|apply C; auto].
  Qed.
  Lemma canonical_join (l r : term pauli) : canonical l -> canonical r -> (forall f g, In f l -> In g r -> fst f < fst g) -> canonical (l ++ r).
  Proof.
    induction l as [|h l IH]; intros Hl Hr H; [exact Hr|]. cbn [app]. apply canonical_cons_intro; [apply Hl| |apply IH; [apply Hl|auto|intros; apply H; [right|]; auto]].
    intros g Hg. apply in_app_or in Hg as [Hg|Hg]; [apply (canonical_head h l Hl); auto|apply H; [left|]; auto].
  Qed.
  Lemma T_mono (t : term pauli) : (forall f, In f t -> fst f < n) -> meq (T t) (mono n (act t)).
  Proof. intros H. apply (term_matrix_mono im n t H). Qed.
  Lemma act_last (lo : term pauli) p b : under lo (fst p) -> act (lo ++ [p]) b = act (p :: lo) b.
  Proof.
    induction lo as [|f lo IH]; intros H; [reflexivity|]. cbn [app]. rewrite (term_act_swap im p f) by (specialize (H f (or_introl eq_refl)); lia).
    apply term_act_cons_ext. apply IH. intros g Hg. apply H; right; auto.
  Qed.
  (** the images before the phase is accounted for *)
  Definition image_of (a : pauli) (p : nat) : fop K := [([(p, true)], if pauli_eqb a Py then im else 1); ([(p, false)], if pauli_eqb a Py then - im else 1)].
  Lemma image_act a p c : a = Px \/ a = Py -> (p < length c)%nat ->
    (sgn (odd_count (firstn p c)) * (if nth p c false then (if pauli_eqb a Py then - im else 1) else (if pauli_eqb a Py then im else 1)), setb p (negb (nth p c false)) c)
    = act (map (fun j => (j, Pz)) (seq 0 p) ++ [(p, a)]) c.
  Proof.
    intros Ha Hp. rewrite term_act_app. unfold mcomp. rewrite z_act. cbn [fst snd term_act mcomp]. unfold mcomp. cbn [fst snd factor_act].
    rewrite map_nth_seq by (rewrite setb_length; lia). rewrite odd_count_setb by lia. rewrite Nat.ltb_irrefl.
    destruct Ha as [-> | ->]; cbn [pauli_bit pauli_eqb fst snd]; destruct (nth p c false); apply pair_equal_spec; split; try reflexivity; ring.
  Qed.
  Lemma scale_matrix (a : fop K) c : meq (F (op_scale a c)) (mscale c (F a)).
  Proof.
    apply (meq_qop n); try apply fop_shape. intros i j Hi Hj. cbn [ent mscale]. rewrite !fop_ent, lval_scale. ring.
  Qed.
  Lemma zz_cancel (u : term pauli) a p b : (p < n)%nat -> length b = n ->
    act ((map (fun j => (j, Pz)) (seq 0 p) ++ [(p, a)]) ++ map (fun j => (j, Pz)) (seq 0 p) ++ u) b = act ((p, a) :: u) b.
  Proof.
    intros Hp Hb. rewrite !term_act_app, (term_act_cons im (p, a) u). unfold mcomp. rewrite !term_act_app. unfold mcomp. rewrite !z_act. cbn [fst snd].
    cbn [term_act]. unfold mcomp. cbn [fst snd factor_act].
    set (c := snd (act u b)). assert (Lc : length c = n) by (apply (term_keeps im n); auto).
    rewrite !map_nth_seq by (rewrite ?setb_length; lia). rewrite odd_count_setb by lia. rewrite Nat.ltb_irrefl.
    apply pair_equal_spec; split; [|reflexivity]. set (s := odd_count (firstn p c)). pose proof (sgn_sq (K := K) s) as Q.
    set (x := fst (pauli_bit im a (nth p c false))).
    transitivity (sgn s * sgn s * (x * fst (act u b))); [ring|rewrite Q; ring].
  Qed.

  Lemma step nq (lo hi : term pauli) (p : factor pauli) : canonical (lo ++ p :: hi) -> fst p < n ->
    exists tp lo', transform_pauli im small nq p [(lo ++ p :: hi, 1)] = Ok (tp, [(lo' ++ p :: hi, 1)]) /\ canonical lo' /\ under lo' (fst p) /\
      on_qubits n tp /\ length tp = 2%nat /\ meq (mmul (F tp) (T lo')) (T (lo ++ [p])).
  Proof.
    intros Hc Hp. destruct (canonical_app _ _ Hc) as (Cl & Ch & Hx). assert (Ul : under lo (fst p)) by (intros f Hf; apply Hx; [auto|left; auto]).
    assert (Hq : forall g, In g (p :: hi) -> (fst p <= fst g)%nat) by (intros g [<-|Hg]; [lia|pose proof (canonical_head p hi Ch g Hg); lia]).
    destruct p as [q a]. cbn [fst] in *.
    assert (Tl : meq (T (lo ++ [(q, a)])) (mono n (act ((q, a) :: lo)))).
    { etransitivity; [apply T_mono; intros f Hf; apply in_app_or in Hf as [Hf|[<-|[]]]; [specialize (Ul f Hf); lia|exact Hp]|]. apply mono_ext. intros c _. apply act_last. exact Ul. }
    assert (Ka : a <> Pid) by (destruct Ch as [Ch _]; exact Ch).
    assert (XY : a = Px \/ a = Py ->
      transform_pauli im small nq (q, a) [(lo ++ (q, a) :: hi, 1)] =
        match fold_left (fun w j => op_mul pauli_eqb (qubit_simplify im) (mk_op (qubit_simplify im) [(j, Pz)] 1) w) (rev (seq 0 q)) [(lo ++ (q, a) :: hi, 1)] with
        | [] => Err IndexError | (t, c) :: rest => Ok (op_scale (image_of a q) c, (t, 1) :: rest) end).
    { intros Ha. unfold transform_pauli. cbn [fst snd].
      assert (E : fermion_add small (if pauli_eqb a Py then op_scale (fermion_op (K := K) [(q, true)] 1) im else fermion_op [(q, true)] 1)
                    (if pauli_eqb a Py then op_scale (fermion_op (K := K) [(q, false)] 1) (- im) else fermion_op [(q, false)] 1) = image_of a q).
      { assert (N : forall u v : K, small (0 + v) = false -> fermion_add small [([(q, true)], u)] [([(q, false)], v)] = [([(q, true)], u); ([(q, false)], 0 + v)]).
        { intros u v Hv. unfold fermion_add, op_add, merge_term. cbn [fold_left fst snd dget]. unfold term_eqb. cbn [list_eqb]. unfold factor_eqb. cbn [fst snd].
          rewrite Nat.eqb_refl. cbn [andb Bool.eqb dget dset]. rewrite Hv. unfold term_eqb. cbn [list_eqb]. unfold factor_eqb. cbn [fst snd]. rewrite Nat.eqb_refl. reflexivity. }
        unfold image_of. destruct Ha as [-> | ->]; cbn [pauli_eqb]; unfold fermion_op, mk_op, fermion_simplify; cbn [op_scale map fst snd]; rewrite N; repeat f_equal; try ring;
          [etransitivity; [|exact Hs1]; f_equal; ring|etransitivity; [|exact Hs3]; f_equal; ring]. }
      destruct Ha as [-> | ->]; rewrite <- E; reflexivity. }
    destruct (pauli_eqb a Pz) eqn:Ez.
    - apply pauli_eqb_spec in Ez. subst a. exists [([], 1); ([(q, true); (q, false)], - (1 + 1))], lo. split.
      + unfold transform_pauli. cbn [snd fst]. unfold number_operator. cbn [Z.eqb Pos.eqb negb rbind]. unfold fermion_op, mk_op, fermion_simplify.
        unfold fermion_add, op_add, merge_term. cbn [fold_left fst snd dget term_eqb list_eqb dset].
        replace (small (0 + - (1 + 1))) with false by (rewrite <- Hs2; f_equal; ring). repeat f_equal. ring.
      + split; [auto|]. split; [auto|]. split; [intros t c Hin f Hf; cbn in Hin; destruct Hin as [E|[E|[]]]; inversion E; subst; cbn in Hf; intuition (subst; exact Hp)|]. split; [reflexivity|].
        etransitivity; [|symmetry; exact Tl]. etransitivity; [apply (mmul_sq (2 ^ n)); [apply fop_shape|apply term_matrix_shape|apply z_matrix; exact Hp|apply T_mono; intros f Hf; specialize (Ul f Hf); lia]|].
        etransitivity; [apply mono_mmul; apply term_keeps|]. apply mono_ext. intros c _. rewrite term_act_cons. unfold mcomp. cbn [term_act]. unfold mcomp. cbn [fst snd]. apply pair_equal_spec; split; [ring|reflexivity].
    - assert (Ha : a = Px \/ a = Py) by (destruct a; auto; [congruence|discriminate Ez]). specialize (XY Ha).
      destruct (z_fold im Him n q ((q, a) :: hi) (rev (seq 0 q)) Ch Hq) with (lo := lo) (c := (1 : K)) as (lo' & c' & Ef & C' & U' & Ac); auto; [intros j Hj; apply in_rev, in_seq in Hj; lia|lia|].
      rewrite Ef in XY. exists (op_scale (image_of a q) c'), lo'. split; [exact XY|]. split; [auto|]. split; [auto|].
      split; [intros t c Hin f Hf; cbn in Hin; destruct Hin as [E|[E|[]]]; inversion E; subst; cbn in Hf; intuition (subst; exact Hp)|]. split; [reflexivity|].
      etransitivity; [|symmetry; exact Tl]. rewrite rev_involutive in Ac.
      assert (E1 : meq (F (image_of a q)) (mono n (act (map (fun j => (j, Pz)) (seq 0 q) ++ [(q, a)])))).
      { etransitivity; [apply pair_matrix; exact Hp|]. apply mono_ext. intros c Hc'. apply image_act; [exact Ha|lia]. }
      assert (E2 : meq (mscale c' (T lo')) (mono n (act (map (fun j => (j, Pz)) (seq 0 q) ++ lo)))).
      { assert (Tm : meq (T lo') (mono n (act lo'))) by (apply T_mono; intros f Hf; specialize (U' f Hf); lia).
        apply (meq_bits n); [apply term_matrix_shape|apply term_matrix_shape|reflexivity|reflexivity|]. intros b c Hb Hc'. destruct Tm as (_ & _ & Tm). cbn [ent mscale].
        rewrite Tm; [|rewrite (proj1 (term_matrix_shape im n lo')), <- Hb; apply bval_lt|rewrite (proj2 (term_matrix_shape im n lo')), <- Hc'; apply bval_lt].
        rewrite !mono_ent by (auto; apply (term_keeps im n); auto). specialize (Ac c Hc'). unfold scaled in Ac. apply pair_equal_spec in Ac as [A1 A2]. rewrite A2.
        destruct (list_eqb _ _ _); [|ring]. rewrite A1. ring. }
      etransitivity; [apply (mmul_sq (2 ^ n)); [apply fop_shape|apply term_matrix_shape|apply scale_matrix|reflexivity]|].
      transitivity (mmul (F (image_of a q)) (mscale c' (T lo'))); [|etransitivity; [apply (mmul_sq (2 ^ n)); [apply fop_shape|split; [apply (term_matrix_shape im n lo')|apply (term_matrix_shape im n lo')]|exact E1|exact E2]|]].
      + apply (meq_qop n); try (cbn [nr nc mmul mscale]; apply fop_shape); try (cbn [nr nc mmul mscale]; apply term_matrix_shape). intros i j Hi Hj. cbn [ent mmul mscale nc]. apply bigsum_ext. intros l _. ring.
      + etransitivity; [apply mono_mmul; apply term_keeps|]. apply mono_ext. intros c Hc'. rewrite <- (zz_cancel lo a q c Hp Hc').
        rewrite (term_act_app im _ _ c). reflexivity.
  Qed.

  Lemma find_skip {X} (P : X -> bool) l r : (forall x, In x l -> P x = false) -> find P (l ++ r) = find P r.
  Proof. induction l as [|x l IH]; intros H; [reflexivity|]. cbn [app find]. rewrite (H x (or_introl eq_refl)). apply IH. intros y Hy. apply H; right; auto. Qed.
  Lemma next_of (lo hi : term pauli) p (c : K) : under lo (fst p) -> (forall g, In g hi -> (fst p <= fst g)%nat) ->
    next_pauli p [(lo ++ p :: hi, c)] = Ok (match rev lo with [] => None | f :: _ => Some f end).
  Proof.
    intros Hl Hh. unfold next_pauli.
    assert (E : rev (lo ++ p :: hi) = (rev hi ++ [p]) ++ rev lo) by (rewrite rev_app_distr; reflexivity).
    assert (G : find (fun f : factor pauli => Nat.ltb (fst f) (fst p)) (rev (lo ++ p :: hi)) = match rev lo with [] => None | f :: _ => Some f end).
    { rewrite E, find_skip.
      - destruct (rev lo) as [|f l] eqn:R; [reflexivity|]. cbn [find]. assert (X : Nat.ltb (fst f) (fst p) = true); [|rewrite X; reflexivity].
        apply Nat.ltb_lt, Hl. apply in_rev. rewrite R. left; auto.
      - intros f Hf. apply Nat.ltb_ge. apply in_app_or in Hf as [Hf|[<-|[]]]; [apply Hh, in_rev, Hf|lia]. }
    destruct (rev (lo ++ p :: hi)) as [|f l]; [destruct (rev hi); discriminate E|]. exact (f_equal Ok G).
  Qed.
  Lemma loop_ok nq : forall fuel (lo hi : term pauli) (p : factor pauli) (acc : fop K), canonical (lo ++ p :: hi) -> fst p < n -> fst p < fuel -> on_qubits n acc ->
    exists r, transform_loop im small fuel nq (Some p) [(lo ++ p :: hi, 1)] acc = Ok r /\ on_qubits n r /\ (length r <= length acc * 2 ^ S (fst p))%nat /\
      meq (F r) (mmul (F acc) (T (lo ++ [p]))).
  Proof.
    induction fuel as [|fuel IH]; intros lo hi p acc Hc Hp Hf Ha; [lia|]. cbn [transform_loop].
    destruct (step nq lo hi p Hc Hp) as (tp & lo' & -> & C' & U' & Ot & Lt & Et). cbn [rbind snd fst].
    assert (Hh : forall g, In g hi -> (fst p <= fst g)%nat).
    { destruct (canonical_app _ _ Hc) as (_ & Ch & _). intros g Hg. pose proof (canonical_head p hi Ch g Hg). lia. }
    rewrite next_of by auto. cbn [rbind].
    assert (Oa : on_qubits n (fermion_mul acc tp)) by (apply fmul_on; auto).
    assert (La : (length (fermion_mul acc tp) <= length acc * 2)%nat) by (rewrite <- Lt; apply (mul_length Bool.eqb)).
    assert (Ea : meq (mmul (F (fermion_mul acc tp)) (T lo')) (mmul (F acc) (T (lo ++ [p])))).
    { etransitivity; [apply (mmul_sq (2 ^ n)); [apply fop_shape|apply term_matrix_shape|apply fop_mul_matrix|reflexivity]|].
      etransitivity; [apply (assoc_sq (2 ^ n)); [apply fop_shape|apply fop_shape|apply term_matrix_shape]|].
      apply (mmul_sq (2 ^ n)); [apply fop_shape|split; [cbn; apply fop_shape|cbn; apply term_matrix_shape]|reflexivity|exact Et]. }
    destruct (rev lo') as [|p' l] eqn:R.
    - exists (fermion_mul acc tp). split; [destruct fuel; reflexivity|]. split; [auto|]. split; [cbn [Nat.pow]; pose proof (Nat.pow_nonzero 2 (fst p)); nia|].
      assert (lo' = []) by (destruct lo' as [|x lo']; [auto|cbn in R; destruct (rev lo'); discriminate]). subst lo'.
      etransitivity; [|exact Ea]. symmetry. apply eye_r_sq. apply fop_shape.
    - assert (Elo : lo' = rev l ++ [p']) by (rewrite <- (rev_involutive lo'), R; reflexivity).
      assert (Hp' : fst p' < fst p) by (apply U'; rewrite Elo; apply in_or_app; right; left; auto).
      rewrite Elo, <- app_assoc. cbn [app].
      destruct (IH (rev l) (p :: hi) p' (fermion_mul acc tp)) as (r & Er & Or & Lr & Mr); auto; [|lia|lia|].
      + destruct (canonical_app _ _ Hc) as (_ & Ch & Hx). change (rev l ++ p' :: p :: hi) with (rev l ++ [p'] ++ p :: hi). rewrite app_assoc, <- Elo.
        apply canonical_join; auto. intros f g Hf' [<-|Hg]; [apply U'; auto|]. pose proof (canonical_head p hi Ch g Hg). pose proof (U' f Hf'). lia.
      + exists r. split; [exact Er|]. split; [auto|]. split.
        * etransitivity; [exact Lr|]. etransitivity; [apply Nat.mul_le_mono_r; exact La|]. rewrite <- Nat.mul_assoc. apply Nat.mul_le_mono_l. change (2 * 2 ^ S (fst p'))%nat with (2 ^ S (S (fst p')))%nat. apply Nat.pow_le_mono_r; lia.
        * etransitivity; [exact Mr|]. rewrite <- Elo. exact Ea.
  Qed.
  Lemma term_ok nq (t : term pauli) : canonical t -> (forall f, In f t -> fst f < n) ->
    exists r, transform_term im small nq t = Ok r /\ on_qubits n r /\ (length r <= 2 ^ n)%nat /\ meq (F r) (T t).
  Proof.
    intros Hc Hn. unfold transform_term.
    assert (E1 : meq (F (fermion_op [] 1)) (eye (2 ^ n))).
    { apply (meq_qop n); try apply fop_shape; try reflexivity. intros i j Hi Hj. rewrite fop_ent. cbn [fermion_op mk_op fermion_simplify lval fst snd fterm_matrix fold_right]. ring. }
    assert (O1 : on_qubits n (fermion_op (K := K) [] 1)) by (intros u c [H|[]]; inversion H; subst; intros f []).
    destruct (rev t) as [|p l] eqn:R.
    - assert (t = []) by (destruct t as [|x t]; [auto|cbn in R; destruct (rev t); discriminate]). subst t. exists (fermion_op [] 1). split; [reflexivity|]. split; [auto|].
      split; [cbn; pose proof (Nat.pow_nonzero 2 n); lia|exact E1].
    - assert (Et : t = rev l ++ [p]) by (rewrite <- (rev_involutive t), R; reflexivity). assert (Hp : fst p < n) by (apply Hn; rewrite Et; apply in_or_app; right; left; auto).
      assert (Q : mk_op (qubit_simplify im) t 1 = [(rev l ++ p :: [], 1)]) by (unfold mk_op; rewrite canonical_simplify by auto; rewrite <- Et; reflexivity).
      rewrite Q. destruct (loop_ok nq (S (fst p)) (rev l) [] p (fermion_op [] 1)) as (r & Er & Or & Lr & Mr); auto; [rewrite <- Et; exact Hc|].
      exists r. split; [exact Er|]. split; [auto|]. split.
      + etransitivity; [exact Lr|]. cbn [fermion_op mk_op fermion_simplify length]. rewrite Nat.mul_1_l. apply Nat.pow_le_mono_r; lia.
      + etransitivity; [exact Mr|]. rewrite <- Et. etransitivity; [apply (mmul_sq (2 ^ n)); [apply fop_shape|apply term_matrix_shape|exact E1|reflexivity]|]. apply eye_l_sq. apply term_matrix_shape.
  Qed.
  (** ** Whole operators *)
  Notation M := (qop_matrix im n).
  Lemma sum_ok nq (a : qop K) : (forall t c, In (t, c) a -> canonical t) -> on_qubits n a -> forall o : fop K, on_qubits n o ->
    exists o' r : fop K, foldM (fun o (tc : term pauli * K) => let! f := transform_term im small nq (fst tc) in Ok (fermion_add small o (op_scale f (snd tc)))) a o = Ok o' /\
      on_qubits n o' /\ all_small small r /\ (length r <= length a * 2 ^ n)%nat /\ on_qubits n r /\ meq (madd (F o') (F r)) (madd (F o) (M a)).
  Proof.
    induction a as [|[t c] a IH]; intros Hc Hn o Ho; cbn [foldM].
    - exists o, []. split; [reflexivity|]. split; [auto|]. split; [constructor|]. split; [cbn; lia|]. split; [intros ? ? []|]. reflexivity.
    - cbn [fst snd]. destruct (term_ok nq t) as (f & -> & Of & Lf & Mf); [eapply Hc; left; eauto|intros g Hg; eapply Hn; [left; reflexivity|auto]|]. cbn [rbind].
      assert (Os : on_qubits n (op_scale f c)) by (intros u d Hin; unfold op_scale in Hin; apply in_map_iff in Hin as ([u' d'] & E & Hin); inversion E; subst; eapply Of; eauto).
      destruct (add_count Bool.eqb bool_eqb_spec small (op_scale f c) o) as (r1 & R1 & I1 & L1 & V1). unfold op_scale at 1 in L1. rewrite map_length in L1.
      destruct (IH (fun u d H => Hc u d (or_intror H)) (fun u d H => Hn u d (or_intror H)) (fermion_add small o (op_scale f c)) (fadd_on small n _ _ Ho Os)) as (o' & r & E & Oo & Sr & Lr & Or & Mr).
      exists o', (r1 ++ r). split; [exact E|]. split; [auto|]. split; [apply Forall_app; split; auto|]. split; [rewrite app_length; cbn [length]; lia|]. split.
      + intros u d Hin. apply in_app_or in Hin as [Hin|Hin]; [|eapply Or; eauto]. intros g Hg. assert (Hu : In u (dkeys (op_scale f c))) by (apply I1, in_map_iff; exists (u, d); auto).
        apply in_map_iff in Hu as ([u' d'] & Eu & Hu). cbn in Eu; subst u'. eapply Os; eauto.
      + apply (meq_qop n); try (cbn [nr nc madd]; apply fop_shape). intros i j Hi Hj. destruct Mr as (_ & _ & Mr).
        specialize (Mr i j ltac:(cbn [nr madd]; rewrite (proj1 (fop_shape _ _)); exact Hi) ltac:(cbn [nc madd]; rewrite (proj2 (fop_shape _ _)); exact Hj)).
        cbn [ent madd] in *. cbn [qop_matrix fold_right ent madd mscale fst snd]. change (fold_right _ _ a) with (M a).
        pose proof (scale_matrix f c) as (_ & _ & Sc). specialize (Sc i j ltac:(rewrite (proj1 (fop_shape _ _)); exact Hi) ltac:(rewrite (proj2 (fop_shape _ _)); exact Hj)).
        destruct Mf as (_ & _ & Mf). specialize (Mf i j ltac:(rewrite (proj1 (fop_shape _ _)); exact Hi) ltac:(rewrite (proj2 (fop_shape _ _)); exact Hj)).
        cbn [ent mscale] in Sc. rewrite Mf in Sc. rewrite <- Sc. rewrite !fop_ent in *. rewrite lval_app. specialize (V1 (fun t => ent (fterm_matrix n t) i j)).
        change (op_add Bool.eqb small o (op_scale f c)) with (fermion_add small o (op_scale f c)) in V1.
        set (x := lval _ r1) in *. set (y := lval _ r) in *.
        transitivity (lval (fun t0 => ent (fterm_matrix n t0) i j) o' + y + x); [ring|]. rewrite Mr. etransitivity; [|etransitivity; [exact (f_equal (fun z => z + ent (M a) i j) V1)|]]; ring.
  Qed.
End Step.
