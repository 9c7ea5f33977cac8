(** Proofs for C77: the loops of the generators. *)
From Coq Require Import Ring Setoid Ncring Ncring_tac.
From Verif Require Import Base BaseFacts MatModel MatFacts LiftSpec LiftProofs OpModel OpSpec OpProofs OpProofs2 ConjProofs BackendProofs FermiModel FermiSpec FermiProofs FermiProofs2 FermiProofs6 FermiProofs7 ActsProofs
  JWInterModel UCCModel UCCSpec MatRing UCCProofs UCCProofs2.
Open Scope list_scope.
Local Open Scope nat_scope.

Section S.
  Context {K : cring} (n : nat).
  Add Ring Kring_ucc3 : (kth K).
  Open Scope K_scope.
  Notation F := (fterm_matrix (K := K) n).
  Notation N := (2 ^ n)%nat.
  (** ** Sums of matrices *)
  Lemma msum_shape (l : list (mat K)) : Forall (sq N) l -> sq N (msum n l).
  Proof. intros H. destruct l as [|A l]; [split; reflexivity|]. inversion H; subst. exact H2. Qed.
  Lemma msum_ent (l : list (mat K)) i j : ent (msum n l) i j = lsum (map (fun A => ent A i j) l).
  Proof. induction l as [|A l IH]; [reflexivity|]. cbn [msum fold_right ent madd map lsum]. f_equal. exact IH. Qed.
  Lemma minus_hc_shape anti (X : mat K) : sq N X -> sq N (minus_hc anti X).
  Proof. intros H. destruct anti; exact H. Qed.
  Lemma minus_hc_ent anti (X : mat K) i j : ent (minus_hc anti X) i j = ent X i j - (if anti then kconj (ent X j i) else 0).
  Proof. destruct anti; cbn; ring. Qed.
  Lemma part_ent anti t c i j : (i < N)%nat -> (j < N)%nat -> part anti (fun u => ent (F u) i j) (t, c) = c * (ent (F t) i j - (if anti then kconj (ent (F t) j i) else 0)).
  Proof.
    intros Hi Hj. unfold part. cbn [fst snd]. destruct anti; [|ring]. destruct (fterm_adjoint (K := K) n t) as (_ & _ & E).
    rewrite E by (rewrite ?(proj1 (fterm_shape n (dagger t))), ?(proj2 (fterm_shape n (dagger t))); auto). reflexivity.
  Qed.
  (** excitations of one amplitude *)
  Lemma parts_sum anti c (X : mat K) (ts : list fterm) i j : (i < N)%nat -> (j < N)%nat -> (forall i j, (i < N)%nat -> (j < N)%nat -> lsum (map (fun t => ent (F t) i j) ts) = ent X i j) ->
    lsum (map (part anti (fun u => ent (F u) i j)) (map (fun t => (t, c)) ts)) = ent (mscale c (minus_hc anti X)) i j.
  Proof.
    intros Hi Hj H. cbn [ent mscale]. rewrite minus_hc_ent, <- (H i j), <- (H j i) by auto. clear H.
    induction ts as [|t ts IH]; cbn [map lsum]; [destruct anti; rewrite ?kconj_0; ring|]. rewrite IH, part_ent by auto. destruct anti; rewrite ?kconj_add; ring.
  Qed.
  (** the terms as products of matrices *)
  Lemma term1 i j a b : (a < N)%nat -> (b < N)%nat -> ent (F [(i, true); (j, false)]) a b = ent (excitation n i j) a b.
  Proof. intros Ha Hb. destruct (fterm_two (K := K) n (i, true) (j, false)) as (_ & _ & E). apply E; auto. Qed.
  Lemma term2 i j k l a b : (a < N)%nat -> (b < N)%nat -> ent (F [(i, true); (j, false); (k, true); (l, false)]) a b = ent (mmul (excitation n i j) (excitation n k l)) a b.
  Proof.
    intros Ha Hb. assert (E : meq (F ([(i, true); (j, false)] ++ [(k, true); (l, false)])) (mmul (excitation n i j) (excitation n k l))).
    { etransitivity; [apply fterm_app|]. apply (mmul_sq N); try (split; apply fterm_shape); apply fterm_two. }
    destruct E as (_ & _ & E). apply E; [rewrite (proj1 (fterm_shape n _))|rewrite (proj2 (fterm_shape n _))]; auto.
  Qed.
  Lemma exc_shape i j : sq N (excitation (K := K) n i j).
  Proof. split; reflexivity. Qed.

  (** ** The general generator *)
  Definition single_term (a : nat * nat * K) : fterm * K := ([(fst (fst a), true); (snd (fst a), false)], snd a).
  Definition double_term (a : nat * nat * (nat * nat) * K) : fterm * K :=
    ([(fst (fst (fst a)), true); (snd (fst (fst a)), false); (fst (snd (fst a)), true); (snd (snd (fst a)), false)], snd a).
  Section Small.
    Context (small nonzero : K -> bool).
    Lemma singles_run anti l g : fold_left (add_single small anti) l g = run small anti (map single_term l) g.
    Proof. revert g. induction l as [|[[i j] c] l IH]; intros g; [reflexivity|]. cbn [fold_left map run]. rewrite IH. reflexivity. Qed.
    Lemma doubles_run anti l g : fold_left (add_double small anti) l g = run small anti (map double_term l) g.
    Proof. revert g. induction l as [|[[[i j] [k m]] c] l IH]; intros g; [reflexivity|]. cbn [fold_left map run]. rewrite IH. reflexivity. Qed.
    Lemma run_app anti l m g : run small anti m (run small anti l g) = run small anti (l ++ m) g.
    Proof. unfold run. rewrite fold_left_app. reflexivity. Qed.
    Lemma generator_run anti l m : uccsd_generator small nonzero (SList l) (DList m) anti = Ok (run small anti (map single_term l ++ map double_term m) []).
    Proof. unfold uccsd_generator. cbn [rbind fst snd]. rewrite singles_run, doubles_run, run_app. reflexivity. Qed.
    Lemma documented_ent anti l m i j : (i < N)%nat -> (j < N)%nat ->
      lsum (map (part anti (fun u => ent (F u) i j)) (map single_term l ++ map double_term m)) = ent (documented n anti l m) i j.
    Proof.
      intros Hi Hj. rewrite map_app, lsum_app. unfold documented. cbn [ent madd]. rewrite !msum_ent, !map_map. f_equal; f_equal; apply map_ext.
      - intros a. pose proof (parts_sum anti (snd a) (excitation n (fst (fst a)) (snd (fst a))) [[(fst (fst a), true); (snd (fst a), false)]] i j Hi Hj) as P. cbn [map lsum] in P.
        rewrite <- P; [unfold single_term; match goal with |- ?x = ?y + 0 => change x with y; generalize y; intros z; ring end|]. intros x y Hx Hy. rewrite term1 by auto. ring.
      - intros a. pose proof (parts_sum anti (snd a) (mmul (excitation n (fst (fst (fst a))) (snd (fst (fst a)))) (excitation n (fst (snd (fst a))) (snd (snd (fst a)))))
          [[(fst (fst (fst a)), true); (snd (fst (fst a)), false); (fst (snd (fst a)), true); (snd (snd (fst a)), false)]] i j Hi Hj) as P. cbn [map lsum] in P.
        rewrite <- P; [unfold double_term; match goal with |- ?x = ?y + 0 => change x with y; generalize y; intros z; ring end|]. intros x y Hx Hy. rewrite term2 by auto. ring.
    Qed.
    Lemma documented_shape anti l m : sq N (documented (K := K) n anti l m).
    Proof.
      unfold documented. cut (sq N (msum n (map (fun a : nat * nat * K => mscale (snd a) (minus_hc anti (excitation (K := K) n (fst (fst a)) (snd (fst a))))) l))); [intros H; exact H|].
      apply msum_shape. apply Forall_forall. intros A HA. apply in_map_iff in HA as (a & <- & _). destruct anti; split; reflexivity.
    Qed.
    (** a sequence of excitations as a matrix *)
    Lemma run_matrix anti l (X : mat K) : sq N X -> (forall i j, (i < N)%nat -> (j < N)%nat -> lsum (map (part anti (fun u => ent (F u) i j)) l) = ent X i j) ->
      exists r : fop K, all_small small r /\ (forall u, In u (map fst r) -> exists tc, In tc l /\ (u = fst tc \/ u = dagger (fst tc))) /\ (length r <= (if anti then 2 else 1) * length l)%nat /\
        meq (madd (fop_matrix n (run small anti l [])) (fop_matrix n r)) X.
    Proof.
      intros HX H. destruct (run_value small anti l []) as (r & R1 & R2 & R3 & R4). exists r. split; [exact R1|]. split; [exact R2|]. split; [exact R3|].
      destruct (fop_shape n (run small anti l [])) as [S1 S2]. destruct HX as [X1 X2]. split; [cbn [nr madd]; congruence|]. split; [cbn [nc madd]; congruence|].
      cbn [nr nc madd]. rewrite S1, S2. intros i j Hi Hj. cbn [ent madd]. rewrite !fop_ent. etransitivity; [exact (R4 (fun u => ent (F u) i j))|]. cbn [lval]. rewrite H by auto. ring.
    Qed.
    (** ** Anti-Hermiticity *)
    Lemma run_anti_hermitian l : small 0 = true -> (forall c, small (- c) = small c) -> (forall tc, In tc l -> kconj (snd tc) = snd tc) ->
      anti_self_adjoint (fop_matrix n (run small true l [])).
    Proof.
      intros S0 So Hr. set (g := run small true l []). assert (W0 : wf_op ([] : fop K)) by constructor.
      assert (A : antisym g). { apply run_antisym; auto. split; [exact W0|]. split; intros t; [cbn; ring|reflexivity]. }
      assert (R : forall t, kconj (coef Bool.eqb g t) = coef Bool.eqb g t). { apply run_real; auto. intros t. apply kconj_0. }
      destruct A as (W & A & _). unfold anti_self_adjoint. etransitivity; [symmetry; apply fop_adjoint; exact W|].
      destruct (fop_shape n (fermion_conjugated g)) as [S1 S2], (fop_shape n g) as [S3 S4]. split; [cbn [nr mscale]; congruence|]. split; [cbn [nc mscale]; congruence|]. intros i j Hi Hj. cbn [ent mscale].
      rewrite !fop_ent. set (phi := fun t => ent (F t) i j).
      transitivity (lval phi (map (fun tc : fterm * K => (fst tc, - snd tc)) g : fop K)).
      - apply lval_same; [apply fermion_conjugated_wf; exact W|apply map_keys_wf with (g := fun t => t); auto|]. intros t _.
        transitivity (kconj (coef Bool.eqb g (dagger t))).
        + rewrite <- !lval_coef by (auto using fermion_conjugated_wf). rewrite lval_fconj by exact W. f_equal. apply lval_ext. intros u. unfold isterm.
          replace (term_eqb Bool.eqb (dagger u) t) with (term_eqb Bool.eqb u (dagger t)); [destruct (term_eqb Bool.eqb u (dagger t)); [apply kconj_1|apply kconj_0]|].
          apply eq_true_iff_eq. split; intros H; apply (term_eqb_spec _ bool_eqb_spec) in H; apply (term_eqb_spec _ bool_eqb_spec); [rewrite H; apply dagger_invol|rewrite <- H; symmetry; apply dagger_invol].
        + rewrite R, A. clear. unfold coef. induction g as [|[u c] g IH]; cbn [map dget fst snd]; [ring|]. destruct (term_eqb Bool.eqb t u); [reflexivity|exact IH].
      - clear. induction g as [|[u c] g IH]; cbn [map lval fst snd]; [ring|]. rewrite IH. ring.
    Qed.
  End Small.
End S.
