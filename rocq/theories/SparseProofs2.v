(** jordan_wigner_sparse builds the matrix of a fermion operator. *)
From Coq Require Import Ring.
From Verif Require Import Base BaseFacts MatModel MatFacts LiftSpec LiftProofs OpModel OpSpec OpProofs PauliProofs OpProofs2 ConjProofs FermiModel FermiSpec FermiProofs FermiProofs2 FermiProofs3 ConvProps SparseModel SparseProofs.
Open Scope list_scope.
Local Open Scope nat_scope.

Section Fermi.
  Context {K : cring} (im half : K) (Him : kmul im im = kopp k1) (Hhalf : kadd half half = k1) (is_zero : K -> bool) (Hz : forall c, is_zero c = true -> c = k0).
  Add Ring Kring_spf : (kth K).
  Open Scope K_scope.
  (** the list of ladder operators *)
  Definition ops_ok (n : nat) (ops : list (mat K * mat K)) : Prop :=
    length ops = n /\ forall p pr, nth_error ops p = Some pr -> meq (fst pr) (ladder_matrix n (p, false)) /\ meq (snd pr) (ladder_matrix n (p, true)).
  Lemma operators_ok n : exists ops, mapM (fun p => let! lower := jordan_wigner_ladder_sparse im half n p false in let! raise := jordan_wigner_ladder_sparse im half n p true in Ok (lower, raise)) (seq 0 n) = Ok ops /\ ops_ok n ops.
  Proof.
    assert (G : forall m a, (a + m <= n)%nat -> exists ops, mapM (fun p => let! lower := jordan_wigner_ladder_sparse im half n p false in let! raise := jordan_wigner_ladder_sparse im half n p true in Ok (lower, raise)) (seq a m) = Ok ops /\
      length ops = m /\ forall p pr, nth_error ops p = Some pr -> meq (fst pr) (ladder_matrix n ((a + p)%nat, false)) /\ meq (snd pr) (ladder_matrix n ((a + p)%nat, true))).
    { induction m as [|m IH]; intros a Ha; cbn [seq mapM].
      - exists []. split; [reflexivity|]. split; [reflexivity|]. intros [|p] pr H; discriminate.
      - destruct (ladder_sparse_matrix im half Him Hhalf n a false) as (A & EA & HA); [lia|]. destruct (ladder_sparse_matrix im half Him Hhalf n a true) as (B & EB & HB); [lia|].
        rewrite EA, EB. cbn [rbind]. destruct (IH (S a)) as (ops & -> & L & H); [lia|]. cbn [rbind]. exists ((A, B) :: ops). split; [reflexivity|]. split; [cbn; congruence|].
        intros [|p] pr E; cbn [nth_error] in E; [inversion E; subst; rewrite Nat.add_0_r; auto|]. replace (a + S p)%nat with (S a + p)%nat by lia. auto. }
    destruct (G n 0%nat) as (ops & E & L & H); [lia|]. exists ops. split; [exact E|]. split; auto.
  Qed.
  Lemma sq_ladder n f : sq (2 ^ n) (ladder_matrix (K := K) n f).
  Proof. split; reflexivity. Qed.
  Lemma sq_fterm n t : sq (2 ^ n) (fterm_matrix (K := K) n t).
  Proof. apply fterm_shape. Qed.
  Lemma sq_meq N (A B : mat K) : meq A B -> sq N A -> sq N B.
  Proof. intros (H1 & H2 & _) [S1 S2]. split; congruence. Qed.
  Lemma meq_sym' (A B : mat K) : meq A B -> meq B A.
  Proof. intros H. symmetry. exact H. Qed.
  Lemma product_ok n ops t : ops_ok n ops -> (forall f, In f t -> fst f < n)%nat -> forall A, sq (2 ^ n) A ->
    exists B, foldM (fun A (f : nat * bool) => match nth_error ops (fst f) with None => Err IndexError | Some pr => matmul A (if snd f then snd pr else fst pr) end) t A = Ok B /\ meq B (mmul A (fterm_matrix n t)).
  Proof.
    intros [L Hops]. induction t as [|[p d] t IH]; intros Ht A HA; cbn [foldM].
    - exists A. split; [reflexivity|]. symmetry. apply eye_r_sq. exact HA.
    - cbn [fst snd]. assert (Hp : (p < n)%nat) by (apply (Ht (p, d)); left; auto). destruct (nth_error ops p) as [[lo ra]|] eqn:E; [|apply nth_error_None in E; lia].
      destruct (Hops p _ E) as [H0 H1]. cbn [fst snd] in H0, H1. set (M := if d then ra else lo). assert (HM : meq M (ladder_matrix n (p, d))) by (unfold M; destruct d; auto).
      cbn [fst snd]. fold M. assert (SM : sq (2 ^ n) M) by (apply (sq_meq _ _ _ (meq_sym' _ _ HM)), sq_ladder).
      unfold matmul. rewrite (proj2 HA), (proj1 SM), Nat.eqb_refl. cbn [rbind].
      destruct (IH (fun f Hf => Ht f (or_intror Hf)) (mmul A M)) as (B & EB & HB); [apply sq_mmul; auto|]. exists B. split; [exact EB|]. etransitivity; [exact HB|].
      etransitivity; [apply (assoc_sq (2 ^ n)); auto using sq_fterm|]. cbn [fterm_matrix fold_right]. apply (mmul_sq (2 ^ n)); auto; [apply sq_mmul; auto using sq_fterm|reflexivity|].
      apply (mmul_sq (2 ^ n)); auto using sq_fterm. reflexivity.
  Qed.
  Lemma jw_terms_ok n ops (a : fop K) : ops_ok n ops -> on_qubits n a -> forall e, in_shape (2 ^ n) (2 ^ n) e ->
    exists e', foldM (jw_term is_zero n ops) a (lists_of e) = Ok (lists_of e') /\ in_shape (2 ^ n) (2 ^ n) e' /\
      forall i j, (i < 2 ^ n)%nat -> (j < 2 ^ n)%nat -> tsum e' i j = tsum e i j + ent (fop_matrix n a) i j.
  Proof.
    intros Ho. induction a as [|[t c] a IH]; intros Ha e He; cbn [foldM].
    - exists e. split; [reflexivity|]. split; [exact He|]. intros i j _ _. cbn. ring.
    - unfold jw_term at 1. unfold lists_of at 1. cbn [rbind].
      destruct (product_ok n ops t Ho (Ha t c (or_introl eq_refl)) (mscale c (eye (2 ^ n)))) as (B & EB & HB); [split; reflexivity|]. rewrite EB. cbn [rbind].
      assert (HB' : forall i j, (i < 2 ^ n)%nat -> (j < 2 ^ n)%nat -> ent B i j = c * ent (fterm_matrix n t) i j).
      { intros i j Hi Hj. assert (N : nr B = (2 ^ n)%nat /\ nc B = (2 ^ n)%nat) by (destruct HB as (X & Y & _); cbn in X, Y; rewrite X, Y; split; [reflexivity|apply sq_fterm]).
        destruct HB as (_ & _ & HB). rewrite HB by (rewrite ?(proj1 N), ?(proj2 N); auto). cbn [ent mmul mscale eye nc].
        transitivity (bigsum (2 ^ n) (fun l => delta (Nat.eqb i l) * (c * ent (fterm_matrix n t) l j))); [apply bigsum_ext; intros; ring|]. rewrite (bigsum_single (2 ^ n) i) by (auto; intros l _ N'; rewrite (proj2 (Nat.eqb_neq i l)) by auto; cbn; ring). rewrite Nat.eqb_refl. cbn [delta]. ring. }
      assert (NB : nr B = (2 ^ n)%nat /\ nc B = (2 ^ n)%nat) by (destruct HB as (X & Y & _); cbn in X, Y; rewrite X, Y; split; [reflexivity|apply sq_fterm]).
      assert (Ha' : on_qubits n a) by (intros t' c' H; apply (Ha t' c'); right; auto).
      destruct (is_zero c) eqn:Ec.
      + fold (lists_of e). destruct (IH Ha' e He) as (e' & E & I & V). exists e'. split; [exact E|]. split; [exact I|]. intros i j Hi Hj. rewrite V by auto. cbn [fop_matrix fold_right fst snd ent madd mscale]. rewrite (Hz c Ec). fold (fop_matrix n a). ring.
      + rewrite <- lists_app. destruct (IH Ha' (e ++ csc_entries is_zero B)) as (e' & E & I & V).
        { intros x Hx. apply in_app_or in Hx as [Hx|Hx]; [apply He, Hx|]. apply csc_in_shape in Hx. rewrite (proj1 NB), (proj2 NB) in Hx. exact Hx. }
        exists e'. split; [exact E|]. split; [exact I|]. intros i j Hi Hj. rewrite V by auto. rewrite tsum_app, (csc_tsum is_zero Hz) by (rewrite ?(proj1 NB), ?(proj2 NB); auto). rewrite HB' by auto.
        cbn [fop_matrix fold_right fst snd ent madd mscale]. fold (fop_matrix n a). ring.
  Qed.
  Lemma jw_sparse_ok (a : fop K) nq : let n := size_used a nq in on_qubits n a -> exists A, jordan_wigner_sparse im half is_zero a nq = Ok A /\ meq A (fop_matrix n a).
  Proof.
    intros n Ha. unfold jordan_wigner_sparse. fold (size_used a nq). fold n. destruct (operators_ok n) as (ops & -> & Ho). cbn [rbind].
    destruct (jw_terms_ok n ops a Ho Ha []) as (e & E & I & V); [intros x []|]. change (lists_of (K := K) []) with (([], ([], [])) : triplets (K := K)) in E. rewrite E. cbn [rbind].
    destruct (coo_lists e _ _ I) as (A & EA & R & C & X). exists A. split; [exact EA|]. apply (meq_qop n); auto; try apply fop_shape. intros i j Hi Hj. rewrite X, V by auto. cbn. ring.
  Qed.
  (** a mode beyond the last *)
  Lemma product_bad n ops t : ops_ok n ops -> forall A, sq (2 ^ n) A -> (exists f, In f t /\ n <= fst f)%nat ->
    foldM (fun A (f : nat * bool) => match nth_error ops (fst f) with None => Err IndexError | Some pr => matmul A (if snd f then snd pr else fst pr) end) t A = Err IndexError.
  Proof.
    intros [L Hops]. induction t as [|[p d] t IH]; intros A HA (f & Hf & Hn); [destruct Hf|]. cbn [foldM fst snd].
    destruct (nth_error ops p) as [[lo ra]|] eqn:E; [|reflexivity]. assert (Hp : (p < n)%nat) by (rewrite <- L; apply nth_error_Some; congruence).
    destruct (Hops p _ E) as [H0 H1]. cbn [fst snd] in H0, H1 |- *. set (M := if d then ra else lo). assert (HM : meq M (ladder_matrix n (p, d))) by (unfold M; destruct d; auto).
    assert (SM : sq (2 ^ n) M) by (apply (sq_meq _ _ _ (meq_sym' _ _ HM)), sq_ladder). unfold matmul. rewrite (proj2 HA), (proj1 SM), Nat.eqb_refl. cbn [rbind].
    apply IH; [apply sq_mmul; auto|]. destruct Hf as [<-|Hf]; [cbn in Hn; lia|]. eauto.
  Qed.
  Lemma jw_sparse_bad (a : fop K) n : ~ on_qubits n a -> jordan_wigner_sparse im half is_zero a (Some n) = Err IndexError.
  Proof.
    intros Hb. unfold jordan_wigner_sparse. destruct (operators_ok n) as (ops & -> & Ho). cbn [rbind].
    assert (G : forall a, ~ on_qubits n a -> forall l, foldM (jw_term is_zero n ops) a l = Err IndexError).
    { clear a Hb. induction a as [|[t c] a IH]; intros Hb [v [r cl]]; [exfalso; apply Hb; intros t c []|]. cbn [foldM]. unfold jw_term at 1.
      destruct (existsb (fun f : nat * bool => Nat.leb n (fst f)) t) eqn:E.
      - apply existsb_exists in E as (f & Hf & Hn). apply Nat.leb_le in Hn. rewrite (product_bad n ops t Ho) by (eauto; split; reflexivity). reflexivity.
      - assert (Ht : forall f, In f t -> (fst f < n)%nat). { intros f Hf. destruct (Nat.ltb_spec (fst f) n); [auto|]. exfalso. assert (Q : existsb (fun f : nat * bool => Nat.leb n (fst f)) t = true) by (apply existsb_exists; exists f; split; [auto|apply Nat.leb_le; auto]). congruence. }
        destruct (product_ok n ops t Ho Ht (mscale c (eye (2 ^ n)))) as (B & EB & _); [split; reflexivity|]. rewrite EB. cbn [rbind].
        assert (Hb' : ~ on_qubits n a) by (intros H; apply Hb; intros t' c' [Q|Q]; [inversion Q; subst; exact Ht|exact (H t' c' Q)]). destruct (is_zero c); cbn [rbind]; apply IH; exact Hb'. }
    rewrite (G a Hb). reflexivity.
  Qed.
End Fermi.
