(** Context selection: the basis change (C37). *)
From Coq Require Import Permutation Sorted Lia Ring Reals Lra String.
From Verif Require Import Base BaseFacts MatModel MatFacts LiftModel LiftSpec LiftProofs Cplx CircuitModel CircuitSpec GateMatModel GateMatProofs
  DecompModel OpModel OpSpec OpProofs PauliProofs OpProofs2 EstModel EstSpec EstProofs ConjProofs EstProofs3.
Open Scope list_scope.
Local Open Scope nat_scope.

(** ** One qubit *)
Lemma quarter : (cos (PI / 2 / 2) * cos (PI / 2 / 2) = / 2 /\ sin (PI / 2 / 2) = cos (PI / 2 / 2))%R.
Proof.
  replace (PI / 2 / 2)%R with (PI / 4)%R by field. split.
  - pose proof (sin2_cos2 (PI / 4)) as H. unfold Rsqr in H. rewrite sin_cos_PI4 in H. lra.
  - apply sin_cos_PI4.
Qed.
Ltac pauli_conj := split; [reflexivity|]; split; [reflexivity|]; cbn [nr nc conj_by M of_rows length mmul adjoint rx_matrix ry_matrix pauli_matrix];
  intros [|[|i]] [|[|j]] Hi Hj; try lia; cbn [conj_by ent mmul adjoint M of_rows nth nc nr length bigsum rx_matrix ry_matrix pauli_matrix];
  apply c_eq; cbn [fst snd kadd kmul kconj kopp k0 k1 CC cadd cmul csub copp cconj c0 c1 ci rc ji].
Lemma ry_conj : meq (conj_by (ry_matrix (- PI / 2)) (pauli_matrix (K := CC) ci Pz)) (pauli_matrix (K := CC) ci Px).
Proof.
  unfold ry_matrix. replace (- PI / 2 / 2)%R with (- (PI / 2 / 2))%R by field. rewrite cos_neg, sin_neg. destruct quarter as [Q1 Q2]. rewrite Q2.
  generalize dependent (cos (PI / 2 / 2)). intros x Q1 _. pauli_conj; nra.
Qed.
Lemma rx_conj : meq (conj_by (rx_matrix (PI / 2)) (pauli_matrix (K := CC) ci Pz)) (pauli_matrix (K := CC) ci Py).
Proof.
  unfold rx_matrix. destruct quarter as [Q1 Q2]. rewrite Q2. generalize dependent (cos (PI / 2 / 2)). intros x Q1 _. pauli_conj; nra.
Qed.

Section Circ.
  Context {Num : Type} (angle : R -> Num) (O : sympy_oracle Num) (IR : interp (Num := Num) R) (IC : interp (Num := Num) C) (rho : sym -> R).
  Context (Hangle : forall r, i_num _ IR (angle r) = r).
  Notation lifted := (lifted_matrix O IR IC rho).
  Notation run := (apply_ops O IR IC rho).
  Notation Z1 := (pauli_matrix (K := CC) ci Pz).

  Lemma sq_pauli p : sq 2 (pauli_matrix (K := CC) ci p).
  Proof. destruct p; split; reflexivity. Qed.

  Lemma lifted_one g q n (A : mat CC) : gate_matrix O IR IC rho g = Ok A -> sq 2 A -> q < n ->
    exists Mx, lifted (GateOp g [q]) (Z.of_nat n) = Ok Mx /\ meq Mx (embed n [q] A).
  Proof.
    intros E [H1 H2] Hq. cbn [lifted_matrix]. rewrite E. cbn [rbind]. rewrite Nat2Z.id. apply lift_embed.
    split; [discriminate|]. split; [constructor; [intros []|constructor]|]. split; [intros x [<-|[]]; auto|]. cbn. auto.
  Qed.
  (** the gate of one context factor, with the matrix it contributes *)
  Lemma basis_step f n : fst f < n -> snd f <> Pid ->
    (basis_change angle f = [] /\ snd f = Pz) \/
    exists g V Mx, basis_change angle f = [GateOp g [fst f]] /\ lifted (GateOp g [fst f]) (Z.of_nat n) = Ok Mx /\ meq Mx (embed n [fst f] V) /\
      sq 2 V /\ unitary V /\ meq (conj_by V Z1) (pauli_matrix (K := CC) ci (snd f)).
  Proof.
    destruct f as [q p]; cbn [fst snd]. intros Hq Hp. unfold basis_change; cbn [fst snd]. destruct p; [congruence| | |left; auto]; right.
    - exists (gate_RY (PNum (angle (- PI / 2)%R))), (ry_matrix (- PI / 2)).
      destruct (lifted_one (gate_RY (PNum (angle (- PI / 2)%R))) q n (ry_matrix (- PI / 2))) as (Mx & E1 & E2); [|split; reflexivity|auto|].
      { cbn. rewrite Hangle. reflexivity. }
      exists Mx. split; [reflexivity|]. split; [exact E1|]. split; [exact E2|]. split; [split; reflexivity|]. split; [apply ry_unitary|apply ry_conj].
    - exists (gate_RX (PNum (angle (PI / 2)%R))), (rx_matrix (PI / 2)).
      destruct (lifted_one (gate_RX (PNum (angle (PI / 2)%R))) q n (rx_matrix (PI / 2))) as (Mx & E1 & E2); [|split; reflexivity|auto|].
      { cbn. rewrite Hangle. reflexivity. }
      exists Mx. split; [reflexivity|]. split; [exact E1|]. split; [exact E2|]. split; [split; reflexivity|]. split; [apply rx_unitary|apply rx_conj].
  Qed.

  Lemma context_unitary n (ctx : list (factor pauli)) : NoDup (map fst ctx) -> (forall f, In f ctx -> fst f < n /\ snd f <> Pid) ->
    exists ms, mapM (fun o => lifted o (Z.of_nat n)) (flat_map (basis_change angle) ctx) = Ok ms /\
      let U := seq_mat (2 ^ n) ms in sq (2 ^ n) U /\ unitary U /\
      (forall q A, q < n -> ~ In q (map fst ctx) -> sq 2 A -> meq (conj_by U (embed n [q] A)) (embed n [q] A)) /\
      (forall q p, In (q, p) ctx -> meq (conj_by U (embed n [q] Z1)) (embed n [q] (pauli_matrix (K := CC) ci p))).
  Proof.
    induction ctx as [|f ctx IH]; intros ND H.
    - exists []. split; [reflexivity|]. cbn [seq_mat]. split; [apply sq_eye|]. split; [apply unitary_eye|]. split; [|intros q p []].
      intros q A _ _ _. apply conj_eye, sq_embed.
    - cbn [map] in ND. inversion ND as [|? ? Nf ND']; subst. destruct IH as (ms & E & SU & UU & Hout & Hin); [auto|intros; apply H; right; auto|].
      destruct (H f (or_introl eq_refl)) as [Hq Hp]. cbn [flat_map].
      destruct (basis_step f n Hq Hp) as [[Eb Ez]|(g & V & Mx & Eb & El & EM & SV & UV & CV)]; rewrite Eb.
      + exists ms. split; [exact E|]. cbn zeta. split; [auto|]. split; [auto|]. split.
        * intros q A H1 H2 H3. apply Hout; auto. intros F; apply H2; right; auto.
        * intros q p [F|F]; [|auto]. subst f. cbn [fst snd] in *. subst p. apply Hout; auto using sq_pauli.
      + exists (Mx :: ms). cbn [app mapM]. rewrite El. cbn [rbind]. rewrite E. cbn [rbind seq_mat]. split; [reflexivity|].
        cbn zeta. set (U := seq_mat (2 ^ n) ms) in *. set (Ef := embed n [fst f] V) in *.
        assert (SE : sq (2 ^ n) Ef) by apply sq_embed. assert (SM : sq (2 ^ n) Mx) by (eapply sq_meq; [symmetry; exact EM|exact SE]).
        assert (UE : unitary Ef).
        { destruct SV. apply embed_unitary; cbn; auto. { constructor; [intros []|constructor]. } { intros ? [<-|[]]; auto. } }
        assert (UM : unitary Mx) by (eapply unitary_ext; [symmetry; exact EM|exact UE]).
        assert (CP : forall A, sq (2 ^ n) A -> meq (conj_by (mmul U Mx) A) (conj_by Ef (conj_by U A))).
        { intros A SA. transitivity (conj_by Mx (conj_by U A)); [apply (conj_comp (2 ^ n)); auto|].
          apply (conj_ext_l (2 ^ n)); auto using sq_conj. }
        split; [apply sq_mmul; auto|]. split; [apply unitary_mmul; auto; destruct SU, SM; congruence|]. split.
        * intros q A H1 H2 H3. cbn [map In] in H2. rewrite CP by apply sq_embed.
          transitivity (conj_by Ef (embed n [q] A)); [apply (conj_ext (2 ^ n)); auto using sq_conj, sq_embed|]. apply conj_embed_other; auto.
        * intros q p F. rewrite CP by apply sq_embed. destruct F as [F|F].
          -- subst f. cbn [fst snd] in *. transitivity (conj_by Ef (embed n [q] Z1)); [apply (conj_ext (2 ^ n)); auto using sq_conj, sq_embed, sq_pauli|].
             transitivity (embed n [q] (conj_by V Z1)); [apply conj_embed_same; auto using sq_pauli|].
             apply embed_ext; cbn; auto. all: try (destruct SV; auto).
          -- transitivity (conj_by Ef (embed n [q] (pauli_matrix (K := CC) ci p))); [apply (conj_ext (2 ^ n)); auto using sq_conj, sq_embed|].
             apply conj_embed_other; auto using sq_pauli.
             ++ apply (H (q, p)). right; auto.
             ++ intros Eq. apply Nf, in_map_iff. exists (q, p). auto.
  Qed.

  (** ** Terms and operators *)
  Definition zpauli (t : term pauli) : term pauli := map (fun f : factor pauli => (fst f, Pz)) t.
  Lemma conj_term n U (ctx : list (factor pauli)) t : sq (2 ^ n) U -> unitary U ->
    (forall q p, In (q, p) ctx -> meq (conj_by U (embed n [q] Z1)) (embed n [q] (pauli_matrix (K := CC) ci p))) -> incl t ctx ->
    meq (conj_by U (term_matrix (K := CC) ci n (zpauli t) : mat CC)) (term_matrix (K := CC) ci n t).
  Proof.
    intros SU UU HU. induction t as [|[q p] t IH]; intros Hi; cbn [zpauli map term_matrix fold_right].
    - apply conj_of_eye; auto.
    - assert (ST : forall u, sq (2 ^ n) (term_matrix (K := CC) ci n u : mat CC)) by (intros u; apply term_matrix_shape). cbn [fst snd].
      etransitivity; [apply (conj_mmul (2 ^ n)); auto using sq_embed; apply ST|].
      apply (mmul_sq (2 ^ n)); auto using sq_conj, sq_embed.
      + apply sq_conj; auto. apply ST.
      + apply HU, Hi. left; auto.
      + apply IH. intros x Hx; apply Hi; right; auto.
  Qed.
  Lemma zpauli_act t b : (forall f, In f t -> fst f < length b) -> term_act (K := CC) ci (zpauli t) b = (zterm_value (fun q => nth q b false) (zterm t), b).
  Proof.
    induction t as [|f t IH]; intros H; [reflexivity|]. cbn [zpauli map]. fold (zpauli t). rewrite term_act_cons. unfold mcomp.
    rewrite IH by (intros; apply H; right; auto). cbn [fst snd factor_act zterm map zterm_value fold_right].
    unfold factor_act; cbn [fst snd]. apply pair_equal_spec; split.
    - fold (zterm t). unfold zsign. destruct (nth (fst f) b false); reflexivity.
    - assert (EB : snd (pauli_bit (K := CC) ci Pz (nth (fst f) b false)) = nth (fst f) b false) by (destruct (nth (fst f) b false); reflexivity).
      rewrite EB. apply setb_nth.
  Qed.
  Lemma zterm_matrix_ent n t i j : i < 2 ^ n -> j < 2 ^ n -> (forall f, In f t -> fst f < n) ->
    ent (term_matrix (K := CC) ci n (zpauli t) : mat CC) i j = if Nat.eqb i j then zterm_value (fun q => nth q (bits n i) false) (zterm t) else k0.
  Proof.
    intros Hi Hj H. destruct (term_matrix_mono (K := CC) ci n (zpauli t)) as (_ & _ & E).
    { intros f Hf. apply in_map_iff in Hf as (g & <- & Hg). cbn. auto. }
    destruct (term_matrix_shape (K := CC) ci n (zpauli t)) as [S1 S2]. rewrite E by congruence. cbn [ent mono].
    rewrite zpauli_act by (rewrite bits_length; auto). rewrite bval_bits_small by auto. destruct (Nat.eqb_spec i j) as [->|N]; reflexivity.
  Qed.

  Theorem context_selection small (a : qop CC) c io n : wf_op a -> (forall t x, In (t, x) a -> canonical t /\ small x = false) -> on_qubits n a ->
    get_context_selection_circuit_for_group small angle a = Ok (c, io) ->
    exists U, sq (2 ^ n) U /\ unitary U /\
      (forall v, vlen v = (2 ^ n)%nat -> exists w, run (c_ops c) v = Ok w /\ veq w (mvmul U v)) /\
      meq (conj_by U (diagonal_of n io)) (qop_matrix (K := CC) ci n a).
  Proof.
    intros W H On E. unfold get_context_selection_circuit_for_group in E. cbn [mk_circuit circuit_size_by_operations rbind] in E.
    destruct (build_context small a) as [[ctx io']|] eqn:EB; cbn [rbind fst snd] in E; [|discriminate].
    destruct (build_ok small a ctx io' W H EB) as (B1 & B2 & B3 & B4).
    destruct (foldM _ (flat_map _ _) _) as [c'|] eqn:EF in E; cbn [rbind] in E; [|discriminate]. injection E as <- <-.
    assert (OPS : forall ops c0 c1, foldM (fun c o => circuit_add c (AddOp (Num := Num) o)) ops c0 = Ok c1 -> c_ops c1 = c_ops c0 ++ ops /\
      Forall (fun o => match o with GateOp _ _ => True | _ => False end) ops).
    { clear. induction ops as [|o ops IH]; intros c0 c1 E; cbn [foldM] in E; [injection E as <-; rewrite app_nil_r; auto|].
      destruct (circuit_add c0 (AddOp o)) as [c2|] eqn:E2; cbn [rbind] in E; [|discriminate]. apply IH in E as [E3 F]. rewrite E3. unfold circuit_add in E2. destruct o as [g qs|]; [|discriminate].
      destruct (py_max qs) as [m|]; cbn [rbind] in E2; [|discriminate]. unfold mk_circuit_Z, mk_circuit in E2.
      assert (c_ops c2 = c_ops c0 ++ [GateOp g qs]) as E4.
      { destruct (QArith_base.Qeq_bool _ _); [destruct (circuit_size_by_operations _) in E2; cbn in E2; [|discriminate]; injection E2 as <-; reflexivity|].
        destruct (negb _) in E2; [discriminate|]. destruct (_ <=? _)%Z in E2; [discriminate|]. injection E2 as <-. reflexivity. }
      rewrite E4, <- app_assoc. split; [reflexivity|]. constructor; auto. }
    apply OPS in EF as [E1 FO]. cbn [c_ops app] in E1. rewrite E1.
    destruct (context_unitary n ctx B1) as (ms & EM & SU & UU & _ & HU).
    { intros f Hf. destruct (B3 f Hf) as (t & x & Ht & Hft). split; [eapply On; eauto|]. destruct (H t x Ht) as [Ct _]. clear -Ct Hft.
      induction t as [|g t IH]; [destruct Hft|]. destruct Ct as (C1 & _ & C3). destruct Hft as [<-|Hft]; auto. }
    exists (seq_mat (2 ^ n) ms). split; [auto|]. split; [auto|]. split.
    - intros v Hv. pose proof (apply_ops_spec O IR IC rho n _ FO v Hv) as A. rewrite EM in A. destruct A as (w & A1 & A2 & A3). eauto.
    - set (U := seq_mat (2 ^ n) ms) in *. subst io'.
      assert (OnT : forall t x, In (t, x) a -> forall f, In f t -> fst f < n) by (intros t x; apply On).
      assert (IncT : forall t x, In (t, x) a -> incl t ctx) by (intros t x Ht f Hf; eapply B2; eauto).
      clear -SU UU HU OnT IncT.
      transitivity (conj_by U (qop_matrix (K := CC) ci n (map (fun tc => (zpauli (fst tc), snd tc)) a))).
      + apply (conj_ext (2 ^ n)); auto; [split; reflexivity|].
        split; [cbn; symmetry; apply qop_matrix_shape|]. split; [cbn; symmetry; apply qop_matrix_shape|]. cbn [nr nc diagonal_of]. intros i j Hi Hj.
        cbn [ent diagonal_of]. rewrite qop_matrix_ent. clear HU IncT. induction a as [|[t x] a IH]; cbn [map lval isop_value fold_right fst snd].
        * destruct (Nat.eqb i j); reflexivity.
        * assert (OnT' : forall t x, In (t, x) a -> forall f, In f t -> fst f < n) by (intros; eapply OnT; [right|]; eauto).
          rewrite zterm_matrix_ent by (auto; intros f; apply (OnT t x); left; auto). rewrite <- (IH OnT'). destruct (Nat.eqb i j); [reflexivity|]. cbn. c_ring.
      + induction a as [|[t x] a IH]; cbn [map qop_matrix fold_right fst snd].
        * apply conj_zeros; auto.
        * fold (qop_matrix (K := CC) ci n (map (fun tc => (zpauli (fst tc), snd tc)) a)). fold (qop_matrix (K := CC) ci n a).
          assert (ST : forall u, sq (2 ^ n) (term_matrix (K := CC) ci n u : mat CC)) by (intros u; apply term_matrix_shape).
          assert (SQ : forall u, sq (2 ^ n) (qop_matrix (K := CC) ci n u : mat CC)) by (intros u; apply qop_matrix_shape).
          assert (SS : forall u, sq (2 ^ n) (mscale x (term_matrix (K := CC) ci n u) : mat CC)) by (intros u; apply ST).
          etransitivity; [apply (conj_madd (2 ^ n)); [exact SU|apply SS|apply SQ]|]. apply madd_ext.
          -- transitivity (2 ^ n)%nat; [|symmetry]; apply sq_conj; auto.
          -- transitivity (2 ^ n)%nat; [|symmetry]; apply sq_conj; auto.
          -- etransitivity; [apply conj_mscale|]. apply mscale_ext. eapply conj_term; eauto. eapply IncT; left; eauto.
          -- apply IH; intros; [eapply OnT|eapply IncT]; try right; eauto.
  Qed.
End Circ.
