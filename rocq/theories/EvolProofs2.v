(** Evolution circuits: the matrix of the circuit of one term. *)
From Coq Require Import Reals Lra Lia Ring Arith String.
From Verif Require Import Base BaseFacts MatModel MatFacts LiftModel LiftSpec LiftProofs Cplx CircuitModel CircuitSpec GateMatModel GateMatProofs
  DecompModel OpModel OpSpec OpProofs PauliProofs EstModel ConjProofs EstProofs EstProofs3 EstProofs4 EvolModel EvolSpec EvolProofs.
Open Scope list_scope.
Local Open Scope nat_scope.

(** ** CNOT *)
Definition cnot_act (a b : nat) (c : list bool) : C * list bool := (c1, setb b (xorb (nth a c false) (nth b c false)) c).
Lemma cnot_keeps n a b : keeps (K := CC) n (cnot_act a b).
Proof. intros c Hc. cbn. rewrite setb_length. auto. Qed.
Lemma cnot_ent x1 x2 y1 y2 : ent cnot_matrix (bval [x1; x2]) (bval [y1; y2]) = if Bool.eqb x1 y1 && Bool.eqb x2 (xorb y1 y2) then c1 else c0.
Proof. destruct x1, x2, y1, y2; reflexivity. Qed.
Lemma embed_cnot n a b : a < n -> b < n -> a <> b -> meq (embed n [a; b] cnot_matrix) (mono (K := CC) n (cnot_act a b)).
Proof.
  intros Ha Hb N. apply (meq_bits n); auto. intros x y Hx Hy.
  rewrite embed_ent, mono_ent by (auto; cbn; rewrite setb_length; auto). cbn [select map]. rewrite cnot_ent. cbn [cnot_act fst snd].
  destruct (list_eqb Bool.eqb x _) eqn:E.
  - apply (list_eqb_spec _ bool_eqb_spec) in E.
    assert (X : nth b x false = xorb (nth a y false) (nth b y false)) by (rewrite E, nth_setb_same; auto; lia).
    assert (Y : nth a x false = nth a y false) by (rewrite E, nth_setb_other; auto).
    assert (G : agree_outside n [a; b] x y = true).
    { apply agree_spec. intros i Hi Hn. rewrite E. apply nth_setb_other. intros ->. apply Hn. right; left; auto. }
    rewrite G, X, Y, !Bool.eqb_reflx. reflexivity.
  - destruct (agree_outside n [a; b] x y) eqn:G; [|reflexivity]. pose proof (proj1 (agree_spec _ _ _ _) G) as G'; clear G; rename G' into G.
    destruct (Bool.eqb (nth a x false) (nth a y false)) eqn:A; [|reflexivity]. destruct (Bool.eqb (nth b x false) _) eqn:B; [|reflexivity].
    apply Bool.eqb_prop in A, B. exfalso. assert (H : x = setb b (xorb (nth a y false) (nth b y false)) y).
    { apply bits_ext; [rewrite setb_length; lia|]. intros i Hi. rewrite nth_setb by lia. destruct (Nat.eqb_spec i b) as [->|Ni]; [auto|].
      destruct (Nat.eq_dec i a) as [->|Na]; [auto|]. apply G; [lia|]. intros [F|[F|[]]]; congruence. }
    rewrite <- H in E. rewrite (eqb_spec_refl _ (list_eqb_spec _ bool_eqb_spec)) in E. discriminate.
Qed.
Lemma cnot_adjoint : meq (adjoint cnot_matrix) cnot_matrix.
Proof.
  split; [reflexivity|]. split; [reflexivity|]. intros [|[|[|[|i]]]] [|[|[|[|j]]]] Hi Hj; cbn in Hi, Hj; try lia; cbn; apply c_eq; cbn; ring.
Qed.
(** conjugation by a CNOT spreads Z from the target to the control *)
Lemma zvalue_other (s s' : nat -> bool) t : (forall f, In f t -> s (fst f) = s' (fst f)) -> zterm_value (K := CC) s t = zterm_value s' t.
Proof.
  induction t as [|f t IH]; intros H; [reflexivity|]. cbn [zterm_value fold_right]. rewrite (H f) by (left; auto). f_equal. apply IH. intros; apply H; right; auto.
Qed.
Lemma zterm_cons s (f : factor pauli) (t : term pauli) :
  zterm_value (K := CC) s (zterm (f :: t)) = cmul (zsign (K := CC) (s (fst f))) (zterm_value (K := CC) s (zterm t)).
Proof. reflexivity. Qed.
Lemma cnot_spreads n f g t : fst f < n -> fst g < n -> fst f <> fst g -> (forall h, In h t -> fst h < n /\ fst h <> fst g) ->
  let Cn := embed n [fst f; fst g] cnot_matrix in
  meq (conj_by Cn (term_matrix (K := CC) ci n (zpauli (g :: t)))) (term_matrix (K := CC) ci n (zpauli (f :: g :: t))).
Proof.
  intros Hf Hg N Ht Cn.
  assert (SC : sq (2 ^ n) Cn) by apply sq_embed. assert (ST : forall u, sq (2 ^ n) (term_matrix (K := CC) ci n u : mat CC)) by (intros; apply term_matrix_shape).
  assert (UC : unitary Cn).
  { apply embed_unitary; auto; [repeat constructor; cbn; intuition|cbn; intuition; subst; auto|apply cnot_unitary]. }
  assert (L1 : forall h, In h (zpauli (g :: t)) -> fst h < n).
  { intros h Hh. apply in_map_iff in Hh as (k & <- & [<-|Hk]); cbn; auto. apply Ht; auto. }
  assert (L2 : forall h, In h (zpauli (f :: g :: t)) -> fst h < n).
  { intros h [<-|Hh]; cbn; auto. }
  assert (E : meq (mmul (term_matrix (K := CC) ci n (zpauli (g :: t))) Cn) (mmul Cn (term_matrix (K := CC) ci n (zpauli (f :: g :: t))))).
  { transitivity (mmul (mono (K := CC) n (term_act (K := CC) ci (zpauli (g :: t)))) (mono (K := CC) n (cnot_act (fst f) (fst g)))).
    { apply (mmul_sq (2 ^ n)); auto; [apply term_matrix_mono; auto|apply embed_cnot; auto]. }
    transitivity (mmul (mono (K := CC) n (cnot_act (fst f) (fst g))) (mono (K := CC) n (term_act (K := CC) ci (zpauli (f :: g :: t))))).
    2:{ symmetry. apply (mmul_sq (2 ^ n)); auto; [apply embed_cnot; auto|apply term_matrix_mono; auto]. }
    etransitivity; [apply mono_mmul; [apply term_keeps|apply cnot_keeps]|]. symmetry. etransitivity; [apply mono_mmul; [apply cnot_keeps|apply term_keeps]|].
    symmetry. apply mono_ext. intros c Hc. unfold mcomp.
    assert (B1 : forall h, In h (g :: t) -> fst h < length c) by (intros h [<-|Hh]; [lia|rewrite Hc; apply Ht; auto]).
    assert (B2 : forall h, In h (f :: g :: t) -> fst h < length c) by (intros h [<-|Hh]; [lia|auto]).
    rewrite !zpauli_act; [|exact B2|cbn [cnot_act snd]; rewrite setb_length; exact B1]. cbn [cnot_act fst snd]. apply pair_equal_spec; split; [|reflexivity].
    rewrite !zterm_cons. cbn beta. rewrite nth_setb_same by lia.
    rewrite (zvalue_other (fun q => nth q (setb (fst g) _ c) false) (fun q => nth q c false)).
    2:{ intros h Hh. cbn beta. apply nth_setb_other. apply in_map_iff in Hh as (k & <- & Hk). cbn. apply Ht; auto. }
    generalize (zterm_value (K := CC) (fun q => nth q c false) (zterm t)). intros v.
    destruct (nth (fst f) c false), (nth (fst g) c false); cbn [xorb zsign]; cbn; c_ring. }
  unfold conj_by. etransitivity; [apply (mmul_sq (2 ^ n)); [apply sq_adjoint; auto|apply sq_mmul; auto|reflexivity|exact E]|].
  etransitivity; [symmetry; apply (assoc_sq (2 ^ n)); auto using sq_adjoint|].
  etransitivity; [apply (mmul_sq (2 ^ n)); [apply sq_mmul; auto using sq_adjoint|apply ST|apply (unitary_l (2 ^ n)); auto|reflexivity]|]. apply eye_l_sq, ST.
Qed.

(** ** One-qubit changes of basis *)
Lemma h_conj : meq (conj_by h_matrix (pauli_matrix (K := CC) ci Pz)) (pauli_matrix (K := CC) ci Px).
Proof.
  unfold h_matrix. rewrite neg_half_sqrt2. pose proof half_sqrt2 as Q. generalize dependent (1 / sqrt 2)%R. intros x Q. pauli_conj; nra.
Qed.
Lemma h_adjoint : meq (adjoint h_matrix) h_matrix.
Proof.
  split; [reflexivity|]. split; [reflexivity|]. intros [|[|i]] [|[|j]] Hi Hj; cbn in Hi, Hj; try lia; cbn; apply c_eq; cbn; ring.
Qed.
Lemma rx_adjoint a : meq (adjoint (rx_matrix a)) (rx_matrix (- a)).
Proof.
  unfold rx_matrix. replace (- a / 2)%R with (- (a / 2))%R by field. rewrite cos_neg, sin_neg.
  split; [reflexivity|]. split; [reflexivity|]. intros [|[|i]] [|[|j]] Hi Hj; cbn in Hi, Hj; try lia; cbn; apply c_eq; cbn; ring.
Qed.
Lemma rz_rotation x : meq (rz_matrix (2 * x)) (rotation 2 (pauli_matrix (K := CC) ci Pz) x).
Proof.
  unfold rz_matrix. replace (-1 * (2 * x) / 2)%R with (- x)%R by field. replace (2 * x / 2)%R with x by field. unfold cis. rewrite cos_neg, sin_neg.
  split; [reflexivity|]. split; [reflexivity|]. intros [|[|i]] [|[|j]] Hi Hj; cbn in Hi, Hj; try lia; cbn; apply c_eq; cbn; ring.
Qed.
Lemma embed_rotation n q P x : q < n -> meq (embed n [q] (rotation 2 P x)) (rotation (2 ^ n) (embed n [q] P) x).
Proof.
  intros Hq. split; [reflexivity|]. split; [reflexivity|]. cbn [nr nc embed]. intros i j Hi Hj.
  assert (E : ent (embed n [q] (rotation 2 P x)) i j = cadd (cmul (rc (cos x)) (ent (embed n [q] (eye (K := CC) (2 ^ length [q]))) i j)) (cmul (0, - sin x)%R (ent (embed n [q] P) i j))).
  { cbn [ent embed]. destruct (agree_outside _ _ _ _); [reflexivity|]. cbn; c_ring. }
  destruct (embed_eye (K := CC) n [q]) as (_ & _ & Ey); [repeat constructor; intros []|intros r [<-|[]]; auto|].
  rewrite E, Ey by auto. reflexivity.
Qed.
Lemma conj_rotation N U P x : sq N U -> unitary U -> sq N P -> meq (conj_by U (rotation N P x)) (rotation N (conj_by U P) x).
Proof.
  intros SU UU SP. unfold rotation.
  assert (S1 : sq N (mscale (K := CC) (rc (cos x)) (eye N))) by (split; reflexivity). assert (S2 : sq N (mscale (K := CC) (0, - sin x)%R P)) by exact SP.
  etransitivity; [apply (conj_madd N); auto|].
  assert (T1 := sq_conj N U _ SU S1). assert (T2 := sq_conj N U _ SU S2). destruct T1, T2.
  apply madd_ext; [congruence..| |apply conj_mscale].
  etransitivity; [apply conj_mscale|]. apply mscale_ext, conj_of_eye; auto.
Qed.

Section Circ.
  Context {Num : Type} (angle : R -> Num) (O : sympy_oracle Num) (IR : interp (Num := Num) R) (IC : interp (Num := Num) C) (rho : sym -> R).
  Context (Hangle : forall r, i_num _ IR (angle r) = r).
  Notation lifted := (lifted_matrix O IR IC rho).
  Notation Z1 := (pauli_matrix (K := CC) ci Pz).

  (** A list of operations acts on n qubits as the matrix A. *)
  Definition implements (n : nat) (ops : list (operation Num)) (A : mat CC) : Prop :=
    exists ms, mapM (fun o => lifted o (Z.of_nat n)) ops = Ok ms /\ meq (seq_mat (2 ^ n) ms) A.
  Lemma lifted_sq n ops ms : mapM (fun o => lifted o (Z.of_nat n)) ops = Ok ms -> forall m, In m ms -> nr m = 2 ^ n /\ nc m = 2 ^ n.
  Proof.
    intros E m Hm. destruct (mapM_Ok_in _ _ _ _ E Hm) as (o & _ & Ho). apply lifted_ok_shape in Ho. unfold pow2Z in Ho. rewrite Nat2Z.id in Ho. auto.
  Qed.
  Lemma implements_sq n ops A : implements n ops A -> sq (2 ^ n) A.
  Proof. intros (ms & E & EA). eapply sq_meq; [exact EA|]. apply seq_mat_shape. eapply lifted_sq; eauto. Qed.
  Lemma implements_meq n ops A B : implements n ops A -> meq A B -> implements n ops B.
  Proof. intros (ms & E & EA) H. exists ms. split; [auto|]. etransitivity; eauto. Qed.
  Lemma implements_nil n : implements n [] (eye (2 ^ n)).
  Proof. exists []. split; reflexivity. Qed.
  Lemma implements_one n o m A : lifted o (Z.of_nat n) = Ok m -> meq m A -> implements n [o] A.
  Proof.
    intros E EA. exists [m]. cbn [mapM]. rewrite E. split; [reflexivity|]. cbn [seq_mat]. rewrite <- EA. apply eye_l_sq.
    apply lifted_ok_shape in E. unfold pow2Z in E. rewrite Nat2Z.id in E. exact E.
  Qed.
  Lemma mapM_app_ok {A B} (f : A -> result B) a b x y : mapM f a = Ok x -> mapM f b = Ok y -> mapM f (a ++ b) = Ok (x ++ y).
  Proof.
    revert x. induction a as [|h a IH]; intros x Ha Hb; cbn [mapM app] in *; [injection Ha as <-; exact Hb|].
    destruct (f h); cbn [rbind] in *; [|discriminate]. destruct (mapM f a) as [x'|]; cbn [rbind] in *; [|discriminate]. injection Ha as <-.
    rewrite (IH x' eq_refl Hb). reflexivity.
  Qed.
  Lemma implements_app n a b A B : implements n a A -> implements n b B -> implements n (a ++ b) (mmul B A).
  Proof.
    intros (ms & E & EA) (ns & F & FB). exists (ms ++ ns). split; [apply mapM_app_ok; auto|].
    assert (H1 := lifted_sq _ _ _ E). assert (H2 := lifted_sq _ _ _ F). rewrite seq_mat_app by auto.
    apply (mmul_sq (2 ^ n)); auto; apply seq_mat_shape; auto.
  Qed.
  Lemma implements_gate n g qs A : gate_matrix O IR IC rho g = Ok A -> wf_lift A qs n -> implements n [GateOp g qs] (embed n qs A).
  Proof.
    intros E W. destruct (lift_embed A qs n W) as (m & H1 & H2). apply (implements_one n _ m); auto. cbn [lifted_matrix]. rewrite E. cbn [rbind].
    rewrite Nat2Z.id. exact H1.
  Qed.
  Lemma wf_lift_one n q (A : mat CC) : q < n -> sq 2 A -> wf_lift A [q] n.
  Proof. intros Hq [H1 H2]. split; [discriminate|]. split; [constructor; [intros []|constructor]|]. split; [intros x [<-|[]]; auto|]. cbn. auto. Qed.
  Lemma implements_cnot n a b : a < n -> b < n -> a <> b -> implements n [GateOp gate_CNOT [a; b]] (embed n [a; b] cnot_matrix).
  Proof.
    intros Ha Hb N. apply implements_gate; [reflexivity|]. split; [discriminate|]. split; [repeat constructor; cbn; intuition|].
    split; [intros x [<-|[<-|[]]]; auto|]. split; reflexivity.
  Qed.

  (** the CNOT ladder *)
  Lemma ladder n (t : term pauli) : canonical t -> (forall f, In f t -> fst f < n) -> t <> [] ->
    exists L q, implements n (cnot_gates (Num := Num) t) L /\ implements n (rev (cnot_gates (Num := Num) t)) (adjoint L) /\ unitary L /\ q < n /\
      (forall p, central_gate (Num := Num) p t = [GateOp (gate_RZ p) [q]]) /\
      meq (conj_by L (embed n [q] Z1)) (term_matrix (K := CC) ci n (zpauli t)).
  Proof.
    induction t as [|f t IH]; intros C H N; [congruence|]. clear N. destruct t as [|g t].
    - exists (eye (2 ^ n)), (fst f). assert (Hf : fst f < n) by (apply H; left; auto).
      split; [apply implements_nil|]. split.
      { eapply implements_meq; [apply implements_nil|]. symmetry. apply adjoint_eye. }
      split; [apply unitary_eye|]. split; [auto|]. split; [reflexivity|].
      cbn [zpauli map term_matrix fold_right fst snd]. etransitivity; [apply conj_eye, sq_embed|]. symmetry. apply eye_r_sq, sq_embed.
    - destruct IH as (L & q & I1 & I2 & UL & Hq & Hc & HZ).
      { apply C. } { intros; apply H; right; auto. } { discriminate. }
      assert (Hf : fst f < n) by (apply H; left; auto). assert (Hg : fst g < n) by (apply H; right; left; auto).
      assert (Nfg : fst f <> fst g) by (pose proof (canonical_head f _ C g (or_introl eq_refl)); lia).
      set (Cn := embed n [fst f; fst g] cnot_matrix). assert (SC : sq (2 ^ n) Cn) by apply sq_embed. assert (SL := implements_sq _ _ _ I1).
      assert (UC : unitary Cn).
      { apply embed_unitary; auto; [repeat constructor; cbn; intuition|cbn; intuition; subst; auto|apply cnot_unitary]. }
      assert (AC : meq (adjoint Cn) Cn).
      { etransitivity; [apply embed_adjoint|]. apply embed_ext; [reflexivity..|apply cnot_adjoint]. }
      exists (mmul L Cn), q. split.
      { change (cnot_gates (f :: g :: t)) with ([GateOp (gate_CNOT (Num := Num)) [fst f; fst g]] ++ cnot_gates (g :: t)). apply implements_app; auto. apply implements_cnot; auto. }
      split.
      { change (cnot_gates (f :: g :: t)) with ([GateOp (gate_CNOT (Num := Num)) [fst f; fst g]] ++ cnot_gates (g :: t)). rewrite rev_app_distr. cbn [rev app].
        eapply implements_meq; [apply implements_app; [exact I2|apply implements_cnot; auto]|].
        etransitivity; [|symmetry; apply adjoint_mmul; destruct SL, SC; congruence]. apply (mmul_sq (2 ^ n)); auto using sq_adjoint; [symmetry; exact AC|reflexivity]. }
      split; [apply unitary_mmul; auto; destruct SL, SC; congruence|]. split; [auto|]. split; [exact Hc|].
      etransitivity; [apply (conj_comp (2 ^ n)); auto using sq_embed|].
      etransitivity; [apply (conj_ext (2 ^ n)); [auto|apply sq_conj; auto using sq_embed|exact HZ]|].
      apply cnot_spreads; auto. intros h Hh. split; [apply H; right; right; auto|].
      destruct C as (_ & _ & C'). pose proof (canonical_head g _ C' h Hh). lia.
  Qed.

  (** the changes of basis and their reversals *)
  Lemma one_step f n : fst f < n -> snd f <> Pid ->
    exists V, implements n (base_change angle f) (embed n [fst f] V) /\ implements n (base_reversal angle f) (embed n [fst f] (adjoint V)) /\
      sq 2 V /\ unitary V /\ meq (conj_by V Z1) (pauli_matrix (K := CC) ci (snd f)).
  Proof.
    destruct f as [q p]; cbn [fst snd]. intros Hq Hp. unfold base_change, base_reversal; cbn [fst snd]. destruct p; [congruence| | |].
    - exists h_matrix. split; [apply implements_gate; [reflexivity|apply wf_lift_one; auto; split; reflexivity]|]. split.
      { eapply implements_meq; [apply implements_gate; [reflexivity|apply wf_lift_one; auto; split; reflexivity]|].
        apply embed_ext; [reflexivity..|symmetry; apply h_adjoint]. }
      split; [split; reflexivity|]. split; [apply h_unitary|apply h_conj].
    - exists (rx_matrix (PI / 2)). split.
      { apply implements_gate; [cbn; rewrite Hangle; reflexivity|apply wf_lift_one; auto; split; reflexivity]. } split.
      { eapply implements_meq; [apply (implements_gate n _ _ (rx_matrix (- PI / 2))); [cbn; rewrite Hangle; reflexivity|apply wf_lift_one; auto; split; reflexivity]|].
        apply embed_ext; [reflexivity..|]. symmetry. replace (- PI / 2)%R with (- (PI / 2))%R by field. apply rx_adjoint. }
      split; [split; reflexivity|]. split; [apply rx_unitary|apply rx_conj].
    - exists (eye (K := CC) 2). split.
      { eapply implements_meq; [apply implements_nil|]. symmetry. apply (embed_eye (K := CC) n [q]); [repeat constructor; intros []|intros r [<-|[]]; auto]. } split.
      { eapply implements_meq; [apply implements_nil|]. transitivity (embed n [q] (eye (K := CC) (2 ^ length [q]))).
        - symmetry. apply (embed_eye (K := CC) n [q]); [repeat constructor; intros []|intros r [<-|[]]; auto].
        - apply embed_ext; [reflexivity..|]. symmetry. apply adjoint_eye. }
      split; [apply sq_eye|]. split; [apply unitary_eye|]. apply conj_eye. split; reflexivity.
  Qed.
  Lemma changes n (t : term pauli) : NoDup (map fst t) -> (forall f, In f t -> fst f < n /\ snd f <> Pid) ->
    exists U, implements n (flat_map (base_change angle) t) U /\ implements n (flat_map (base_reversal angle) t) (adjoint U) /\ unitary U /\
      (forall q A, q < n -> ~ In q (map fst t) -> sq 2 A -> meq (conj_by U (embed n [q] A)) (embed n [q] A)) /\
      (forall q p, In (q, p) t -> meq (conj_by U (embed n [q] Z1)) (embed n [q] (pauli_matrix (K := CC) ci p))).
  Proof.
    induction t as [|f t IH]; intros ND H.
    - exists (eye (2 ^ n)). split; [apply implements_nil|]. split.
      { eapply implements_meq; [apply implements_nil|]. symmetry; apply adjoint_eye. }
      split; [apply unitary_eye|]. split; [|intros q p []]. intros q A _ _ _. apply conj_eye, sq_embed.
    - cbn [map] in ND. inversion ND as [|? ? Nf ND']; subst. destruct IH as (U & I1 & I2 & UU & Hout & Hin); [auto|intros; apply H; right; auto|].
      destruct (H f (or_introl eq_refl)) as [Hq Hp]. destruct (one_step f n Hq Hp) as (V & J1 & J2 & SV & UV & CV).
      assert (SU := implements_sq _ _ _ I1). set (Ef := embed n [fst f] V) in *. assert (SE : sq (2 ^ n) Ef) by apply sq_embed.
      assert (UE : unitary Ef).
      { destruct SV. apply embed_unitary; cbn; auto. { constructor; [intros []|constructor]. } { intros ? [<-|[]]; auto. } }
      exists (mmul U Ef). cbn [flat_map]. split; [apply implements_app; auto|]. split.
      { eapply implements_meq; [apply implements_app; [exact J2|exact I2]|].
        (* U* V* = (U V)* because V acts on a qubit that U does not touch *)
        set (Eg := embed n [fst f] (adjoint V)) in *. assert (SG : sq (2 ^ n) Eg) by apply sq_embed.
        assert (CM := Hout (fst f) (adjoint V) Hq Nf (sq_adjoint 2 V SV)). fold Eg in CM. unfold conj_by in CM.
        etransitivity; [|symmetry; apply adjoint_mmul; destruct SU, SE; congruence].
        transitivity (mmul Eg (adjoint U)).
        - transitivity (mmul (mmul (adjoint U) Eg) (mmul U (adjoint U))).
          { symmetry. etransitivity; [apply (mmul_sq (2 ^ n)); [apply sq_mmul; auto using sq_adjoint|apply sq_mmul; auto using sq_adjoint|reflexivity|apply (unitary_r (2 ^ n)); auto]|]. apply eye_r_sq, sq_mmul; auto using sq_adjoint. }
          etransitivity; [symmetry; apply (assoc_sq (2 ^ n)); auto using sq_adjoint, sq_mmul|].
          apply (mmul_sq (2 ^ n)); auto using sq_adjoint, sq_mmul; [|reflexivity].
          etransitivity; [apply (assoc_sq (2 ^ n)); auto using sq_adjoint|exact CM].
        - apply (mmul_sq (2 ^ n)); auto using sq_adjoint; [|reflexivity]. symmetry. apply embed_adjoint. }
      split; [apply unitary_mmul; auto; destruct SU, SE; congruence|].
      assert (CP : forall A, sq (2 ^ n) A -> meq (conj_by (mmul U Ef) A) (conj_by Ef (conj_by U A))) by (intros A SA; apply (conj_comp (2 ^ n)); auto).
      split.
      + intros q A H1 H2 H3. cbn [map In] in H2. rewrite CP by apply sq_embed.
        transitivity (conj_by Ef (embed n [q] A)); [apply (conj_ext (2 ^ n)); auto using sq_conj, sq_embed|]. apply conj_embed_other; auto.
      + intros q p F. rewrite CP by apply sq_embed. destruct F as [F|F].
        * subst f. cbn [fst snd] in *. transitivity (conj_by Ef (embed n [q] Z1)); [apply (conj_ext (2 ^ n)); auto using sq_conj, sq_embed, sq_pauli|].
          transitivity (embed n [q] (conj_by V Z1)); [apply conj_embed_same; auto using sq_pauli|].
          apply embed_ext; cbn; auto. all: try (destruct SV; auto).
        * transitivity (conj_by Ef (embed n [q] (pauli_matrix (K := CC) ci p))); [apply (conj_ext (2 ^ n)); auto using sq_conj, sq_embed|].
          apply conj_embed_other; auto using sq_pauli.
          ++ apply (H (q, p)). right; auto.
          ++ intros Eq. apply Nf, in_map_iff. exists (q, p). auto.
  Qed.

  Lemma canonical_nodup (t : term pauli) : canonical t -> NoDup (map fst t).
  Proof.
    induction t as [|f t IH]; intros C; cbn [map]; constructor.
    - intros F. apply in_map_iff in F as (g & E & Hg). pose proof (canonical_head f t C g Hg). lia.
    - apply IH. apply C.
  Qed.
  Lemma canonical_not_id (t : term pauli) f : canonical t -> In f t -> snd f <> Pid.
  Proof. induction t as [|g t IH]; intros C; [intros []|]. destruct C as (C1 & _ & C3). intros [<-|Hf]; auto. Qed.

  (** the word of a term is an involution *)
  Lemma word_square n (t : term pauli) : canonical t -> (forall f, In f t -> fst f < n) ->
    meq (mmul (term_matrix (K := CC) ci n t) (term_matrix (K := CC) ci n t)) (eye (2 ^ n)).
  Proof.
    intros C H. destruct (changes n t (canonical_nodup t C)) as (U & I1 & _ & UU & _ & HU).
    { intros f Hf. split; [auto|]. eapply canonical_not_id; eauto. }
    assert (SU := implements_sq _ _ _ I1). assert (ST : forall u, sq (2 ^ n) (term_matrix (K := CC) ci n u : mat CC)) by (intros; apply term_matrix_shape).
    assert (CT := conj_term n U t t SU UU HU (incl_refl t)).
    assert (HZ : forall f, In f (zpauli t) -> fst f < n) by (intros f Hf; apply in_map_iff in Hf as (g & <- & Hg); cbn; auto).
    assert (ZZ : meq (mmul (term_matrix (K := CC) ci n (zpauli t)) (term_matrix (K := CC) ci n (zpauli t))) (eye (2 ^ n))).
    { etransitivity; [apply (mmul_sq (2 ^ n)); auto; apply term_matrix_mono; auto|]. etransitivity; [apply mono_mmul; apply term_keeps|].
      etransitivity; [|apply mono_eye]. apply mono_ext. intros c Hc. unfold mcomp.
      assert (B : forall f, In f t -> fst f < length c) by (intros; rewrite Hc; auto). rewrite (zpauli_act t c B). cbn [fst snd]. rewrite (zpauli_act t c B). cbn [fst snd]. apply pair_equal_spec; split; [|reflexivity].
      clear. induction t as [|f t IH]; [cbn; c_ring|]. rewrite !zterm_cons.
      generalize dependent (zterm_value (K := CC) (fun q => nth q c false) (zterm t)). intros v IH. cbn [kmul CC] in *.
      transitivity (cmul (cmul (zsign (K := CC) (nth (fst f) c false)) (zsign (K := CC) (nth (fst f) c false))) (cmul v v)); [c_ring|]. rewrite IH.
      destruct (nth (fst f) c false); cbn; c_ring. }
    transitivity (mmul (conj_by U (term_matrix (K := CC) ci n (zpauli t))) (conj_by U (term_matrix (K := CC) ci n (zpauli t)))).
    { symmetry. apply (mmul_sq (2 ^ n)); auto; apply sq_conj; auto. }
    etransitivity; [symmetry; apply (conj_mmul (2 ^ n)); auto|].
    etransitivity; [apply (conj_ext (2 ^ n)); [auto|apply sq_mmul; auto|exact ZZ]|]. apply conj_of_eye; auto.
  Qed.

  Theorem term_operations n (t : term pauli) p x : canonical t -> (forall f, In f t -> fst f < n) -> t <> [] -> eval_param IR rho p = (2 * x)%R ->
    implements n (flat_map (base_change angle) t ++ cnot_gates t ++ central_gate p t ++ rev (cnot_gates t) ++ flat_map (base_reversal angle) t)
      (rotation (2 ^ n) (term_matrix (K := CC) ci n t) x).
  Proof.
    intros C H N Ep. destruct (changes n t (canonical_nodup t C)) as (U & I1 & I2 & UU & _ & HU).
    { intros f Hf. split; [auto|]. eapply canonical_not_id; eauto. }
    destruct (ladder n t C H N) as (L & q & L1 & L2 & UL & Hq & Hc & HZ). rewrite Hc.
    assert (SU := implements_sq _ _ _ I1). assert (SL := implements_sq _ _ _ L1). assert (ST : forall u, sq (2 ^ n) (term_matrix (K := CC) ci n u : mat CC)) by (intros; apply term_matrix_shape).
    assert (IZ : implements n [GateOp (gate_RZ p) [q]] (embed n [q] (rz_matrix (2 * x)))).
    { apply implements_gate; [cbn; rewrite Ep; reflexivity|apply wf_lift_one; auto; split; reflexivity]. }
    set (R0 := embed n [q] (rz_matrix (2 * x))) in *. assert (SR : sq (2 ^ n) R0) by apply sq_embed.
    eapply implements_meq.
    { apply implements_app; [exact I1|]. apply implements_app; [exact L1|]. apply implements_app; [exact IZ|]. apply implements_app; [exact L2|exact I2]. }
    assert (SLU : sq (2 ^ n) (mmul L U)) by (apply sq_mmul; auto).
    assert (ULU : unitary (mmul L U)) by (apply unitary_mmul; auto; destruct SU, SL; congruence).
    transitivity (conj_by U (conj_by L R0)).
    { unfold conj_by.
      transitivity (mmul (mmul (adjoint U) (mmul (adjoint L) (mmul R0 L))) U).
      2:{ apply (assoc_sq (2 ^ n)); auto using sq_adjoint, sq_mmul. }
      apply (mmul_sq (2 ^ n)); auto 6 using sq_adjoint, sq_mmul; [|reflexivity].
      transitivity (mmul (mmul (adjoint U) (mmul (adjoint L) R0)) L).
      2:{ etransitivity; [apply (assoc_sq (2 ^ n)); auto using sq_adjoint, sq_mmul|]. apply (mmul_sq (2 ^ n)); auto using sq_adjoint, sq_mmul; [reflexivity|]. apply (assoc_sq (2 ^ n)); auto using sq_adjoint. }
      apply (mmul_sq (2 ^ n)); auto using sq_adjoint, sq_mmul; [|reflexivity]. apply (assoc_sq (2 ^ n)); auto using sq_adjoint. }
    set (Zq := embed n [q] Z1) in *. assert (SZ : sq (2 ^ n) Zq) by apply sq_embed.
    assert (ER : meq R0 (rotation (2 ^ n) Zq x)).
    { transitivity (embed n [q] (rotation 2 Z1 x)); [apply embed_ext; [reflexivity..|apply rz_rotation]|apply embed_rotation; auto]. }
    assert (SRot : sq (2 ^ n) (rotation (2 ^ n) Zq x)) by (apply rotation_sq; auto).
    transitivity (conj_by U (rotation (2 ^ n) (term_matrix (K := CC) ci n (zpauli t)) x)).
    { apply (conj_ext (2 ^ n)); auto using sq_conj. etransitivity; [apply (conj_ext (2 ^ n)); [auto|exact SR|exact ER]|].
      etransitivity; [apply conj_rotation; auto|]. apply rotation_ext; auto using sq_conj. }
    etransitivity; [apply conj_rotation; auto; apply ST|]. apply rotation_ext; [apply sq_conj; auto; apply ST|].
    apply (conj_term n U t t); auto. apply incl_refl.
  Qed.
End Circ.
