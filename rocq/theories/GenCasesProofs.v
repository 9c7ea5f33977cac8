(** Proofs about the generated backend test cases. *)
From Coq Require Import String Reals Lra Ring.
From Verif Require Import Base BaseFacts MatModel MatFacts LiftModel LiftSpec LiftProofs CircuitModel CircuitSpec Cplx
  GateMatModel GateMatSpec GateMatProofs GenCasesModel GenCasesSpec.
Open Scope list_scope.

(** ** The script's matrices are the library's *)
Lemma cos_half_neg a : cos (-1 * a / 2) = cos (a / 2).
Proof. replace (-1 * a / 2)%R with (- (a / 2))%R by lra. apply cos_neg. Qed.
Lemma sin_half_neg a : sin (-1 * a / 2) = (- sin (a / 2))%R.
Proof. replace (-1 * a / 2)%R with (- (a / 2))%R by lra. apply sin_neg. Qed.
Lemma sqrt2_neq : sqrt 2 <> 0%R.
Proof. apply Rgt_not_eq, sqrt_lt_R0; lra. Qed.

Ltac same := split; [reflexivity|]; split; [reflexivity|]; cbn [nr nc M of_rows length mscale];
  intros i j Hi Hj; repeat (destruct i as [|i]; [|try lia]); repeat (destruct j as [|j]; [|try lia]);
  cbn [ent mscale M of_rows nth]; apply c_eq;
  cbn [fst snd kadd kmul k0 k1 CC cadd cmul csub copp c0 c1 ci rc ji cis mi pl divr];
  rewrite ?cos_half_neg, ?sin_half_neg, ?cos_PI4, ?sin_PI4; try (ring || (field; apply sqrt2_neq)).

Lemma same_I : meq gI i_matrix. Proof. unfold gI, i_matrix. same. Qed.
Lemma same_H : meq gH h_matrix. Proof. unfold gH, h_matrix. same. Qed.
Lemma same_X : meq gX x_matrix. Proof. unfold gX, x_matrix. same. Qed.
Lemma same_Y : meq gY y_matrix. Proof. unfold gY, y_matrix. same. Qed.
Lemma same_Z : meq gZ z_matrix. Proof. unfold gZ, z_matrix. same. Qed.
Lemma same_S : meq gS s_matrix. Proof. unfold gS, s_matrix. same. Qed.
Lemma same_T : meq gT t_matrix. Proof. unfold gT, t_matrix. same. Qed.
Lemma same_CNOT : meq gCNOT cnot_matrix. Proof. unfold gCNOT, cnot_matrix. same. Qed.
Lemma same_CZ : meq gCZ cz_matrix. Proof. unfold gCZ, cz_matrix. same. Qed.
Lemma same_SWAP : meq gSWAP swap_matrix. Proof. unfold gSWAP, swap_matrix. same. Qed.
Lemma same_ISWAP : meq gISWAP iswap_matrix. Proof. unfold gISWAP, iswap_matrix. same. Qed.
Lemma same_RX a : meq (gRX a) (rx_matrix a). Proof. unfold gRX, rx_matrix. same. Qed.
Lemma same_RY a : meq (gRY a) (ry_matrix a). Proof. unfold gRY, ry_matrix. same. Qed.
Lemma same_RZ a : meq (gRZ a) (rz_matrix a). Proof. unfold gRZ, rz_matrix. same. Qed.
Lemma same_PHASE a : meq (gPHASE a) (phase_matrix a). Proof. unfold gPHASE, phase_matrix. same. Qed.
Lemma same_RH a : meq (gRH a) (rh_matrix a). Proof. unfold gRH, rh_matrix. same. Qed.
Lemma same_CPHASE a : meq (gCPHASE a) (cphase_matrix a). Proof. unfold gCPHASE, cphase_matrix. same. Qed.
Lemma same_XX a : meq (gXX a) (xx_matrix a). Proof. unfold gXX, xx_matrix. same. Qed.
Lemma same_YY a : meq (gYY a) (yy_matrix a). Proof. unfold gYY, yy_matrix. same. Qed.
Lemma same_ZZ a : meq (gZZ a) (zz_matrix a). Proof. unfold gZZ, zz_matrix. same. Qed.
Lemma same_XY a : meq (gXY a) (xy_matrix a). Proof. unfold gXY, xy_matrix. same. Qed.

(** ** Running the circuits *)
Add Ring C_ring_gen : C_ring.
Section P.
  Context {Num : Type} (O : sympy_oracle Num) (IR : interp (Num := Num) R) (IC : interp (Num := Num) C) (rho : sym -> R).
  Notation gmat := (gate_matrix O IR IC rho).
  Notation op_app := (op_apply O IR IC rho).

  Lemma step g m qs n v : gmat g = Ok m -> wf_lift m qs n -> vlen v = (2 ^ n)%nat ->
    exists w, op_app (GateOp g qs) v = Ok w /\ veq w (mvmul (embed n qs m) v).
  Proof.
    intros Hg Hw Hv. rewrite (op_apply_gate O IR IC rho g qs n v Hv). cbn [lifted_matrix]. rewrite Hg, Nat2Z.id. cbn [rbind].
    destruct (lift_embed m qs n Hw) as (G & -> & HG). cbn [rbind]. eexists; split; [reflexivity|].
    apply mvmul_ext; [|exact HG|split; auto]. destruct HG as (_ & -> & _). cbn [nc embed]. auto.
  Qed.

  Lemma wf1 (m : mat CC) q n : nr m = 2 -> nc m = 2 -> q < n -> wf_lift m [q] n.
  Proof. intros. repeat split; auto; try discriminate. constructor; [intros []|constructor]. intros ? [<-|[]]; auto. Qed.
  Lemma wf2 (m : mat CC) : nr m = 4 -> nc m = 4 -> wf_lift m [0; 1] 2.
  Proof.
    intros. repeat split; auto; try discriminate. constructor; [intros [|[]]; lia|constructor; [intros []|constructor]].
    intros ? [<-|[<-|[]]]; lia.
  Qed.

  Ltac ents := cbn [vent mvmul embed nc nr bigsum Nat.pow Nat.mul Nat.add ent mmul M of_rows length nth ket1 ket2 kron all_zero Nat.eqb].
  Lemma run1 g1 g2 A B : gmat g1 = Ok A -> gmat g2 = Ok B -> nr A = 2 -> nc A = 2 -> nr B = 2 -> nc B = 2 ->
    exists v, apply_ops O IR IC rho [GateOp g1 [0]; GateOp g2 [0]] (all_zero 1) = Ok v /\ vlen v = 2 /\
      forall i, i < 2 -> vent v i = ent (mmul (mmul B A) ket1) i 0.
  Proof.
    intros H1 H2 HA HA' HB HB'.
    destruct (step g1 A [0] 1 (all_zero 1) H1 (wf1 A 0 1 HA HA' ltac:(lia)) eq_refl) as (u & Eu & Lu & Vu).
    cbn [vlen mvmul embed nr Nat.pow] in Lu.
    destruct (step g2 B [0] 1 u H2 (wf1 B 0 1 HB HB' ltac:(lia)) Lu) as (v & Ev & Lv & Vv). cbn [vlen mvmul embed nr Nat.pow] in Lv.
    exists v. split; [unfold apply_ops; cbn [foldM]; rewrite Eu; cbn [rbind]; rewrite Ev; reflexivity|]. split; [exact Lv|].
    intros i Hi. rewrite Vv by (rewrite Lv; exact Hi). pose proof (Vu 0 ltac:(rewrite Lu; lia)) as U0. pose proof (Vu 1 ltac:(rewrite Lu; lia)) as U1.
    cbn [ent mmul]. rewrite ?HA', ?HB'. cbn in U0, U1.
    cbn [vent mvmul embed nc nr]. cbn [Nat.pow Nat.mul Nat.add bigsum]. rewrite U0, U1.
    destruct i as [|[|i]]; [| |lia]; cbn; rewrite ?HA', ?HB'; cbn; ring.
  Qed.

  Ltac entries H := let L := fresh "L" in
    match type of H with veq ?u _ => destruct H as [L H]; cbn [vlen mvmul embed nr Nat.pow Nat.mul Nat.add] in L;
      pose proof (H 0 ltac:(rewrite L; lia)); pose proof (H 1 ltac:(rewrite L; lia));
      pose proof (H 2 ltac:(rewrite L; lia)); pose proof (H 3 ltac:(rewrite L; lia)); clear H end.
  Lemma run2 g1 g2 g3 A B U : gmat g1 = Ok A -> gmat g2 = Ok B -> gmat g3 = Ok U ->
    nr A = 2 -> nc A = 2 -> nr B = 2 -> nc B = 2 -> nr U = 4 -> nc U = 4 ->
    exists v, apply_ops O IR IC rho [GateOp g1 [0]; GateOp g2 [1]; GateOp g3 [0; 1]] (all_zero 2) = Ok v /\ vlen v = 4 /\
      forall i, i < 4 -> vent v i = ent (mmul (mmul U (kron A B)) ket2) i 0.
  Proof.
    intros H1 H2 H3 HA HA' HB HB' HU HU'.
    destruct (step g1 A [0] 2 (all_zero 2) H1 (wf1 A 0 2 HA HA' ltac:(lia)) eq_refl) as (u & Eu & Vu).
    entries Vu.
    destruct (step g2 B [1] 2 u H2 (wf1 B 1 2 HB HB' ltac:(lia)) L) as (w & Ew & Vw). entries Vw.
    destruct (step g3 U [0; 1] 2 w H3 (wf2 U HU HU') L0) as (v & Ev & Lv & Vv). cbn [vlen mvmul embed nr Nat.pow Nat.mul Nat.add] in Lv.
    exists v. split; [unfold apply_ops; cbn [foldM]; rewrite Eu; cbn [rbind]; rewrite Ew; cbn [rbind]; rewrite Ev; reflexivity|].
    split; [exact Lv|]. intros i Hi. rewrite Vv by (rewrite Lv; exact Hi). clear Vv Ev Ew Eu.
    cbn [ent mmul nc kron]. rewrite ?HA', ?HB', ?HU'. cbn in H, H0, H4, H5, H6, H7, H8, H9.
    cbn [vent mvmul embed nc nr]. cbn [Nat.pow Nat.mul Nat.add bigsum]. rewrite H6, H7, H8, H9, H, H0, H4, H5.
    rewrite ?HB. do 4 (destruct i as [|i]; [cbn; rewrite ?HA', ?HB', ?HU', ?HB, ?HA; cbn; ring|]). lia.
  Qed.

  (** ** Gates by name *)
  Definition named_matrix (name : string) (l : list R) : result (mat CC) :=
    match find (fun b => String.eqb (b_name b) name) builtins with Some b => b_call b l | None => Err KeyError end.
  Lemma find_named b : In b builtins -> find (fun c => String.eqb (b_name c) (b_name b)) builtins = Some b.
  Proof. intros H. repeat (destruct H as [<-|H]; [reflexivity|]). destruct H. Qed.
  Lemma named_gate name ps qs o : op_named (Num := Num) name ps qs o ->
    exists g, o = GateOp g qs /\ gmat g = named_matrix name (map (eval_param IR rho) ps).
  Proof.
    intros (b & Hb & <- & Ha & ->). eexists; split; [reflexivity|]. rewrite builtin_gate_matrix by exact Hb.
    unfold named_matrix. rewrite find_named by exact Hb. reflexivity.
  Qed.
  Lemma named_exists b ps qs : In b builtins -> length ps = b_arity b -> exists o, op_named (Num := Num) (b_name b) ps qs o.
  Proof. intros H1 H2. eexists. exists b. repeat split; auto. Qed.

  (** ** Expectation values of the Pauli strings *)
  Lemma pauli_ops_exist name : exists ops, Forall2 (fun f o => op_named (Num := Num) (fst f) [] [snd f] o) (pauli_ops name) ops.
  Proof.
    assert (HX : forall q, exists o, op_named (Num := Num) "X" [] [q] o) by (intros; apply (named_exists (nth 0 builtins (Build_builtin "" "" 0 true 0 (args0 x_matrix)))); cbn; auto).
    assert (HY : forall q, exists o, op_named (Num := Num) "Y" [] [q] o) by (intros; apply (named_exists (nth 1 builtins (Build_builtin "" "" 0 true 0 (args0 x_matrix)))); cbn; auto).
    assert (HZ : forall q, exists o, op_named (Num := Num) "Z" [] [q] o) by (intros; apply (named_exists (nth 2 builtins (Build_builtin "" "" 0 true 0 (args0 x_matrix)))); cbn; auto).
    destruct (HX 0) as [x0 X0], (HX 1) as [x1 X1], (HY 0) as [y0 Y0], (HY 1) as [y1 Y1], (HZ 0) as [z0 Z0], (HZ 1) as [z1 Z1].
    unfold pauli_ops. repeat match goal with |- context [if ?b then _ else _] => destruct b end; eauto 8.
  Qed.
  Ltac pstep H m v n q Hv := let g := fresh "g" in let G := fresh "G" in let E := fresh "E" in
    apply named_gate in H as (g & -> & G); cbn in G;
    destruct (step g m [q] n v G (wf1 m q n eq_refl eq_refl ltac:(lia)) Hv) as (?w & E & ?V).
  Ltac fin := apply c_eq; cbn [fst snd cadd cmul csub copp cconj c0 c1 ci rc ji]; ring.

  Lemma exp1 P name (ket : mat CC) (v : vec CC) :
    In (P, name) [(gI, "[]"); (gX, "[X0]"); (gY, "[Y0]"); (gZ, "[Z0]")]%string ->
    nr ket = 2 -> nc ket = 1 -> vlen v = 2 -> (forall i, i < 2 -> vent v i = ent ket i 0) ->
    is_expectation O IR IC rho v name (expectation_value P ket).
  Proof.
    intros HP Hr Hc Hv Hk. split; [apply pauli_ops_exist|]. intros ops Hops. pose proof (Hk 0 ltac:(lia)) as K0. pose proof (Hk 1 ltac:(lia)) as K1.
    unfold expectation_value. cbn [ent mmul adjoint nc nr]. rewrite Hr.
    destruct HP as [E|[E|[E|[E|[]]]]]; injection E as <- <-; cbn in Hops.
    - inversion Hops; subst; clear Hops. exists v. split; [reflexivity|]. unfold inner. rewrite Hv. cbn. rewrite K0, K1. fin.
    - inversion Hops as [|? o ? l Ho Hl]; subst. inversion Hl; subst; clear Hl. cbn in Ho.
      pstep Ho x_matrix v 1 0 Hv. exists w. split; [unfold apply_ops; cbn [foldM]; rewrite E; reflexivity|].
      destruct V as [L V]. unfold inner. rewrite Hv. cbn [bigsum]. cbn in L. rewrite !V by (rewrite L; lia). cbn. rewrite K0, K1. fin.
    - inversion Hops as [|? o ? l Ho Hl]; subst. inversion Hl; subst; clear Hl. cbn in Ho.
      pstep Ho y_matrix v 1 0 Hv. exists w. split; [unfold apply_ops; cbn [foldM]; rewrite E; reflexivity|].
      destruct V as [L V]. unfold inner. rewrite Hv. cbn [bigsum]. cbn in L. rewrite !V by (rewrite L; lia). cbn. rewrite K0, K1. fin.
    - inversion Hops as [|? o ? l Ho Hl]; subst. inversion Hl; subst; clear Hl. cbn in Ho.
      pstep Ho z_matrix v 1 0 Hv. exists w. split; [unfold apply_ops; cbn [foldM]; rewrite E; reflexivity|].
      destruct V as [L V]. unfold inner. rewrite Hv. cbn [bigsum]. cbn in L. rewrite !V by (rewrite L; lia). cbn. rewrite K0, K1. fin.
  Qed.

  Lemma exp2 P name (ket : mat CC) (v : vec CC) : In (P, name) two_qubit_operators ->
    nr ket = 4 -> nc ket = 1 -> vlen v = 4 -> (forall i, i < 4 -> vent v i = ent ket i 0) ->
    is_expectation O IR IC rho v name (expectation_value P ket).
  Proof.
    intros HP Hr Hc Hv Hk. split; [apply pauli_ops_exist|]. intros ops Hops. pose proof (Hk 0 ltac:(lia)) as K0. pose proof (Hk 1 ltac:(lia)) as K1.
    pose proof (Hk 2 ltac:(lia)) as K2. pose proof (Hk 3 ltac:(lia)) as K3.
    unfold expectation_value. cbn [ent mmul adjoint nc nr]. rewrite Hr.
    assert (One : forall m q o, op_named m [] [q] o -> q < 2 -> forall M, named_matrix m [] = Ok M -> nr M = 2 -> nc M = 2 ->
        exists w, apply_ops O IR IC rho [o] v = Ok w /\ veq w (mvmul (embed 2 [q] M) v)).
    { intros m q o Ho Hq M0 HM R1 R2. apply named_gate in Ho as (g & -> & G). cbn [map] in G. rewrite HM in G.
      destruct (step g M0 [q] 2 v G (wf1 M0 q 2 R1 R2 Hq) Hv) as (w & E & V). exists w. split; [|exact V].
      unfold apply_ops. cbn [foldM]. rewrite E. reflexivity. }
    assert (Two : forall m o o', op_named m [] [0] o -> op_named m [] [1] o' -> forall M, named_matrix m [] = Ok M -> nr M = 2 -> nc M = 2 ->
        exists u w, apply_ops O IR IC rho [o; o'] v = Ok w /\ veq u (mvmul (embed 2 [0] M) v) /\ veq w (mvmul (embed 2 [1] M) u)).
    { intros m o o' Ho Ho' M0 HM R1 R2. destruct (One m 0 o Ho ltac:(lia) M0 HM R1 R2) as (u & Eu & Vu). exists u.
      apply named_gate in Ho' as (g & -> & G). cbn [map] in G. rewrite HM in G.
      destruct Vu as [Lu Vu]. assert (Lu' : vlen u = 2 ^ 2) by (rewrite Lu; reflexivity).
      destruct (step g M0 [1] 2 u G (wf1 M0 1 2 R1 R2 ltac:(lia)) Lu') as (w & E & V). exists w. split; [|split; [split; auto|exact V]].
      revert Eu. unfold apply_ops. cbn [foldM]. destruct (op_app o v); cbn [rbind]; [|discriminate].
      intros Eu; injection Eu as ->. rewrite E. reflexivity. }
    assert (Val : forall w, inner v w = cadd (cadd (cadd (cadd c0 (cmul (cconj (ent ket 0 0)) (vent w 0))) (cmul (cconj (ent ket 1 0)) (vent w 1)))
        (cmul (cconj (ent ket 2 0)) (vent w 2))) (cmul (cconj (ent ket 3 0)) (vent w 3))).
    { intros w. unfold inner. rewrite Hv. cbn. rewrite K0, K1, K2, K3. reflexivity. }
    destruct HP as [E|[E|[E|[E|[E|[E|[]]]]]]]; injection E as <- <-; cbn in Hops.
    - inversion Hops; subst; clear Hops. exists v. split; [reflexivity|]. rewrite Val, K0, K1, K2, K3. cbn. fin.
    - inversion Hops as [|? o ? l Ho Hl]; subst. inversion Hl as [|? o' ? l' Ho' Hl']; subst. inversion Hl'; subst; clear Hl'.
      destruct (Two "X"%string o o' Ho Ho' x_matrix eq_refl eq_refl eq_refl) as (u & w & Ew & Vu & Vw). exists w. split; [exact Ew|]. rewrite Val.
      entries Vu. entries Vw. cbn in *. rewrite H3, H4, H5, H6, H, H0, H1, H2, K0, K1, K2, K3. fin.
    - inversion Hops as [|? o ? l Ho Hl]; subst. inversion Hl as [|? o' ? l' Ho' Hl']; subst. inversion Hl'; subst; clear Hl'.
      destruct (Two "Y"%string o o' Ho Ho' y_matrix eq_refl eq_refl eq_refl) as (u & w & Ew & Vu & Vw). exists w. split; [exact Ew|]. rewrite Val.
      entries Vu. entries Vw. cbn in *. rewrite H3, H4, H5, H6, H, H0, H1, H2, K0, K1, K2, K3. fin.
    - inversion Hops as [|? o ? l Ho Hl]; subst. inversion Hl as [|? o' ? l' Ho' Hl']; subst. inversion Hl'; subst; clear Hl'.
      destruct (Two "Z"%string o o' Ho Ho' z_matrix eq_refl eq_refl eq_refl) as (u & w & Ew & Vu & Vw). exists w. split; [exact Ew|]. rewrite Val.
      entries Vu. entries Vw. cbn in *. rewrite H3, H4, H5, H6, H, H0, H1, H2, K0, K1, K2, K3. fin.
    - inversion Hops as [|? o ? l Ho Hl]; subst. inversion Hl; subst; clear Hl. cbn in Ho.
      destruct (One "X"%string 1 o Ho ltac:(lia) x_matrix eq_refl eq_refl eq_refl) as (w & Ew & Vw). exists w. split; [exact Ew|]. rewrite Val.
      entries Vw. cbn in *. rewrite H, H0, H1, H2, K0, K1, K2, K3. fin.
    - inversion Hops as [|? o ? l Ho Hl]; subst. inversion Hl; subst; clear Hl. cbn in Ho.
      destruct (One "Z"%string 0 o Ho ltac:(lia) z_matrix eq_refl eq_refl eq_refl) as (w & Ew & Vw). exists w. split; [exact Ew|]. rewrite Val.
      entries Vw. cbn in *. rewrite H, H0, H1, H2, K0, K1, K2, K3. fin.
  Qed.
End P.
