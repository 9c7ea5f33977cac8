(** C63: the matrices of the built-in gates. *)
From Coq Require Import String Reals Lra Nsatz.
From Verif Require Import Base BaseFacts MatModel MatFacts Cplx GateMatModel GateMatSpec GateMatProofs GateValueSpec.
Local Open Scope string_scope.
Local Open Scope R_scope.

Ltac unspec := cbv [ix1 ix2 aI aX aY aZ aH aPhase rot1 tens rot2 controlled exchange aXY aU3 scale1 same if1 Bool.eqb fst snd negb andb
   nth Nat.mul Nat.add].
Ltac cfin := apply c_eq; cbn [fst snd kadd kmul kconj k0 k1 CC cadd cmul csub copp cconj c0 c1 rc ji cis expi]; try (ring || lra || (field; apply Rgt_not_eq, sqrt_lt_R0; lra)).
Ltac shape1 := split; [reflexivity|split; [reflexivity|intros [] []]]; cbn [ent M of_rows nth ix1]; unspec; cbn [ent M of_rows nth x_matrix y_matrix z_matrix h_matrix i_matrix s_matrix t_matrix rx_matrix ry_matrix rz_matrix phase_matrix cnot_matrix cz_matrix swap_matrix iswap_matrix cphase_matrix xx_matrix yy_matrix zz_matrix xy_matrix].
Ltac shape2' := split; [reflexivity|split; [reflexivity|intros [[] []] [[] []]]]; unspec; cbn [ent M of_rows nth x_matrix y_matrix z_matrix h_matrix i_matrix s_matrix t_matrix rx_matrix ry_matrix rz_matrix phase_matrix cnot_matrix cz_matrix swap_matrix iswap_matrix cphase_matrix xx_matrix yy_matrix zz_matrix xy_matrix].
Definition named (s : string) : builtin :=
  match find (fun b => String.eqb (b_name b) s) builtins with Some b => b | None => Build_builtin "" "" 0 false 0 (args0 i_matrix) end.
Ltac gate s f := exists (named s), f; split; [exact (proj1 (find_some (fun b => String.eqb (b_name b) s) builtins eq_refl))|]; do 4 (split; [reflexivity|]).

Theorem C63_paulis : gate1_is "X" [] aX /\ gate1_is "Y" [] aY /\ gate1_is "Z" [] aZ /\ gate1_is "I" [] aI.
Proof.
  split; [gate "X" x_matrix; shape1; cfin|]. split; [gate "Y" y_matrix; shape1; cfin|].
  split; [gate "Z" z_matrix; shape1; cfin|gate "I" i_matrix; shape1; cfin].
Qed.
Theorem C63_phases : gate1_is "H" [] aH /\ gate1_is "S" [] (aPhase (PI / 2)) /\ gate1_is "T" [] (aPhase (PI / 4))
  /\ forall t, gate1_is "PHASE" [t] (aPhase t).
Proof.
  split; [gate "H" h_matrix; shape1; cfin|]. split.
  { gate "S" s_matrix. shape1; cfin; rewrite ?cos_PI2, ?sin_PI2; reflexivity. }
  split; [gate "T" t_matrix; shape1; cfin|]. intros t. gate "PHASE" (phase_matrix t). shape1; cfin.
Qed.
Theorem C63_rotations : forall t, gate1_is "RX" [t] (rot1 t aX) /\ gate1_is "RY" [t] (rot1 t aY) /\ gate1_is "RZ" [t] (rot1 t aZ)
  /\ gate1_is "RH" [t] (scale1 (expi (t / 2)) (rot1 t aH)).
Proof.
  intros t. split; [gate "RX" (rx_matrix t); shape1; cfin|]. split; [gate "RY" (ry_matrix t); shape1; cfin|]. split.
  - gate "RZ" (rz_matrix t).
    shape1; cfin; replace (-1 * t / 2) with (- (t / 2)) by field; rewrite ?cos_neg, ?sin_neg; ring.
  - gate "RH" (rh_matrix t). unfold rh_matrix, mscale. split; [reflexivity|split; [reflexivity|intros [] []]]; cbn [ent M of_rows nth ix1]; unspec; cfin.
Qed.
Theorem C63_u3 : forall theta phi lam, gate1_is "U3" [theta; phi; lam] (aU3 theta phi lam).
Proof.
  intros th ph la. gate "U3" (u3_matrix th ph la). unfold u3_matrix, mscale, mmul. split; [reflexivity|split; [reflexivity|]].
  assert (Eh : forall x, cis x = cmul (cis (x / 2)) (cis (x / 2))) by (intros x; rewrite <- cis_add; f_equal; field).
  assert (En : forall x, cis (-1 * x / 2) = cconj (cis (x / 2))) by (intros x; rewrite cis_conj; f_equal; field).
  assert (Em : cis (0.5 * (ph + la)) = cmul (cis (ph / 2)) (cis (la / 2))) by (rewrite <- cis_add; f_equal; lra).
  assert (Es : expi (ph + la) = cmul (cis ph) (cis la)) by apply cis_add.
  change expi with cis in *.
  pose proof (sin2_cos2 (ph / 2)) as N1. pose proof (sin2_cos2 (la / 2)) as N2. unfold Rsqr in N1, N2.
  intros [] []; cbn [ent nc nr M of_rows nth ix1 bigsum rz_matrix ry_matrix length]; unfold aU3; change expi with cis;
  rewrite ?Es, ?En, ?Em, ?(Eh ph), ?(Eh la); clear Es En Em Eh;
  apply c_eq; cbn [fst snd kadd kmul k0 k1 CC cadd cmul copp cconj c0 c1 rc cis];
  revert N1 N2; generalize (cos (ph / 2)) (sin (ph / 2)) (cos (la / 2)) (sin (la / 2)) (cos (th / 2)) (sin (th / 2));
  intros p p' l l' c s N1 N2; nsatz.
Qed.

Theorem C63_two_qubits : gate2_is "CNOT" [] (controlled aX) /\ gate2_is "CZ" [] (controlled aZ)
  /\ gate2_is "SWAP" [] (exchange c1) /\ gate2_is "ISWAP" [] (exchange (0, 1))
  /\ forall t, gate2_is "CPHASE" [t] (controlled (aPhase t)).
Proof.
  split; [gate "CNOT" cnot_matrix; shape2'; cfin|]. split; [gate "CZ" cz_matrix; shape2'; cfin|].
  split; [gate "SWAP" swap_matrix; shape2'; cfin|]. split; [gate "ISWAP" iswap_matrix; shape2'; cfin|].
  intros t. gate "CPHASE" (cphase_matrix t). shape2'; cfin.
Qed.
Theorem C63_two_qubit_rotations : forall t, gate2_is "XX" [t] (rot2 t (tens aX aX)) /\ gate2_is "YY" [t] (rot2 t (tens aY aY))
  /\ gate2_is "ZZ" [t] (rot2 t (tens aZ aZ)) /\ gate2_is "XY" [t] (aXY t).
Proof.
  intros t. split; [gate "XX" (xx_matrix t); shape2'; cfin|]. split; [gate "YY" (yy_matrix t); shape2'; cfin|].
  split; [gate "ZZ" (zz_matrix t); shape2'; cfin|gate "XY" (xy_matrix t); shape2'; cfin].
Qed.

(** Every built-in gate is one of the above: the list of names is complete and without repetition. *)
Theorem C63_names : map b_name builtins =
  ["X"; "Y"; "Z"; "H"; "I"; "S"; "T"; "RX"; "RY"; "RZ"; "RH"; "PHASE"; "U3"; "CNOT"; "CZ"; "SWAP"; "ISWAP"; "CPHASE"; "XX"; "YY"; "ZZ"; "XY"]
  /\ NoDup (map b_name builtins) /\ NoDup (map b_fun builtins).
Proof.
  split; [reflexivity|]. split; cbv [map builtins b_name b_fun];
  repeat (constructor; [intros H; cbv [In] in H; repeat (destruct H as [H|H]; [discriminate|]); exact H|]); constructor.
Qed.

(** ** Relations between gates *)
(** Entry-wise product of amplitudes, U after V. *)
Definition after1 (U V : amps1) : amps1 := fun r c => cadd (cmul (U r false) (V false c)) (cmul (U r true) (V true c)).
Definition eq1 (U V : amps1) : Prop := forall r c, U r c = V r c.
Theorem C63_rotations_compose : forall s t, eq1 (after1 (rot1 s aX) (rot1 t aX)) (rot1 (s + t) aX)
  /\ eq1 (after1 (rot1 s aY) (rot1 t aY)) (rot1 (s + t) aY) /\ eq1 (after1 (rot1 s aZ) (rot1 t aZ)) (rot1 (s + t) aZ)
  /\ eq1 (after1 (aPhase s) (aPhase t)) (aPhase (s + t)).
Proof.
  intros s t. unfold eq1, after1.
  repeat split; intros [] []; unspec; apply c_eq; cbn [fst snd cadd cmul c0 c1 rc expi];
  replace ((s + t) / 2) with (s / 2 + t / 2) by field; rewrite ?cos_plus, ?sin_plus; ring.
Qed.
(** Consequences users rely on: S S = Z, T T = S, X X = Y Y = Z Z = H H = I, H X H = Z. *)
Theorem C63_identities : eq1 (after1 (aPhase (PI / 2)) (aPhase (PI / 2))) aZ /\ eq1 (after1 (aPhase (PI / 4)) (aPhase (PI / 4))) (aPhase (PI / 2))
  /\ eq1 (after1 aX aX) aI /\ eq1 (after1 aY aY) aI /\ eq1 (after1 aZ aZ) aI /\ eq1 (after1 aH aH) aI /\ eq1 (after1 aH (after1 aX aH)) aZ.
Proof.
  pose proof (sqrt_sqrt 2 ltac:(lra)) as H2. assert (N : sqrt 2 <> 0) by (intros E; rewrite E in H2; lra).
  assert (Q : / sqrt 2 * / sqrt 2 = / 2) by (rewrite <- Rinv_mult, H2; reflexivity).
  unfold eq1, after1.
  repeat split; intros [] []; unspec; apply c_eq; cbn [fst snd cadd cmul c0 c1 rc expi]; rewrite ?cos_PI2, ?sin_PI2, ?cos_PI4, ?sin_PI4; try ring;
   try (unfold Rdiv; revert Q; generalize (/ sqrt 2); intros; nra).
Qed.
Print Assumptions C63_u3.
