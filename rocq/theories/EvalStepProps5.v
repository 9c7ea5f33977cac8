(** C100, part 5: a run of three steps on concrete files, and what sorting the terms does to it. *)
From Coq Require Import String ZArith QArith Lia.
From Verif Require Import Base BaseFacts MatModel OpModel OpSpec PauliProofs SparseModel SectorSpec SectorProps TensorModel DiagModel QopUtilModel RdmModel RevJWSpec RdmSpec RdmProps2 GaussQ JWInterProps RdmProps3 CostModel
  EvalStepModel EvalStepSpec EvalStepProps EvalStepProps2 EvalStepProps3 EvalStepProps4.
Open Scope list_scope.
Local Open Scope nat_scope.
Open Scope string_scope.

(** Two groups of terms: 1 + Z0 and 2 Z0 Z1 + Z1 in quarters. *)
Definition c100_groups : list (qop GQ) := [[([(0, Pz)], gq 4 0); ([(0, Pz); (1, Pz)], gq 8 0)]; [([(1, Pz)], gq 4 0)]].
Definition c100_disk : disk GQ := [("h.json", Operator c82_q); ("groups.json", Operators c100_groups)].
Definition c100_complex (c : GQ) : bool := negb (Qcanon.Qc_eq_bool (snd c) (Qcanon.Q2Qc 0)).
Definition c100_re (c : GQ) : GQ := (fst c, Qcanon.Q2Qc 0).
Definition c100_steps (sort : bool) : M (disk GQ) unit :=
  do! _ := get_ground_state_rdm_from_qubit_operator qi qhalf gq_zero gq_zero c82_solver (inl "h.json") 2 in
  do! _ := expectation_values_from_rdms_list qi gq_zero c82_larger c100_complex (fun c => c) "rdms.json" "groups.json" sort in
  EvalStepModel.evaluate_qubit_operator_list c100_re (inl "groups.json") (inl "expectation_values.json").
Definition estimated (x : disk GQ * result unit) (v : GQ) : bool :=
  match x with (d, Ok _) => match dget String.eqb "value-estimate.json" d with Some (Estimate w NoPrecision) => gq_eqb w v | _ => false end | _ => false end.
(** In |11>, Z0 + 2 Z0 Z1 + Z1 is -1 + 2 - 1 = 0. *)
Example C100_steps_case : estimated (c100_steps false c100_disk) (gq 0 0) = true.
Proof. vm_compute. reflexivity. Qed.
(** With the terms of each operator sorted by size, each value is multiplied with another term's coefficient: 1 - 2 - 1 = -2.  The evaluation step has no way to know that the
    values come in another order. *)
Theorem C100_sorted_refuted : exists (d : disk GQ) (sorted unsorted : GQ), estimated (c100_steps false d) unsorted = true /\ estimated (c100_steps true d) sorted = true /\ gq_eqb sorted unsorted = false.
Proof. exists c100_disk, (gq (- 8) 0), (gq 0 0). repeat split; vm_compute; reflexivity. Qed.
(** The hypotheses of [C100_ground_rdm] and [C100_ground_state] are met. *)
Example C100_ground_case : holds c100_disk "h.json" (Operator c82_q) /\ stored_form c82_q /\ solves c82_solver /\ finds_lowest c82_le c82_solver /\ unit_solver c82_solver /\ conserving qi c82_q /\
  (match get_ground_state_rdm_from_qubit_operator qi qhalf gq_zero gq_zero c82_solver (inl "h.json") 2 c100_disk with (_, Ok _) => true | _ => false end = true) /\
  estimated (EvalStepModel.jw_get_ground_state_at_particle_number qi qhalf gq_zero gq_zero c82_solver (fun _ => true) 2 (inl "h.json") c100_disk) (gq (- 12) 0) = true.
Proof.
  destruct C82_ground_state_case as (H1 & H2 & H3 & H4 & _). split; [reflexivity|]. split; [exact H1|]. split; [exact H2|]. split; [exact H3|]. split.
  { intros R mu s E. unfold c82_solver in E. destruct (_ && _)%bool; [|discriminate]. injection E as _ <-. unfold unit_vector. cbn [vlen vent bigsum].
    assert (X : forall a b : GQ, gq_zero (kadd a (kopp b)) = true -> a = b).
    { intros a b Hz. apply gq_zero_spec in Hz. transitivity (kadd (kadd a (kopp b)) b); [|rewrite Hz; apply (Radd_0_l (kth GQ))].
      rewrite <- (Ring_theory.Radd_assoc (kth GQ)). rewrite (Ring_theory.Radd_comm (kth GQ) (kopp b) b), (Ring_theory.Ropp_def (kth GQ)), (Ring_theory.Radd_comm (kth GQ)), (Radd_0_l (kth GQ)). reflexivity. }
    apply X. vm_compute. reflexivity. }
  split; [exact H4|]. split; vm_compute; reflexivity.
Qed.
Print Assumptions C100_ground_rdm.
Print Assumptions C100_ground_state.
Print Assumptions C100_values.
Print Assumptions C100_values_list.
Print Assumptions C100_evaluate.
Print Assumptions C100_evaluate_too_few.
Print Assumptions C100_energy.
Print Assumptions C100_analysis.
Print Assumptions C100_analysis_bound.
Print Assumptions C100_analysis_rejected.
Print Assumptions C100_untouched.
Print Assumptions C100_sorted_refuted.
