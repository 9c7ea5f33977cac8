(** C98: the contracts of nested optimizers, for the nested optimizer of the library. *)
From Coq Require Import List ZArith String Bool Lia.
From Verif Require Import Base BaseFacts HistModel HistSpec HistProofs HistProps OptModel OptSpec OptProofs OptProps ContractModel.
Import ListNotations.
Open Scope string_scope.
Open Scope list_scope.

Section Nested.
  Context {A V E : Type}.
  Notation obj := (obj V). Notation world := (world A V E). Notation fn := (fn A V E).
  Context (p : save_condition A V) (decide : content A V -> content A V -> nat -> bool) (Hp : total_condition p decide).
  Context (inner : optimizer A V) (n : nat) (n_pos : n <> 0).
  Notation nested := (fun factory x keep w => nested_minimize (E := E) p inner n factory x keep w).

  Lemma found_some fs o (w w1 : world) logs founds : optimize_all inner fs o w = (logs, w1, Ok founds) -> length founds = length fs.
  Proof.
    revert w logs w1 founds. induction fs as [|f fs IH]; cbn [optimize_all]; intros w logs w1 founds H; [injection H as _ _ <-; reflexivity|].
    destruct (optimize inner f o w) as [[l w'] [x|e]]; [|discriminate]. destruct (optimize_all inner fs o w') as [[l2 w2] [y|e]] eqn:Y; [|discriminate].
    injection H as _ _ <-. cbn. f_equal. eapply IH. exact Y.
  Qed.
  Lemma last_found factory o (w w1 : world) logs founds : optimize_all inner (map factory (seq 0 n)) o w = (logs, w1, Ok founds) -> exists x l, rev founds = x :: l.
  Proof.
    intros H. apply found_some in H. rewrite map_length, seq_length in H. destruct (rev founds) as [|x l] eqn:R; [|eauto].
    rewrite <- rev_length, R in H. cbn in H. congruence.
  Qed.
  (** If the inner optimizer succeeds for all functions, the contract on the history holds exactly if some call is saved. *)
  Theorem C98_nested_history factory (o : obj) (w w1 : world) logs founds hasg : look w o <> None -> (forall i, f_gradient (factory i) <> None <-> hasg = true) ->
    optimize_all inner (map factory (seq 0 n)) o w = (logs, w1, Ok founds) ->
    exists w2 b, records_history_if_keep_history_is_true nested factory o w = (Ok b, w2) /\ (b = true <-> expected decide logs <> []).
  Proof.
    intros L HG H. unfold records_history_if_keep_history_is_true, validate. destruct (nested_minimize p inner n factory o true w) as [r w2] eqn:N.
    pose proof (C60_nested p decide Hp inner n factory o w w1 w2 logs (Ok founds) r hasg L HG H N) as C. exists w2. destruct r as [y|e]; [|destruct C as (C & _); contradiction].
    destruct C as (before & x & _ & _ & _ & _ & (h & E1 & E2) & _). cbn [rbind]. unfold history_attribute. rewrite E1. cbn [rbind]. eexists. split; [reflexivity|].
    rewrite negb_true_iff, Nat.eqb_neq. destruct E2; cbn; split; congruence.
  Qed.
  (** With gradients there is a gradient history. *)
  Theorem C98_nested_gradient with_gradient factory (o : obj) (w w1 : world) logs founds : look w o <> None -> (forall f, f_gradient (with_gradient f) <> None) ->
    optimize_all inner (map (fun i => with_gradient (factory i)) (seq 0 n)) o w = (logs, w1, Ok founds) ->
    exists w2, records_gradient_history_if_keep_history_is_true with_gradient nested factory o w = (Ok true, w2).
  Proof.
    intros L HG H. unfold records_gradient_history_if_keep_history_is_true, validate. destruct (nested_minimize p inner n (fun i => with_gradient (factory i)) o true w) as [r w2] eqn:N.
    pose proof (C60_nested p decide Hp inner n (fun i => with_gradient (factory i)) o w w1 w2 logs (Ok founds) r true L ltac:(intros i; split; auto) H N) as C. exists w2.
    destruct r as [y|e]; [|destruct C as (C & _); contradiction]. destruct C as (before & x & _ & _ & _ & _ & _ & (h & E1 & _)). cbn [rbind]. now rewrite E1.
  Qed.
  (** Without keep_history: no history, and all mandatory fields. *)
  Theorem C98_nested_unrecorded factory (o : obj) (w w1 : world) logs founds : optimize_all inner (map factory (seq 0 n)) o w = (logs, w1, Ok founds) ->
    does_not_record_history_if_keep_history_is_false nested factory o w = (Ok true, w1) /\ does_not_record_history_by_default nested factory o w = (Ok true, w1) /\
    returns_all_the_mandatory_fields_in_results nested factory o w = (Ok true, w1).
  Proof.
    intros H. destruct (last_found _ _ _ _ _ _ H) as (x & l & R). pose proof (C60_nested_unrecorded p inner n factory o w w1 logs (Ok founds) H) as C. cbn [rbind] in C. rewrite R in C.
    unfold does_not_record_history_if_keep_history_is_false, does_not_record_history_by_default, returns_all_the_mandatory_fields_in_results, validate. rewrite C. repeat split; reflexivity.
  Qed.
End Nested.
Section Examples.
  Local Open Scope Z_scope.
  (** The mock optimizer, and an inner optimizer that never calls the function: the first contract tells them apart. *)
  Example nested_contracts :
    fst (records_history_if_keep_history_is_true (fun f x k w => nested_minimize (E := Z) always (mock_optimizer (map (Z.add 1))) 2 f x k w) (fun _ => xf) (Ref 0) xw1) = Ok true /\
    fst (records_history_if_keep_history_is_true (fun f x k w => nested_minimize (E := Z) always (fun _ => Finish 0 0 1 1) 2 f x k w) (fun _ => xf) (Ref 0) xw1) = Ok false /\
    fst (does_not_record_history_by_default (fun f x k w => nested_minimize (E := Z) always (mock_optimizer (map (Z.add 1))) 2 f x k w) (fun _ => xf) (Ref 0) xw1) = Ok true /\
    snd (optimize_all (mock_optimizer (map (Z.add 1))) (map (fun _ => xf) (seq 0 2)) (Ref 0) xw1) <> Err TypeError.
  Proof. repeat split; try (vm_compute; reflexivity). vm_compute. discriminate. Qed.
End Examples.
Print Assumptions C98_nested_history.
