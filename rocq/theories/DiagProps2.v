(** C72, continued: the particle number operator as an interaction operator; concrete cases. *)
From Coq Require Import Ring.
From Verif Require Import Base BaseFacts MatModel MatFacts LiftSpec LiftProofs OpModel OpSpec OpProofs PauliProofs OpProofs2 FermiModel FermiSpec FermiProofs FermiProofs2 FermiProofs6 FermiProofs7 FermiProps
  TensorModel TensorSpec TensorProofs TensorProps ConvModel ConvSpec ConvProofs ConvProps RevJWModel RevJWSpec RevJWProps DiagModel DiagSpec DiagProofs DiagProofs2 DiagProps ActsProofs ActsProps GaussQ.
Open Scope list_scope.
Local Open Scope nat_scope.

Section Number.
  Context {K : cring} (small : K -> bool) (H0 : small k0 = true) (H1 : small k1 = false).
  Add Ring Kring_c72n : (kth K).
  Open Scope K_scope.
  Notation op := (fop K).
  (** What is taken off: nothing when no number of particles is given or when it is negligible. *)
  Definition taken_off (m : option K) : K := match m with None => 0 | Some m => if small (- m) then 0 else m end.
  Definition number_terms (n : nat) : op := map (fun m => ([(m, true); (m, false)], 1)) (seq 0 n).
  Lemma number_terms_wf n : wf_op (number_terms n).
  Proof. unfold wf_op, number_terms, dkeys. rewrite map_map. cbn [fst]. apply FinFun.Injective_map_NoDup; [|apply seq_NoDup]. intros x y E. inversion E; auto. Qed.
  Lemma number_terms_In n t c : In (t, c) (number_terms n) -> exists m, (m < n)%nat /\ t = [(m, true); (m, false)] /\ c = 1.
  Proof. intros H. apply in_map_iff in H as (m & E & H). apply in_seq in H. inversion E; subst. exists m. split; [lia|auto]. Qed.
  Definition const_terms (m : option K) : op := match m with None => [] | Some m => not_small_terms small [([], - m)] end.
  Lemma const_In m t c : In (t, c) (const_terms m) -> t = [] /\ small c = false.
  Proof.
    unfold const_terms, not_small_terms. destruct m as [m|]; [|intros []]. cbn [filter snd]. destruct (small (- m)) eqn:E; cbn [negb In]; [tauto|]. intros [X|[]]. inversion X; subst. auto.
  Qed.
  Lemma number_full n m : exists o, o = number_terms n ++ const_terms m /\
    get_fermion_number_operator small [] n m = get_interaction_operator small [] o None /\ forall h, get_fermion_number_operator small h n m = get_interaction_operator small h o None.
  Proof.
    eexists. split; [reflexivity|]. assert (G : forall h, get_fermion_number_operator small h n m = get_interaction_operator small h (number_terms n ++ const_terms m) None); [|split; [apply G|exact G]].
    intros h. unfold get_fermion_number_operator. rewrite number_sum. assert (E1 : 0 + 1 = (1 : K)) by ring. rewrite E1, H1. cbn [rbind]. fold (number_terms n).
    destruct m as [m|]; [|cbn [const_terms]; rewrite app_nil_r; reflexivity]. f_equal. assert (E2 : - (1) * m = - m) by ring. rewrite E2. apply (add_one small Bool.eqb bool_eqb_spec).
    intros X. apply in_map_iff in X as ([t c] & E & X). apply number_terms_In in X as (k & _ & -> & _). discriminate.
  Qed.
  Theorem C72_number (h : heap K) n (m : option K) : exists h' p, get_fermion_number_operator small h n m = Ok (h', p) /\ tensor_ok h' p /\ n_qubits p = n /\ preserved h h' /\
    forall x y, length x = n -> length y = n -> tensor_entry h' p x y = if list_eqb Bool.eqb x y then times (occupied n x) 1 - taken_off m else 0.
  Proof.
    destruct (number_full n m) as (o & Eo & _ & E). rewrite E.
    assert (In_o : forall t c, In (t, c) o -> (exists k, (k < n)%nat /\ t = [(k, true); (k, false)] /\ c = 1) \/ (t = [] /\ small c = false)).
    { intros t c Hin. rewrite Eo in Hin. apply in_app_or in Hin as [Hin|Hin]; [left; apply number_terms_In, Hin|right; apply const_In in Hin; exact Hin]. }
    assert (W : wf_op o).
    { unfold wf_op. rewrite Eo. unfold dkeys. rewrite map_app. apply NoDup_app; [apply number_terms_wf| |].
      - unfold const_terms, not_small_terms. destruct m as [m|]; [|constructor]. cbn [filter snd]. destruct (negb _); repeat constructor; intros [].
      - intros t X Y. apply in_map_iff in X as ([u c] & <- & X). apply in_map_iff in Y as ([v d] & E' & Y). cbn [fst] in *. apply number_terms_In in X as (k & _ & -> & _). apply const_In in Y as [-> _]. discriminate. }
    assert (N : normal_ordered small o = o).
    { apply C46_fixed; auto.
      - intros t c Hin. destruct (In_o t c Hin) as [(k & _ & -> & _)|[-> _]]; intros i j f g Hij Hf Hg; [|destruct i; discriminate].
        destruct i as [|[|i]], j as [|[|[|j]]]; cbn in *; try lia; try discriminate. inversion Hf; inversion Hg; subst. exact I.
      - intros t c Hin. destruct (In_o t c Hin) as [(k & _ & _ & ->)|[_ X]]; auto. }
    assert (On : on_qubits n o).
    { intros t c Hin f Hf. destruct (In_o t c Hin) as [(k & Hk & -> & _)|[-> _]]; [|destruct Hf]. destruct Hf as [<-|[<-|[]]]; exact Hk. }
    assert (Sz : size_used o None = n).
    { cbn [size_used]. apply Nat.le_antisymm; [apply (count_least small (fun _ => false) (fun x E => False_rect _ (Bool.diff_false_true E)) H0 o n On)|]. destruct n as [|n]; [lia|]. assert (X : In ([(n, true); (n, false)], 1) o) by (rewrite Eo; apply in_or_app; left; apply in_map_iff; exists n; split; [reflexivity|apply in_seq; lia]).
      pose proof (count_on small (fun _ => false) (fun x E => False_rect _ (Bool.diff_false_true E)) H0 o _ _ X (n, true) (or_introl eq_refl)) as Q. cbn [fst] in Q. lia. }
    destruct (C53_interaction_of_operator small (fun _ => false) (fun x E => False_rect _ (Bool.diff_false_true E)) H0 h o None) as (h' & p & E1 & T & S1 & P & V).
    { rewrite Sz. exact On. }
    { rewrite N. intros t c Hin. unfold interaction_term. destruct (In_o t c Hin) as [(k & _ & -> & _)|[-> _]]; cbn; auto. }
    exists h', p. split; [exact E1|]. split; [exact T|]. rewrite Sz in S1. split; [exact S1|]. split; [exact P|]. intros x y Hx Hy. rewrite <- (acts_as h' p o); [|apply T|exact W|rewrite S1; exact On|intros t _; rewrite V, N; reflexivity].
    rewrite S1. rewrite Eo, fop_ent, lval_app, <- !fop_ent. destruct (C70_number_total small n n (1 : K) (le_n n)) as (b & Eb & _ & M). rewrite number_sum in Eb. assert (X1 : 0 + 1 = (1 : K)) by ring. rewrite X1, H1 in Eb. inversion Eb as [Eb']. rewrite H1 in M. rewrite <- Eb' in M.
    destruct M as (_ & _ & M). assert (Bx : (bval x < 2 ^ n)%nat) by (rewrite <- Hx; apply bval_lt). assert (By : (bval y < 2 ^ n)%nat) by (rewrite <- Hy; apply bval_lt).
    assert (M' : ent (fop_matrix n (number_terms n)) (bval x) (bval y) = ent (diagonal n (fun b => times (occupied n b) 1)) (bval x) (bval y)).
    { apply M; rewrite ?(proj1 (fop_shape _ _)), ?(proj2 (fop_shape _ _)); assumption. }
    rewrite M', diagonal_ent by auto.
    assert (C : ent (fop_matrix n (const_terms m)) (bval x) (bval y) = if list_eqb Bool.eqb x y then - taken_off m else 0).
    { unfold const_terms, taken_off, not_small_terms. destruct m as [m|]; [|cbn; destruct (list_eqb Bool.eqb x y); ring]. cbn [filter snd]. destruct (small (- m)); cbn [negb]; [cbn; destruct (list_eqb Bool.eqb x y); ring|].
      rewrite fop_ent. cbn [lval fst snd fterm_matrix fold_right ent eye]. rewrite eqb_bval by congruence. destruct (list_eqb Bool.eqb x y); cbn [delta]; ring. }
    rewrite C. destruct (list_eqb Bool.eqb x y) eqn:Q; [|ring]. apply (list_eqb_spec _ bool_eqb_spec) in Q. subst y. ring.
  Qed.
End Number.

(** Concrete cases: an operator with a hopping term, a density-density term and a constant. *)
Definition c72_heap : heap GQ := [{| shape0 := 2; data := fun i => match i with [0; 0] => gq 1 0 | [0; 1] => gq 2 0 | [1; 0] => gq 2 0 | _ => k0 end |};
  {| shape0 := 2; data := fun i => match i with [1; 0; 0; 1] => gq 3 0 | [1; 0; 1; 0] => gq 5 0 | _ => k0 end |}].
Definition c72_tensor : ptensor GQ := {| n_qubits := 2; n_body_tensors := [([], Num (gq 7 0)); ([true; false], Arr 0); ([true; true; false; false], Arr 1)] |}.
Example C72_hypotheses : interaction_ok c72_heap c72_tensor.
Proof.
  split; [|reflexivity]. split; [repeat constructor; cbn; intuition discriminate|]. split; [intros k1 k2 r [E1|[E1|[E1|[]]]] [E2|[E2|[E2|[]]]]; inversion E1; inversion E2; subst; try discriminate; reflexivity|].
  split; [exists [true; false], 0; right; left; reflexivity|]. intros k e [E|[E|[E|[]]]]; inversion E; subst; cbn; [reflexivity| |]; repeat split; try discriminate; lia.
Qed.
Example C72_case : match get_diagonal_component InteractionClass c72_heap c72_tensor with
  | Ok (h', (d, r)) => gq_zero (ksub (value h' d [true; false] [0; 0]) (gq 1 0)) && gq_zero (value h' d [true; false] [0; 1]) && gq_zero (ksub (value h' r [true; false] [0; 1]) (gq 2 0)) &&
      gq_zero (ksub (value h' d [true; true; false; false] [1; 0; 1; 0]) (gq 5 0)) && gq_zero (ksub (value h' d [] []) (gq 7 0)) && gq_zero (value h' r [] [])
  | Err _ => false end = true.
Proof. vm_compute. reflexivity. Qed.
(** An interaction operator to which other products of ladder operators were added (which += allows) loses them. *)
Theorem C72_other_keys_refuted : exists (h : heap GQ) a h' d r k i, tensor_ok h a /\ get_diagonal_component InteractionClass h a = Ok (h', (d, r)) /\ addresses (n_qubits a) k i /\
  kadd (value h' d k i) (value h' r k i) <> value h a k i.
Proof.
  set (h := c72_heap ++ [{| shape0 := 2; data := fun _ => gq 1 0 |}]). set (a := {| n_qubits := 2; n_body_tensors := n_body_tensors c72_tensor ++ [([true; true], Arr 2)] |}).
  destruct (get_diagonal_component InteractionClass h a) as [[h' [d r]]|] eqn:E; [|discriminate].
  exists h, a, h', d, r, [true; true], [0; 1]. split; [|split; [exact E|split; [split; [reflexivity|repeat constructor]|]]].
  - split; [repeat constructor; cbn; intuition discriminate|]. split; [intros k1 k2 x [E1|[E1|[E1|[E1|[]]]]] [E2|[E2|[E2|[E2|[]]]]]; inversion E1; inversion E2; subst; try discriminate; reflexivity|].
    split; [exists [true; false], 0; right; left; reflexivity|]. intros k e [X|[X|[X|[X|[]]]]]; inversion X; subst; cbn; [reflexivity| | |]; repeat split; try discriminate; lia.
  - cbv [get_diagonal_component diagonal_interaction] in E. cbn in E. inversion E; subst h' d r. cbn. discriminate.
Qed.
Example C72_number_case : match get_fermion_number_operator gq_zero ([] : heap GQ) 3 (Some (gq 8 0)) with
  | Ok (h', p) => Nat.eqb (n_qubits p) 3 && gq_zero (ksub (value h' p [true; false] [2; 2]) (gq 4 0)) && gq_zero (ksub (value h' p [] []) (gq (-8) 0)) | Err _ => false end = true.
Proof. vm_compute. reflexivity. Qed.

Print Assumptions C72_tensor.
Print Assumptions C72_interaction.
Print Assumptions C72_number.
Print Assumptions C72_other_keys_refuted.
