(** Proofs for C78: active spaces and the Hamiltonian. *)
From Coq Require Import Ring.
From Verif Require Import Base BaseFacts MatModel MatFacts LiftSpec LiftProofs OpModel OpSpec FermiSpec UCCSpec TensorModel TensorSpec ConvModel DiagModel DiagSpec MatRing UCCProofs UCCProofs2 UCCProofs3 MolModel MolSpec MolProofs MolProofs2 MolProofs3 MolProofs4 MolProofs5.
Open Scope list_scope.
Local Open Scope nat_scope.

Section A.
  Context {K : cring}.
  Add Ring Kring_mol6 : (kth K).
  Open Scope K_scope.
  Notation arr := (TensorModel.ndarray K).
  Lemma foldM_sum {X} (f : K -> X -> result K) d l : (forall s, In s l -> forall a, f a s = Ok (a + d s)) -> forall a, foldM f l a = Ok (a + su l d).
  Proof.
    induction l as [|s l IH]; intros H a; [cbn [foldM]; f_equal; unfold su; cbn; ring|]. cbn [foldM]. rewrite H by (left; reflexivity). cbn [rbind]. rewrite IH by (intros t Ht; apply H; right; exact Ht).
    f_equal. unfold su. cbn [map lsum]. ring.
  Qed.
  Definition one_of (x : arr) : nat -> nat -> K := fun p q => data x [p; q].
  Definition two_of (x : arr) : nat -> nat -> nat -> nat -> K := fun p q r s => data x [p; q; r; s].
  Lemma core_constant_ok one two n occ : shape0 one = n -> shape0 two = n -> (forall p, In p occ -> (p < n)%nat) -> core_constant one two occ = Ok (core_energy occ (one_of one) (two_of two)).
  Proof.
    intros H1 H2 Ho. unfold core_constant. rewrite (foldM_sum _ (fun i => (1 + 1) * data one [i; i] + su occ (fun j => (1 + 1) * data two [i; j; j; i] - data two [i; j; i; j]))).
    - f_equal. unfold core_energy, one_of, two_of. ring.
    - intros i Hi a. rewrite aget_ok by (rewrite H1; repeat constructor; auto). cbn [rbind]. rewrite (foldM_sum _ (fun j => (1 + 1) * data two [i; j; j; i] - data two [i; j; i; j])).
      + f_equal. ring.
      + intros j Hj b. rewrite !aget_ok by (rewrite H2; repeat constructor; auto). reflexivity.
  Qed.
  Lemma foldM_add {X} (f : arr -> X -> result arr) n d l : (forall s, In s l -> forall x, shape0 x = n -> exists x', f x s = Ok x' /\ shape0 x' = n /\ forall i, data x' i = data x i + d s i) ->
    forall x, shape0 x = n -> exists x', foldM f l x = Ok x' /\ shape0 x' = n /\ forall i, data x' i = data x i + su l (fun s => d s i).
  Proof.
    induction l as [|s l IH]; intros H x Hx; [exists x; repeat split; auto; intros i; unfold su; cbn; ring|]. cbn [foldM]. destruct (H s (or_introl eq_refl) x Hx) as (x1 & -> & S1 & D1). cbn [rbind].
    destruct (IH (fun t Ht => H t (or_intror Ht)) x1 S1) as (x2 & -> & S2 & D2). exists x2. repeat split; auto. intros i. rewrite D2, D1. unfold su. cbn [map lsum]. ring.
  Qed.
  Lemma dressed_ok one two n occ act : shape0 one = n -> shape0 two = n -> active_space n occ act ->
    exists x, dressed_one_body one two occ act = Ok x /\ shape0 x = n /\ forall u v, In u act -> In v act -> data x [u; v] = dressed occ (one_of one) (two_of two) u v.
  Proof.
    intros H1 H2 (Ho & Ha & _ & Hr). set (e := fun i u v => (1 + 1) * data two [i; u; v; i] - data two [i; u; i; v]).
    assert (R : forall p, In p occ -> (p < n)%nat) by (intros; apply Hr; auto). assert (R' : forall p, In p act -> (p < n)%nat) by (intros; apply Hr; auto).
    destruct (foldM_add (fun x u => foldM (fun x v => foldM (fun x i =>
      let! g1 := aget two [i; u; v; i] in let! g2 := aget two [i; u; i; v] in let! c := aget x [u; v] in Ok (assign x [u; v] (c + ((1 + 1) * g1 - g2)))) occ x) act x) n
      (fun u j => su act (fun v => su occ (fun i => if list_eqb Nat.eqb j [u; v] then e i u v else 0))) act) with (x := one) as (x & E & S & D); [|exact H1|].
    - intros u Hu. apply foldM_add. intros v Hv. apply foldM_add. intros i Hi x Hx. rewrite !(aget_ok two) by (rewrite H2; repeat constructor; auto). rewrite aget_ok by (rewrite Hx; repeat constructor; auto). cbn [rbind].
      eexists. split; [reflexivity|]. split; [exact Hx|]. intros j. rewrite assign_at. destruct (list_eqb Nat.eqb j [u; v]) eqn:Q; [|ring]. apply (list_eqb_spec _ nat_eqb_spec) in Q. subst j. reflexivity.
    - exists x. split; [exact E|]. split; [exact S|]. intros u v Hu Hv. rewrite D. unfold dressed, one_of, two_of. f_equal. rewrite (su_single act u); [|apply increasing_NoDup; exact Ha|exact Hu|].
      + rewrite (su_single act v); [|apply increasing_NoDup; exact Ha|exact Hv|]; [apply su_ext; intros i _; rewrite ieq_refl; reflexivity|].
        intros w _ Nw. apply su_zero. intros i _. rewrite ieq_ne; [reflexivity|congruence].
      + intros w _ Nw. apply su_zero. intros z _. apply su_zero. intros i _. rewrite ieq_ne; [reflexivity|congruence].
  Qed.
  Lemma restrict_ok (x : arr) l : (forall p, In p l -> (p < shape0 x)%nat) -> restrict x l = Ok {| shape0 := length l; data := fun i => data x (map (fun k => nth k l 0%nat) i) |}.
  Proof. intros H. unfold restrict. replace (forallb _ l) with true; [reflexivity|]. symmetry. apply forallb_forall. intros p Hp. apply Nat.ltb_lt. auto. Qed.
  Lemma active_integrals_ok one two n occ act : shape0 one = n -> shape0 two = n -> active_space n occ act -> act <> [] ->
    exists one' two', get_active_space_integrals one two (Some occ) (Some act) = Ok (core_energy occ (one_of one) (two_of two), (one', two')) /\ shape0 one' = length act /\ shape0 two' = length act /\
      (forall k l, (k < length act)%nat -> (l < length act)%nat -> data one' [k; l] = dressed occ (one_of one) (two_of two) (nth k act 0%nat) (nth l act 0%nat)) /\
      forall k l m o, data two' [k; l; m; o] = data two [nth k act 0; nth l act 0; nth m act 0; nth o act 0]%nat.
  Proof.
    intros H1 H2 Ha Hn. destruct (dressed_ok one two n occ act H1 H2 Ha) as (x & E & S & D). destruct Ha as (_ & _ & _ & Hr).
    unfold get_active_space_integrals. destruct act as [|a0 act]; [congruence|]. set (act' := a0 :: act) in *. rewrite (core_constant_ok one two n occ H1 H2) by auto. cbn [rbind]. rewrite E. cbn [rbind].
    rewrite !restrict_ok by (intros; rewrite ?S, ?H2; auto). cbn [rbind]. do 2 eexists. split; [reflexivity|]. split; [reflexivity|]. split; [reflexivity|]. split; [|reflexivity].
    intros k l Hk Hl. cbn [data map]. apply D; apply nth_In; assumption.
  Qed.
  Context (small : K -> bool).
  (** the electronic Hamiltonian depends on the integrals inside the range *)
  Lemma electronic_ext n half c h g h' g' i j : (i < 2 ^ (2 * n))%nat -> (j < 2 ^ (2 * n))%nat -> (forall p q, (p < n)%nat -> (q < n)%nat -> h p q = h' p q) ->
    (forall p q r s, (p < n)%nat -> (q < n)%nat -> (r < n)%nat -> (s < n)%nat -> g p q r s = g' p q r s) -> ent (K := K) (electronic n half c h g) i j = ent (electronic n half c h' g') i j.
  Proof.
    intros Hi Hj Hh Hg. rewrite !electronic_ent by assumption. f_equal. f_equal; unfold one_sum, two_sum.
    - apply su_ext. intros p Hp. apply su_ext. intros q Hq. apply in_seq in Hp, Hq. rewrite Hh by lia. reflexivity.
    - apply su_ext. intros p Hp. apply su_ext. intros q Hq. apply su_ext. intros r Hr. apply su_ext. intros s Hs. apply in_seq in Hp, Hq, Hr, Hs. rewrite Hg by lia. reflexivity.
  Qed.
  Lemma read_app (h : heap K) x y : read (h ++ [x; y]) (length h) = x /\ read (h ++ [x; y]) (S (length h)) = y.
  Proof. unfold read. split; rewrite app_nth2 by lia; [rewrite Nat.sub_diag|replace (S (length h) - length h)%nat with 1%nat by lia]; reflexivity. Qed.
  Lemma interaction_ok_new (h : heap K) c x y n : shape0 x = n -> shape0 y = n -> exists p, interaction_operator h c x y = Ok (h ++ [x; y], p) /\ interaction_ok (h ++ [x; y]) p /\ n_qubits p = n /\
    n_body_tensors p = [([], Num c); ([true; false], Arr (length h)); ([true; true; false; false], Arr (S (length h)))].
  Proof.
    intros Hx Hy. unfold interaction_operator, polynomial_tensor. cbn [rbind]. destruct (read_app h x y) as [R1 R2]. eexists. split; [reflexivity|]. cbn [n_qubits n_body_tensors]. rewrite R1. repeat split; auto.
    - repeat constructor; cbn; intuition discriminate.
    - intros k k' r H H'. cbn [In] in H, H'. destruct H as [H|[H|[H|[]]]], H' as [H'|[H'|[H'|[]]]]; inversion H; inversion H'; subst; auto; lia.
    - exists [true; false], (length h). right; left; reflexivity.
    - intros k e H. cbn [In] in H. destruct H as [H|[H|[H|[]]]]; inversion H; subst; [reflexivity| |]; (split; [discriminate|]; split; [rewrite app_length; cbn [length]; lia|]).
      + cbn [n_qubits]. rewrite ?R1, ?R2. congruence.
      + cbn [n_qubits]. rewrite ?R1, ?R2. congruence.
  Qed.
  Lemma preserved_app (h l : heap K) : preserved h (h ++ l).
  Proof. intros r Hr. unfold read. apply app_nth1. exact Hr. Qed.

  Context (half : K).
  Notation tr c := (if small c then 0 else c).
  Lemma spin_tensors_ok scale one two n : shape0 one = n -> shape0 two = n -> exists A B, spin_tensors small scale one two = Ok (A, B) /\ shape0 A = (2 * n)%nat /\ shape0 B = (2 * n)%nat /\
    is_spin1 n A (fun p q => tr (data one [p; q])) /\ is_spin2 n B (fun p q r s => tr (scale (data two [p; q; r; s]))).
  Proof.
    intros H1 H2. rewrite (spin_tensors_put small scale one two n H1 H2). do 2 eexists. split; [reflexivity|]. cbn [shape0 truncate]. rewrite !put_shape. split; [reflexivity|]. split; [reflexivity|].
    assert (T0 : tr (0 : K) = 0) by (destruct (small 0); reflexivity).
    assert (G1 : is_spin1 n (truncate small (put (flat_map (fun p => flat_map (writes1 one p) (seq 0 n)) (seq 0 n)) (zeros_array (2 * n)))) (fun p q => tr (data one [p; q]))).
    { intros p q a b Hp Hq Ha Hb. cbn [truncate data]. rewrite (spin1 one n p q a b Hp Hq Ha Hb). destruct (Nat.eqb a b); [reflexivity|exact T0]. }
    split; [exact G1|].
    intros p q r s a b c d Hp Hq Hr Hs Ha Hb Hc Hd. cbn [truncate data]. rewrite (spin2 scale two n p q r s a b c d Hp Hq Hr Hs Ha Hb Hc Hd). destruct (Nat.eqb a d && Nat.eqb b c)%bool; [reflexivity|exact T0].
  Qed.
End A.
