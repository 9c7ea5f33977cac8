(** Occupation-number states and number sectors. *)
From Coq Require Import Ring.
From Verif Require Import Base BaseFacts MatModel MatFacts LiftSpec LiftProofs PauliProofs SparseModel SparseProofs SectorSpec.
Open Scope list_scope.
Local Open Scope nat_scope.

Lemma particles_app x y : particles (x ++ y) = particles x + particles y.
Proof. induction x as [|a x IH]; cbn [app particles]; [reflexivity|]. rewrite IH. lia. Qed.
Lemma bval_snoc x a : bval (x ++ [a]) = 2 * bval x + (if a then 1 else 0).
Proof. rewrite bval_app. destruct a; cbn [length bval Nat.pow Nat.mul Nat.add]; lia. Qed.
(** ** Configurations *)
Lemma bval_setb i b : i < length b -> nth i b false = false -> bval (setb i true b) = bval b + 2 ^ (length b - 1 - i).
Proof.
  revert i. induction b as [|x b IH]; intros i Hi Hx; [cbn in Hi; lia|]. destruct i as [|i]; cbn [setb bval nth] in *.
  - subst x. cbn [length]. replace (S (length b) - 1 - 0) with (length b) by lia. lia.
  - rewrite setb_length, IH by (cbn in Hi; auto; lia). cbn [length]. replace (S (length b) - 1 - S i) with (length b - 1 - i) by lia. destruct x; lia.
Qed.
Definition occ_from (b : list bool) (l : list nat) : list bool := fold_left (fun b i => setb i true b) l b.
Lemma occ_length l : forall b, length (occ_from b l) = length b.
Proof. induction l as [|i l IH]; intros b; [reflexivity|]. change (length (occ_from (setb i true b) l) = length b). rewrite IH, setb_length. reflexivity. Qed.
Lemma occ_nth l : forall b q, (forall i, In i l -> i < length b) -> nth q (occ_from b l) false = (memb Nat.eqb q l || nth q b false)%bool.
Proof.
  induction l as [|i l IH]; intros b q H; cbn [occ_from fold_left memb]; [reflexivity|]. fold (occ_from (setb i true b) l). rewrite IH by (intros j Hj; rewrite setb_length; apply H; right; auto).
  rewrite nth_setb by (apply H; left; auto). unfold memb. cbn [existsb]. destruct (Nat.eqb q i), (existsb (Nat.eqb q) l); reflexivity.
Qed.
Lemma occ_index l : forall b, NoDup l -> (forall i, In i l -> i < length b) -> (forall i, In i l -> nth i b false = false) ->
  bval (occ_from b l) = fold_left (fun s i => s + 2 ^ (length b - 1 - i)) l (bval b).
Proof.
  induction l as [|i l IH]; intros b Hn Hl Hf; cbn [occ_from fold_left]; [reflexivity|]. fold (occ_from (setb i true b) l). inversion Hn; subst. rewrite IH; auto.
  - rewrite setb_length, bval_setb; auto; [apply Hl|apply Hf]; left; auto.
  - intros j Hj. rewrite setb_length. apply Hl. right; auto.
  - intros j Hj. rewrite nth_setb by (apply Hl; left; auto). destruct (Nat.eqb_spec j i) as [->|N]; [contradiction|]. apply Hf. right; auto.
Qed.
Lemma occupation_length n l : length (occupation n l) = n.
Proof. unfold occupation. rewrite map_length, seq_length. reflexivity. Qed.
Lemma nth_repeat_false n q : nth q (repeat false n) false = false.
Proof. revert q. induction n as [|n IH]; intros [|q]; cbn; auto. Qed.
Lemma bval_zeros n : bval (repeat false n) = 0.
Proof. induction n; cbn; auto. Qed.
Lemma occupation_from n l : (forall i, In i l -> i < n) -> occ_from (repeat false n) l = occupation n l.
Proof.
  intros H. apply (nth_ext _ _ false false); [rewrite occ_length, repeat_length, occupation_length; reflexivity|]. rewrite occ_length, repeat_length. intros q Hq.
  rewrite occ_nth by (intros i Hi; rewrite repeat_length; auto). rewrite nth_repeat_false, orb_false_r. unfold occupation.
  rewrite (nth_indep _ false (memb Nat.eqb 0 l)) by (rewrite map_length, seq_length; auto). rewrite (map_nth (fun i => memb Nat.eqb i l) (seq 0 n) 0 q), seq_nth by auto. reflexivity.
Qed.
Lemma occupation_index n l : NoDup l -> (forall i, In i l -> i < n) -> fold_left (fun s i => s + 2 ^ (n - 1 - i)) l 0 = bval (occupation n l).
Proof.
  intros Hn H. rewrite <- occupation_from by auto. rewrite occ_index; auto; [rewrite repeat_length, bval_zeros; reflexivity|intros i Hi; rewrite repeat_length; auto|intros; apply nth_repeat_false].
Qed.

(** ** Number sectors *)
Definition sum2 (l : list nat) : nat := fold_left (fun s n => s + 2 ^ n) l 0.
Lemma sum2_cons a l : sum2 (a :: l) = 2 ^ a + sum2 l.
Proof.
  unfold sum2. cbn [fold_left]. assert (G : forall l s, fold_left (fun s n => s + 2 ^ n) l s = s + fold_left (fun s n => s + 2 ^ n) l 0).
  { clear. induction l as [|x l IH]; intros s; cbn [fold_left]; [lia|]. rewrite (IH (s + 2 ^ x)), (IH (0 + 2 ^ x)). lia. }
  rewrite G. lia.
Qed.
Lemma combinations_0 {X} (l : list X) : combinations 0 l = [[]].
Proof. destruct l; reflexivity. Qed.
Lemma in_indices m : forall k a i, In i (map sum2 (combinations k (seq a m))) <-> exists b, length b = m /\ particles b = k /\ i = 2 ^ a * bval b.
Proof.
  induction m as [|m IH]; intros k a i; cbn [seq].
  - destruct k; cbn.
    + split; [intros [<-|[]]; exists []; repeat split; cbn; unfold sum2; cbn; lia|]. intros (b & Hb & _ & ->). destruct b; [|discriminate]. left. cbn. unfold sum2. cbn. lia.
    + split; [intros []|]. intros (b & Hb & Hp & _). destruct b; discriminate.
  - assert (P : 2 ^ S a = 2 * 2 ^ a) by (cbn; lia). destruct k as [|k].
    + rewrite combinations_0. cbn [map In]. split.
      * intros [<-|[]]. exists (repeat false (S m)). rewrite repeat_length. split; [reflexivity|]. rewrite bval_zeros. split; [clear; induction (S m); cbn; auto|]. unfold sum2. cbn [fold_left]. lia.
      * intros (b & Hb & Hp & ->). left. assert (bval b = 0). { clear - Hp. induction b as [|[] b IHb]; cbn in *; auto; lia. } rewrite H. unfold sum2. cbn [fold_left]. lia.
    + cbn [combinations]. rewrite map_app, in_app_iff, map_map. split.
      * intros [H|H].
        -- apply in_map_iff in H as (c & <- & Hc). rewrite sum2_cons. assert (H : In (sum2 c) (map sum2 (combinations k (seq (S a) m)))) by (apply in_map; exact Hc).
           apply IH in H as (b & Hb & Hp & E). exists (b ++ [true]). rewrite app_length, particles_app, bval_snoc. cbn [length particles]. repeat split; try lia; rewrite E, P; lia.
        -- apply IH in H as (b & Hb & Hp & ->). exists (b ++ [false]). rewrite app_length, particles_app, bval_snoc. cbn [length particles]. repeat split; try lia; rewrite P; lia.
      * intros (b & Hb & Hp & ->). apply last_split in Hb as (c & x & -> & Hc). rewrite particles_app in Hp. cbn [particles] in Hp. rewrite bval_snoc. destruct x.
        -- left. assert (H : In (2 ^ S a * bval c) (map sum2 (combinations k (seq (S a) m)))) by (apply IH; exists c; repeat split; lia). apply in_map_iff in H as (d & E & Hd). apply in_map_iff. exists d. split; [|exact Hd]. rewrite sum2_cons, E, P. lia.
        -- right. apply IH. exists c. repeat split; try lia; rewrite P; lia.
Qed.
Lemma nodup_indices m : forall k a, NoDup (map sum2 (combinations k (seq a m))).
Proof.
  induction m as [|m IH]; intros k a; [destruct k; cbn; repeat constructor; auto|]. destruct k as [|k]; [rewrite combinations_0; repeat constructor; auto|]. cbn [seq combinations]. rewrite map_app, map_map.
  assert (P : 2 ^ S a = 2 * 2 ^ a) by (cbn; lia). assert (Q : 2 ^ a <> 0) by (apply Nat.pow_nonzero; lia).
  assert (E : map (fun x => sum2 (a :: x)) (combinations k (seq (S a) m)) = map (fun s => 2 ^ a + s) (map sum2 (combinations k (seq (S a) m)))) by (rewrite map_map; apply map_ext; intros; apply sum2_cons).
  rewrite E. apply NoDup_app.
  - apply FinFun.Injective_map_NoDup; [intros x y; lia|apply IH].
  - apply IH.
  - intros i H1 H2. apply in_map_iff in H1 as (s & <- & Hs). apply in_indices in Hs as (b & _ & _ & ->). apply in_indices in H2 as (c & _ & _ & H2). rewrite P in H2.
    assert (2 * bval c = 1 + 2 * bval b) by (apply (Nat.mul_cancel_l _ _ (2 ^ a) Q); lia). lia.
Qed.
Lemma indices_spec k n i : In i (jw_number_indices k n) <-> exists b, length b = n /\ particles b = k /\ i = bval b.
Proof.
  unfold jw_number_indices. fold sum2. change (In i (map sum2 (combinations k (seq 0 n))) <-> exists b, length b = n /\ particles b = k /\ i = bval b). rewrite in_indices. split; intros (b & H1 & H2 & H3); exists b; repeat split; auto; cbn in *; lia.
Qed.
Lemma indices_NoDup k n : NoDup (jw_number_indices k n).
Proof. exact (nodup_indices n k 0). Qed.
Lemma indices_lt k n i : In i (jw_number_indices k n) -> i < 2 ^ n.
Proof. intros H. apply indices_spec in H as (b & <- & _ & ->). apply bval_lt. Qed.

Section Expand.
  Context {K : cring}.
  Add Ring Kring_sec : (kth K).
  Open Scope K_scope.
  Lemma bigsum_S_first n (f : nat -> K) : bigsum (S n) f = f 0%nat + bigsum n (fun k => f (S k)).
  Proof. induction n as [|n IH]; [cbn; ring|]. change (bigsum (S (S n)) f) with (bigsum (S n) f + f (S n)). rewrite IH. cbn [bigsum]. ring. Qed.
  Definition expand (l : list nat) (s : nat -> K) : nat -> K := fold_left (fun f kx i => if Nat.eqb i (snd kx) then s (fst kx) else f i) (combine (seq 0 (length l)) l) (fun _ => 0).
  Lemma expand_gen (s : nat -> K) l : forall a f j, NoDup l ->
    fold_left (fun f kx i => if Nat.eqb i (snd kx) then s (fst kx) else f i) (combine (seq a (length l)) l) f j = f j + bigsum (length l) (fun k => delta (Nat.eqb j (nth k l 0%nat)) * (s (a + k)%nat - f j)).
  Proof.
    induction l as [|x l IH]; intros a f j Hn; cbn [length seq combine fold_left]; [cbn; ring|]. inversion Hn; subst. rewrite IH by auto. cbn [fst snd].
    rewrite bigsum_S_first. cbn [nth]. rewrite Nat.add_0_r. destruct (Nat.eqb_spec j x) as [->|N].
    - assert (Z : forall g : nat -> K, bigsum (length l) (fun k => delta (Nat.eqb x (nth k l 0%nat)) * g k) = 0).
      { intros g. apply bigsum_0. intros k Hk. rewrite (proj2 (Nat.eqb_neq _ _)); [cbn; ring|]. intros ->. apply H1. apply nth_In. auto. }
      rewrite !Z. cbn [delta]. ring.
    - cbn [delta]. match goal with |- _ + ?u = _ + (_ + ?v) => assert (Q : u = v) by (apply bigsum_ext; intros k _; replace (a + S k)%nat with (S a + k)%nat by lia; reflexivity) end. rewrite Q. ring.
  Qed.
  Lemma expand_value l s j : NoDup l -> expand l s j = bigsum (length l) (fun k => delta (Nat.eqb j (nth k l 0%nat)) * s k).
  Proof. intros Hn. unfold expand. rewrite expand_gen by auto. cbn [Nat.add]. transitivity (bigsum (length l) (fun k => delta (Nat.eqb j (nth k l 0%nat)) * (s k - 0))); [ring|]. apply bigsum_ext. intros; ring. Qed.
  Lemma expand_in l s k : NoDup l -> (k < length l)%nat -> expand l s (nth k l 0%nat) = s k.
  Proof.
    intros Hn Hk. rewrite expand_value by auto. rewrite (bigsum_single (length l) k); auto; [rewrite Nat.eqb_refl; cbn; ring|]. intros i Hi Ni. rewrite (proj2 (Nat.eqb_neq _ _)); [cbn; ring|]. intros E. apply Ni. symmetry. apply (proj1 (NoDup_nth l 0%nat) Hn); auto.
  Qed.
  Lemma expand_out l s j : NoDup l -> ~ In j l -> expand l s j = 0.
  Proof. intros Hn Hj. rewrite expand_value by auto. apply bigsum_0. intros k Hk. rewrite (proj2 (Nat.eqb_neq _ _)); [cbn; ring|]. intros ->. apply Hj, nth_In. auto. Qed.
  Lemma expand_sum N l s (f : nat -> K) : NoDup l -> (forall i, In i l -> i < N)%nat -> bigsum N (fun j => f j * expand l s j) = bigsum (length l) (fun k => f (nth k l 0%nat) * s k).
  Proof.
    intros Hn Hl. transitivity (bigsum N (fun j => bigsum (length l) (fun k => f j * (delta (Nat.eqb j (nth k l 0%nat)) * s k)))).
    - apply bigsum_ext. intros j Hj. rewrite expand_value by auto. rewrite bigsum_mul_l. apply bigsum_ext. intros; ring.
    - rewrite bigsum_swap. apply bigsum_ext. intros k Hk. rewrite (bigsum_single N (nth k l 0%nat)); [rewrite Nat.eqb_refl; cbn; ring|apply Hl, nth_In; auto|]. intros j Hj Nj. rewrite (proj2 (Nat.eqb_neq _ _)); [cbn; ring|]. auto.
  Qed.
End Expand.
