(** Proofs for C73, continued: the whole transform. *)
From Coq Require Import Permutation Sorted Ring.
From Verif Require Import Base BaseFacts MatModel MatFacts LiftSpec LiftProofs OpModel OpSpec OpProofs PauliProofs OpProofs2 ConjProofs
  FermiModel FermiSpec FermiProofs FermiProofs2 FermiProofs3 BKProofs FermiProofs4 FermiProofs6 BackendProofs TensorModel TensorSpec TensorProofs TensorProps ConvProofs DiagSpec DiagProofs JWInterModel JWInterSpec JWInterProofs JWInterProofs2.
Open Scope list_scope.
Local Open Scope nat_scope.

Section Expansion.
  Context {K : cring} (n : nat).
  Add Ring Kring_jwi4 : (kth K).
  Open Scope K_scope.
  Definition L2 (p q : nat) (x y : list bool) : K := ladders n [(p, true); (q, false)] x y.
  Definition L4 (u v : nat * nat) (x y : list bool) : K := ladders n [(fst u, true); (snd u, true); (fst v, false); (snd v, false)] x y.
  Definition dl (x y : list bool) : K := if list_eqb Bool.eqb x y then 1 else 0.
  Notation modes := (seq 0 n).
  Notation prs := (combinations2 (seq 0 n)).
  Lemma seq_sorted a m : StronglySorted lt (seq a m).
  Proof. revert a. induction m as [|m IH]; intros a; cbn [seq]; constructor; [apply IH|]. apply Forall_forall. intros z Hz. apply in_seq in Hz. lia. Qed.
  Lemma pair_facts u : In u prs -> (fst u < snd u)%nat /\ (snd u < n)%nat.
  Proof.
    destruct u as [p q]. intros H. cbn [fst snd]. pose proof (comb_lt _ _ _ (seq_sorted 0 n) H) as L. apply comb_in in H as [_ H]. apply in_seq in H. lia.
  Qed.
  Lemma prs_NoDup : NoDup prs. Proof. apply comb_NoDup, seq_NoDup. Qed.
  Ltac modes4 := let f := fresh in let H := fresh in intros f H; cbn in H; intuition (subst; cbn; lia).
  Definition w (h2 : nat -> nat -> nat -> nat -> K) (u v : nat * nat) : K :=
    let '(p, q) := u in let '(r, s) := v in h2 p q r s - h2 p q s r - h2 q p r s + h2 q p s r.
  Lemma two_body_expansion (h2 : nat -> nat -> nat -> nat -> K) x y : length x = n -> length y = n ->
    bigsum n (fun p => bigsum n (fun q => bigsum n (fun r => bigsum n (fun s => h2 p q r s * ladders n [(p, true); (q, true); (r, false); (s, false)] x y)))) =
      lsum (fun u => w h2 u u * L4 u u x y) prs + lsum (fun uv => w h2 (fst uv) (snd uv) * L4 (fst uv) (snd uv) x y + w h2 (snd uv) (fst uv) * L4 (snd uv) (fst uv) x y) (combinations2 prs).
  Proof.
    intros Hx Hy. set (T := fun p q r s => ladders (K := K) n [(p, true); (q, true); (r, false); (s, false)] x y).
    assert (S1 : forall p q r s, p <> q -> (p < n)%nat -> (q < n)%nat -> (r < n)%nat -> (s < n)%nat -> T q p r s = - T p q r s).
    { intros p q r s D B1 B2 B3 B4. unfold T. apply (swap_modes n [] (q, true) (p, true) [(r, false); (s, false)]); auto. modes4. }
    assert (S2 : forall p q r s, r <> s -> (p < n)%nat -> (q < n)%nat -> (r < n)%nat -> (s < n)%nat -> T p q s r = - T p q r s).
    { intros p q r s D B1 B2 B3 B4. unfold T. apply (swap_modes n [(p, true); (q, true)] (s, false) (r, false) []); auto. modes4. }
    assert (Z1 : forall p r s, (p < n)%nat -> (r < n)%nat -> (s < n)%nat -> T p p r s = 0) by (intros; unfold T; apply (creation_twice n [] p true [(r, false); (s, false)]); auto; modes4).
    assert (Z2 : forall p q r, (p < n)%nat -> (q < n)%nat -> (r < n)%nat -> T p q r r = 0) by (intros; unfold T; apply (creation_twice n [(p, true); (q, true)] r false []); auto; modes4).
    assert (In4 : forall z, In z modes -> (z < n)%nat) by (intros z Hz; apply in_seq in Hz; lia).
    transitivity (lsum (fun u => lsum (fun v => w h2 u v * L4 u v x y) prs) prs); [|apply (comb_sum (fun u v => w h2 u v * L4 u v x y))].
    (* the sum over the last two indices *)
    assert (R : forall g : nat -> nat -> nat -> nat -> K, forall p q, (p < n)%nat -> (q < n)%nat -> bigsum n (fun r => bigsum n (fun s => g p q r s * T p q r s)) = lsum (fun v => (g p q (fst v) (snd v) - g p q (snd v) (fst v)) * T p q (fst v) (snd v)) prs).
    { intros g p q Hp Hq. rewrite bigsum_lsum. rewrite (lsum_ext _ (fun r => lsum (fun s => g p q r s * T p q r s) modes)) by (intros; apply bigsum_lsum).
      rewrite (comb_sum (fun r s => g p q r s * T p q r s)). rewrite lsum_0 by (intros r Hr; rewrite Z2 by auto; ring).
      transitivity (0 + lsum (fun v => (g p q (fst v) (snd v) - g p q (snd v) (fst v)) * T p q (fst v) (snd v)) prs); [|ring]. f_equal.
      apply lsum_ext. intros v Hv. apply pair_facts in Hv as [V1 V2]. rewrite (S2 p q (fst v) (snd v)) by lia. ring. }
    rewrite bigsum_lsum.
    rewrite (lsum_ext _ (fun p => lsum (fun q => lsum (fun v => (h2 p q (fst v) (snd v) - h2 p q (snd v) (fst v)) * T p q (fst v) (snd v)) prs) modes)).
    2: { intros p Hp. rewrite bigsum_lsum. apply lsum_ext. intros q Hq. apply R; auto. }
    rewrite (comb_sum (fun p q => lsum (fun v => (h2 p q (fst v) (snd v) - h2 p q (snd v) (fst v)) * T p q (fst v) (snd v)) prs)).
    rewrite lsum_0. 2: { intros p Hp. apply lsum_0. intros v Hv. apply pair_facts in Hv as [V1 V2]. rewrite Z1 by (auto; lia). ring. }
    transitivity (lsum (fun u => lsum (fun v => w h2 u v * L4 u v x y) prs) prs); [|reflexivity].
    match goal with |- 0 + ?z = _ => transitivity z; [ring|] end. apply lsum_ext. intros [p q] Hu. apply pair_facts in Hu as [U1 U2]. cbn [fst snd] in *.
    rewrite <- lsum_add. apply lsum_ext. intros [r s] Hv. apply pair_facts in Hv as [V1 V2]. cbn [fst snd w L4] in *. unfold L4. cbn [fst snd]. rewrite (S1 p q r s) by lia. unfold T. ring.
  Qed.
  Lemma one_body_expansion (h1 : nat -> nat -> K) x y :
    bigsum n (fun p => bigsum n (fun q => h1 p q * L2 p q x y)) =
      lsum (fun p => h1 p p * L2 p p x y) modes + lsum (fun u => h1 (fst u) (snd u) * L2 (fst u) (snd u) x y + h1 (snd u) (fst u) * L2 (snd u) (fst u) x y) prs.
  Proof.
    rewrite bigsum_lsum. rewrite (lsum_ext _ (fun p => lsum (fun q => h1 p q * L2 p q x y) modes)) by (intros; apply bigsum_lsum). apply (comb_sum (fun p q => h1 p q * L2 p q x y)).
  Qed.

  (** ** Entries of conjugates, and diagonal entries *)
  Lemma conj_ladders t x y : length x = n -> length y = n -> kconj (ladders (K := K) n t y x) = ladders n (dagger t) x y.
  Proof.
    intros Hx Hy. unfold ladders. destruct (fterm_adjoint (K := K) n t) as (_ & _ & X). destruct (fterm_shape (K := K) n (dagger t)) as [S1 S2]. symmetry. rewrite X by (rewrite ?S1, ?S2; apply bval_n; auto). reflexivity.
  Qed.
  Lemma conj_L2 p q x y : length x = n -> length y = n -> kconj (L2 p q y x) = L2 q p x y.
  Proof. intros Hx Hy. unfold L2. rewrite conj_ladders by auto. reflexivity. Qed.
  Lemma conj_L4 u v x y : In u prs -> In v prs -> length x = n -> length y = n -> kconj (L4 u v y x) = L4 v u x y.
  Proof.
    intros Hu Hv Hx Hy. apply pair_facts in Hu as [U1 U2]. apply pair_facts in Hv as [V1 V2]. unfold L4. rewrite conj_ladders by auto. cbn [dagger map flip rev app fst snd negb].
    destruct u as [p q], v as [r s]. cbn [fst snd] in *.
    pose proof (swap_modes (K := K) n [] (s, true) (r, true) [(q, false); (p, false)] x y ltac:(modes4) ltac:(cbn; lia) Hx Hy) as A. cbn [app] in A.
    pose proof (swap_modes (K := K) n [(r, true); (s, true)] (q, false) (p, false) [] x y ltac:(modes4) ltac:(cbn; lia) Hx Hy) as B. cbn [app] in B.
    unfold dagger. cbn [rev map app flip fst snd negb].
    etransitivity; [exact A|]. transitivity (- - ladders (K := K) n [(r, true); (s, true); (p, false); (q, false)] x y); [apply (f_equal kopp); exact B|ring].
  Qed.
  Lemma L2_off p q x : p <> q -> (p < n)%nat -> (q < n)%nat -> length x = n -> L2 p q x x = 0.
  Proof.
    intros D Hp Hq Hx. unfold L2, ladders. destruct (entry_balance (K := K) n [(p, true); (q, false)] x x) as [Z|B]; auto; [modes4|]. exfalso. specialize (B p). rewrite !cnt_cons in B. cbn [snd fst Bool.eqb andb] in B.
    rewrite Nat.eqb_refl in B. destruct (Nat.eqb_spec q p); [lia|]. cbn in B. lia.
  Qed.
  Lemma L2_diag p x y : (p < n)%nat -> length x = n -> length y = n -> list_eqb Bool.eqb x y = false -> L2 p p x y = 0.
  Proof. intros Hp Hx Hy N. unfold L2. rewrite (number_entry (fun _ => false)) by auto. rewrite N. reflexivity. Qed.
  Lemma L4_off u v x : In u prs -> In v prs -> u <> v -> length x = n -> L4 u v x x = 0.
  Proof.
    intros Hu Hv D Hx. apply pair_facts in Hu as [U1 U2]. apply pair_facts in Hv as [V1 V2]. destruct u as [p q], v as [r s]. unfold L4, ladders. cbn [fst snd] in *.
    destruct (entry_balance (K := K) n [(p, true); (q, true); (r, false); (s, false)] x x) as [Z|B]; auto; [modes4|]. exfalso.
    pose proof (B p) as B1. pose proof (B q) as B2. rewrite !cnt_cons in B1, B2. cbn [snd fst Bool.eqb andb] in B1, B2. change (cnt false [] p) with 0%nat in B1. change (cnt true [] p) with 0%nat in B1. change (cnt false [] q) with 0%nat in B2. change (cnt true [] q) with 0%nat in B2.
    rewrite Nat.eqb_refl in B1, B2. destruct (Nat.eqb_spec q p), (Nat.eqb_spec p q), (Nat.eqb_spec r p), (Nat.eqb_spec s p), (Nat.eqb_spec r q), (Nat.eqb_spec s q); try lia. apply D. congruence.
  Qed.
  Lemma L4_diag u x y : In u prs -> length x = n -> length y = n -> list_eqb Bool.eqb x y = false -> L4 u u x y = 0.
  Proof.
    intros Hu Hx Hy N. apply pair_facts in Hu as [U1 U2]. unfold L4. rewrite (direct_two 0 (fun _ => false)), (two_numbers 0 (fun _ => false)) by (auto; lia). rewrite N. ring.
  Qed.
End Expansion.

(** ** The loops *)
Section Loops.
  Context {K : cring} (im half : K) (Him : kmul im im = kopp k1) (Hhalf : kadd half half = k1) (small is_zero : K -> bool) (Hz : forall c, is_zero c = true -> c = k0).
  Add Ring Kring_jwi5 : (kth K).
  Open Scope K_scope.
  Context (h : heap K) (a : ptensor K) (Ha : interaction_ok h a).
  Notation n := (n_qubits a).
  Notation acts := (acts_up_to im small n).
  Notation qadd := (op_add pauli_eqb small).
  Definition h1 (p q : nat) : K := value h a [true; false] [p; q].
  Definition h2 (p q r s : nat) : K := value h a [true; true; false; false] [p; q; r; s].
  Lemma item_value i k : In k [[true; false]; [true; true; false; false]] -> length i = length k -> (forall z, In z i -> (z < n)%nat) -> iop_item h a (combine i k) = Ok (value h a k i).
  Proof.
    intros Hk Hl Hi. unfold iop_item.
    assert (F : forallb (fun f : nat * bool => Nat.ltb (fst f) n) (combine i k) = true).
    { apply forallb_forall. intros [z b] Hzb. cbn [fst]. apply Nat.ltb_lt, Hi. eapply in_combine_l. exact Hzb. }
    rewrite F. unfold getitem, value. rewrite combine_snd, combine_fst by auto. destruct Ha as [_ Ks]. destruct (dget key_eqb k (n_body_tensors a)) eqn:G; [reflexivity|].
    apply (dget_None _ key_eqb_spec) in G. exfalso. apply G. rewrite Ks. right. exact Hk.
  Qed.
  Lemma item2 p q : (p < n)%nat -> (q < n)%nat -> iop_item h a [(p, true); (q, false)] = Ok (h1 p q).
  Proof. intros Hp Hq. apply (item_value [p; q] [true; false]); [cbn; auto|reflexivity|]. intros z Hz'. cbn in Hz'. intuition (subst; auto). Qed.
  Lemma item4 p q r s : (p < n)%nat -> (q < n)%nat -> (r < n)%nat -> (s < n)%nat -> iop_item h a [(p, true); (q, true); (r, false); (s, false)] = Ok (h2 p q r s).
  Proof. intros Hp Hq Hr Hs. apply (item_value [p; q; r; s] [true; true; false; false]); [cbn; auto|reflexivity|]. intros z Hz'. cbn in Hz'. intuition (subst; auto). Qed.
  Lemma diagonal_loop l : (forall p, In p l -> (p < n)%nat) -> forall B o v, acts B o v ->
    exists o', foldM (diagonal_step im half small h a) l o = Ok o' /\ acts (B + 4 * length l) o' (fun x y => v x y + lsum (fun p => h1 p p * L2 n p p x y) l).
  Proof.
    induction l as [|p l IH]; intros Hl B o v H.
    - exists o. split; [reflexivity|]. eapply acts_ext; [|eapply acts_le; [|exact H]]; [|cbn; lia]. intros x y _ _. cbn. ring.
    - assert (Hp : (p < n)%nat) by (apply Hl; left; auto). cbn [foldM]. unfold diagonal_step at 1. rewrite item2 by auto. cbn [rbind].
      destruct (one_one_acts im half Him Hhalf small is_zero n Hz p (h1 p p) Hp) as [A Ln].
      pose proof (acts_add im small n _ _ _ _ _ _ H A) as G. destruct (IH (fun q Hq => Hl q (or_intror Hq)) _ _ _ G) as (o' & E' & A'). exists o'. split; [exact E'|].
      eapply acts_ext; [|eapply acts_le; [|exact A']]; [|cbn [length]; lia]. intros x y _ _. cbn beta. cbn [lsum fold_right]. unfold L2, lsum. ring.
  Qed.
  Definition g1 (p q : nat) : K := half * (h1 p q + kconj (h1 q p)).
  Lemma pair_loop l : (forall u, In u l -> (fst u < snd u)%nat /\ (snd u < n)%nat) -> forall B o v, acts B o v ->
    exists o', foldM (pair_step im half small is_zero h a) l o = Ok o' /\ acts (B + 16 * length l) o'
      (fun x y => v x y + lsum (fun u => (g1 (fst u) (snd u) * L2 n (fst u) (snd u) x y + kconj (g1 (fst u) (snd u)) * L2 n (snd u) (fst u) x y) + w h2 u u * L4 n u u x y) l).
  Proof.
    induction l as [|[p q] l IH]; intros Hl B o v H.
    - exists o. split; [reflexivity|]. eapply acts_ext; [|eapply acts_le; [|exact H]]; [|cbn; lia]. intros x y _ _. cbn. ring.
    - destruct (Hl (p, q) (or_introl eq_refl)) as [U1 U2]. cbn [fst snd] in U1, U2. assert (Hp : (p < n)%nat) by lia. assert (Dpq : p <> q) by lia.
      cbn [foldM]. unfold pair_step at 1. rewrite !item2 by auto. cbn [rbind]. rewrite !item4 by auto. cbn [rbind].
      fold (g1 p q). pose proof (one_body_acts im half Him Hhalf small n p q (g1 p q) Hp U2) as A1. pose proof (one_body_length im half small p q (g1 p q)) as Ln1.
      destruct (two_two_acts im half Him Hhalf small is_zero n Hz p q (h2 p q p q - h2 p q q p - h2 q p p q + h2 q p q p) Dpq Hp U2) as [A2 Ln2].
      pose proof (acts_add im small n _ _ _ _ _ _ (acts_add im small n _ _ _ _ _ _ H A1) A2) as G. destruct (IH (fun q Hq => Hl q (or_intror Hq)) _ _ _ G) as (o' & E' & A'). exists o'. split; [exact E'|].
      eapply acts_ext; [|eapply acts_le; [|exact A']]; [|cbn [length]; lia]. intros x y _ _. cbn beta. cbn [lsum fold_right]. unfold L2, L4, w, lsum, one_body_entry. cbn [fst snd].
      replace (p =? q) with false by (symmetry; apply Nat.eqb_neq; auto). ring.
  Qed.
  Definition g2 (u v : nat * nat) : K := half * (w h2 u v + kconj (w h2 v u)).
  Lemma kconj_sub (x y : K) : kconj (x - y) = kconj x - kconj y.
  Proof. transitivity (kconj (x + - y)); [f_equal; ring|]. rewrite kconj_add, kconj_opp. ring. Qed.
  Lemma pairs_loop l : (forall u v, In (u, v) l -> ((fst u < snd u)%nat /\ (snd u < n)%nat) /\ ((fst v < snd v)%nat /\ (snd v < n)%nat) /\ u <> v) -> forall B o v, acts B o v ->
    exists o', foldM (pairs_step im half small is_zero h a) l o = Ok o' /\ acts (B + 32 * length l) o'
      (fun x y => v x y + lsum (fun uv => g2 (fst uv) (snd uv) * L4 n (fst uv) (snd uv) x y + kconj (g2 (fst uv) (snd uv)) * kconj (L4 n (fst uv) (snd uv) y x)) l).
  Proof.
    induction l as [|[[p q] [r s]] l IH]; intros Hl B o v H.
    - exists o. split; [reflexivity|]. eapply acts_ext; [|eapply acts_le; [|exact H]]; [|cbn; lia]. intros x y _ _. cbn. ring.
    - destruct (Hl (p, q) (r, s) (or_introl eq_refl)) as ([U1 U2] & [V1 V2] & D). cbn [fst snd] in U1, U2, V1, V2. assert (Hp : (p < n)%nat) by lia. assert (Hr : (r < n)%nat) by lia.
      cbn [foldM]. unfold pairs_step at 1. rewrite !item4 by auto. cbn [rbind].
      set (c := half * _). assert (Ec : c = g2 (p, q) (r, s)) by (unfold c, g2, w; rewrite !kconj_add, !kconj_sub; ring). clearbody c. subst c.
      pose proof (two_body_acts im half Him Hhalf small is_zero n Hz p q r s (g2 (p, q) (r, s)) Hp U2 Hr V2) as A1. pose proof (two_body_length im half small is_zero Hz p q r s (g2 (p, q) (r, s))) as Ln1.
      pose proof (acts_add im small n _ _ _ _ _ _ H A1) as G. destruct (IH (fun u v Huv => Hl u v (or_intror Huv)) _ _ _ G) as (o' & E' & A'). exists o'. split; [exact E'|].
      eapply acts_ext; [|eapply acts_le; [|exact A']]; [|cbn [length]; lia]. intros x y Hx Hy. cbn beta. cbn [lsum fold_right fst snd]. change (L4 n (p, q) (r, s) y x) with (ladders (K := K) n [(p, true); (q, true); (r, false); (s, false)] y x). change (L4 n (p, q) (r, s) x y) with (ladders (K := K) n [(p, true); (q, true); (r, false); (s, false)] x y). 
      assert (Q : kconj (ladders (K := K) n [(p, true); (q, true); (r, false); (s, false)] y x) = ladders n [(s, true); (r, true); (q, false); (p, false)] x y) by (rewrite conj_ladders by auto; reflexivity). rewrite Q.
      unfold two_body_entry. replace ((p =? r) && (q =? s) || (p =? s) && (q =? r))%bool with false. 2: { symmetry. destruct (Nat.eqb_spec p r), (Nat.eqb_spec q s), (Nat.eqb_spec p s), (Nat.eqb_spec q r); cbn; try reflexivity; exfalso; subst; try lia. apply D. reflexivity. }
      unfold lsum. ring.
  Qed.
End Loops.
