(** Products of Pauli operators as a phase, a set of flipped qubits and a set of qubits whose parity is the sign. *)
From Coq Require Import NArith Nnat Permutation Ring.
From Verif Require Import Base BaseFacts MatModel MatFacts LiftSpec LiftProofs OpModel OpSpec OpProofs PauliProofs OpProofs2 ConjProofs
  FermiModel FermiSpec FermiProofs FermiProofs4 BKProofs FermiProofs5 BKInterModel.
Open Scope list_scope.
Local Open Scope nat_scope.

Definition px (p : pauli) : bool := match p with Px | Py => true | _ => false end.
Definition pz (p : pauli) : bool := match p with Pz | Py => true | _ => false end.
Fixpoint xat (t : term pauli) (q : nat) : bool := match t with [] => false | f :: t' => xorb (Nat.eqb (fst f) q && px (snd f)) (xat t' q) end.
Fixpoint zat (t : term pauli) (q : nat) : bool := match t with [] => false | f :: t' => xorb (Nat.eqb (fst f) q && pz (snd f)) (zat t' q) end.
Definition yph (p : pauli) : nat := match p with Py => 1 | _ => 0 end.
(** the power of the imaginary unit *)
Fixpoint phs (t : term pauli) : nat := match t with [] => 0 | f :: t' => yph (snd f) + ((if pz (snd f) && xat t' (fst f) then 2 else 0) + phs t') end.

Definition xflip (f : nat -> bool) (e : list bool) : list bool := map (fun q => xorb (f q) (nth q e false)) (seq 0 (length e)).
Definition zpar (f : nat -> bool) (e : list bool) : bool := odd_count (map (fun q => f q && nth q e false) (seq 0 (length e))).

Lemma xflip_length f e : length (xflip f e) = length e.
Proof. unfold xflip. rewrite map_length, seq_length. reflexivity. Qed.
Lemma xflip_nth f e q : q < length e -> nth q (xflip f e) false = xorb (f q) (nth q e false).
Proof.
  intros H. unfold xflip. rewrite (nth_indep _ false (xorb (f 0) (nth 0 e false))) by (rewrite map_length, seq_length; auto).
  rewrite (map_nth (fun q => xorb (f q) (nth q e false))), seq_nth by auto. reflexivity.
Qed.
Lemma xflip_ext f g e : (forall q, q < length e -> f q = g q) -> xflip f e = xflip g e.
Proof. intros H. apply map_ext_in. intros q Hq. apply in_seq in Hq. rewrite H by lia. reflexivity. Qed.
Lemma zpar_ext f g e : (forall q, q < length e -> f q = g q) -> zpar f e = zpar g e.
Proof. intros H. unfold zpar. f_equal. apply map_ext_in. intros q Hq. apply in_seq in Hq. rewrite H by lia. reflexivity. Qed.
Lemma odd_count_xor {X} (f g : X -> bool) l : odd_count (map (fun q => xorb (f q) (g q)) l) = xorb (odd_count (map f l)) (odd_count (map g l)).
Proof. induction l as [|x l IH]; [reflexivity|]. cbn [map odd_count fold_right] in *. fold (odd_count (map (fun q => xorb (f q) (g q)) l)). rewrite IH. unfold odd_count. destruct (f x), (g x), (fold_right xorb false (map f l)), (fold_right xorb false (map g l)); reflexivity. Qed.
Lemma zpar_xor f g e : zpar (fun q => xorb (f q) (g q)) e = xorb (zpar f e) (zpar g e).
Proof. unfold zpar. rewrite <- odd_count_xor. f_equal. apply map_ext. intros q. destruct (f q), (g q), (nth q e false); reflexivity. Qed.
Lemma zpar_none e : zpar (fun _ => false) e = false.
Proof. unfold zpar. induction (seq 0 (length e)) as [|x l IH]; [reflexivity|]. cbn [map odd_count fold_right andb] in *. rewrite Bool.xorb_false_l. exact IH. Qed.
Lemma odd_one (g : nat -> bool) q l : NoDup l -> odd_count (map (fun r => Nat.eqb q r && g r) l) = (memb Nat.eqb q l && g q).
Proof.
  induction 1 as [|x l Hx Hn IH]; [reflexivity|]. cbn [map odd_count fold_right memb existsb]. fold (odd_count (map (fun r => Nat.eqb q r && g r) l)). rewrite IH.
  change (existsb (Nat.eqb q) l) with (memb Nat.eqb q l). destruct (Nat.eqb_spec q x) as [->|Ne]; cbn [andb orb].
  - assert (M : memb Nat.eqb x l = false) by (apply not_true_iff_false; intros M; apply (memb_In _ nat_eqb_spec) in M; auto). rewrite M. cbn [andb]. apply Bool.xorb_false_r.
  - apply Bool.xorb_false_l.
Qed.
Lemma zpar_one q b e : q < length e -> zpar (fun r => Nat.eqb q r && b) e = (b && nth q e false).
Proof.
  intros H. unfold zpar. rewrite (map_ext (fun r => (Nat.eqb q r && b) && nth r e false) (fun r => Nat.eqb q r && (b && nth r e false))) by (intros r; destruct (Nat.eqb q r); reflexivity).
  rewrite (odd_one (fun r => b && nth r e false)) by apply seq_NoDup. assert (M : memb Nat.eqb q (seq 0 (length e)) = true) by (apply (memb_In _ nat_eqb_spec), in_seq; lia).
  rewrite M. reflexivity.
Qed.
Lemma zpar_set (l : list N) e : NoDup l -> (forall x, In x l -> N.to_nat x < length e) -> zpar (fun q => memb N.eqb (N.of_nat q) l) e = odd_count (map (bitat e) l).
Proof.
  intros Hn. induction Hn as [|x l Hx Hn IH]; intros Hl; [apply zpar_none|].
  rewrite (zpar_ext _ (fun q => xorb (Nat.eqb (N.to_nat x) q && true) (memb N.eqb (N.of_nat q) l))).
  - rewrite zpar_xor, zpar_one, IH by (auto using in_eq, in_cons; apply Hl; left; auto). cbn [map odd_count fold_right]. reflexivity.
  - intros q _. cbn [memb existsb]. change (existsb (N.eqb (N.of_nat q)) l) with (memb N.eqb (N.of_nat q) l).
    destruct (Nat.eqb_spec (N.to_nat x) q) as [E|E]; destruct (N.eqb_spec (N.of_nat q) x) as [E'|E']; try (exfalso; lia); cbn [andb orb xorb]; [|symmetry; apply Bool.xorb_false_l].
    subst x. assert (M : memb N.eqb (N.of_nat q) l = false) by (apply not_true_iff_false; intros M; apply (memb_In _ N_eqb_spec') in M; auto). rewrite M. reflexivity.
Qed.

Section NF.
  Context {K : cring} (im : K) (Him : kmul im im = kopp k1).
  Add Ring Kring_nf : (kth K).
  Open Scope K_scope.
  Fixpoint ipow (k : nat) : K := match k with O => 1 | S k => im * ipow k end.
  Lemma ipow_add a b : ipow (a + b) = ipow a * ipow b.
  Proof. induction a as [|a IH]; cbn [Nat.add ipow]; [ring|]. rewrite IH. ring. Qed.
  Lemma nf_act t e : (forall f, In f t -> (fst f < length e)%nat) ->
    term_act im t e = (ipow (phs t) * sgn (zpar (zat t) e), xflip (xat t) e).
  Proof.
    induction t as [|[q p] t IH]; intros Ht.
    - cbn [term_act phs ipow]. apply pair_equal_spec. split; [change (1 = 1 * sgn (K := K) (zpar (fun _ => false) e)); rewrite zpar_none; cbn [sgn]; ring|].
      apply bits_ext; [rewrite xflip_length; auto|]. intros j Hj. rewrite xflip_nth by auto. cbn [xat]. symmetry. apply Bool.xorb_false_l.
    - cbn [term_act]. unfold mcomp. rewrite IH by (intros f Hf; apply Ht; right; auto). cbn [fst snd]. unfold factor_act. cbn [fst snd].
      assert (Hq : (q < length e)%nat) by (apply (Ht (q, p)); left; auto). rewrite xflip_nth by auto.
      cbn [phs fst snd]. rewrite !ipow_add. change (zat ((q, p) :: t)) with (fun r => xorb (Nat.eqb q r && pz p) (zat t r)). rewrite zpar_xor, zpar_one by auto. rewrite sgn_xorb.
      apply pair_equal_spec. split.
      + set (s := sgn (zpar (zat t) e)). set (i0 := ipow (phs t)). clearbody s i0. destruct p, (xat t q), (nth q e false); cbn [pauli_bit fst snd pz px yph andb xorb negb ipow sgn]; try ring.
        all: match goal with |- ?a = ?b => transitivity (a + (im * im + 1) * 0); [ring|] end.
        all: first [ transitivity (- (im * im) * (im * i0 * s)); [rewrite Him; ring|ring] | transitivity ((im * im) * (i0 * s)); [rewrite Him; ring|ring]
          | transitivity (- (im * im) * (i0 * s)); [rewrite Him; ring|ring] | transitivity ((im * im) * (im * i0 * s)); [rewrite Him; ring|ring] ].
      + apply bits_ext; [rewrite setb_length, !xflip_length; auto|]. intros r Hr. rewrite setb_length, xflip_length in Hr.
        rewrite nth_setb by (rewrite xflip_length; auto). rewrite !xflip_nth by auto. cbn [xat fst snd].
        destruct (Nat.eqb_spec r q) as [->|Ne].
        * rewrite Nat.eqb_refl. destruct p, (xat t q), (nth q e false); reflexivity.
        * destruct (Nat.eqb_spec q r) as [E|_]; [congruence|]. cbn [andb]. rewrite Bool.xorb_false_l. reflexivity.
  Qed.
End NF.

(** pads *)
Lemma xat_app t u q : xat (t ++ u) q = xorb (xat t q) (xat u q).
Proof. induction t as [|f t IH]; cbn [app xat]; [symmetry; apply Bool.xorb_false_l|]. rewrite IH. symmetry. apply Bool.xorb_assoc. Qed.
Lemma zat_app t u q : zat (t ++ u) q = xorb (zat t q) (zat u q).
Proof. induction t as [|f t IH]; cbn [app zat]; [symmetry; apply Bool.xorb_false_l|]. rewrite IH. symmetry. apply Bool.xorb_assoc. Qed.

Section Pads.
  Context (order : list N -> list N) (Horder : forall l, Permutation (order l) l).
  Notation pad := (pad order).
  Lemma pad_In p l f : In f (pad p l) <-> exists i, In i l /\ f = (N.to_nat i, p).
  Proof. apply on_In. exact Horder. Qed.
  Lemma memb_order x l : memb N.eqb x (order l) = memb N.eqb x l.
  Proof. apply Bool.eq_iff_eq_true. rewrite !(memb_In _ N_eqb_spec'). split; intros H; (eapply Permutation_in; [|exact H]); [|symmetry]; apply Horder. Qed.
  Lemma xat_map p l q : NoDup l -> xat (map (fun i => (N.to_nat i, p)) l) q = (memb N.eqb (N.of_nat q) l && px p).
  Proof.
    induction 1 as [|x l Hx Hn IH]; [reflexivity|]. cbn [map xat fst snd memb existsb]. rewrite IH. change (existsb (N.eqb (N.of_nat q)) l) with (memb N.eqb (N.of_nat q) l).
    destruct (Nat.eqb_spec (N.to_nat x) q) as [E|E]; destruct (N.eqb_spec (N.of_nat q) x) as [E'|E']; try (exfalso; lia); cbn [andb orb]; [|apply Bool.xorb_false_l].
    subst x. assert (M : memb N.eqb (N.of_nat q) l = false) by (apply not_true_iff_false; intros M; apply (memb_In _ N_eqb_spec') in M; auto). rewrite M. apply Bool.xorb_false_r.
  Qed.
  Lemma zat_map p l q : NoDup l -> zat (map (fun i => (N.to_nat i, p)) l) q = (memb N.eqb (N.of_nat q) l && pz p).
  Proof.
    induction 1 as [|x l Hx Hn IH]; [reflexivity|]. cbn [map zat fst snd memb existsb]. rewrite IH. change (existsb (N.eqb (N.of_nat q)) l) with (memb N.eqb (N.of_nat q) l).
    destruct (Nat.eqb_spec (N.to_nat x) q) as [E|E]; destruct (N.eqb_spec (N.of_nat q) x) as [E'|E']; try (exfalso; lia); cbn [andb orb]; [|apply Bool.xorb_false_l].
    subst x. assert (M : memb N.eqb (N.of_nat q) l = false) by (apply not_true_iff_false; intros M; apply (memb_In _ N_eqb_spec') in M; auto). rewrite M. apply Bool.xorb_false_r.
  Qed.
  Lemma order_NoDup l : NoDup l -> NoDup (order l).
  Proof. apply Permutation_NoDup. symmetry. apply Horder. Qed.
  Lemma xat_pad p l q : NoDup l -> xat (pad p l) q = (memb N.eqb (N.of_nat q) l && px p).
  Proof. intros H. unfold BKInterModel.pad. rewrite xat_map by (apply order_NoDup; auto). rewrite memb_order. reflexivity. Qed.
  Lemma zat_pad p l q : NoDup l -> zat (pad p l) q = (memb N.eqb (N.of_nat q) l && pz p).
  Proof. intros H. unfold BKInterModel.pad. rewrite zat_map by (apply order_NoDup; auto). rewrite memb_order. reflexivity. Qed.
  Lemma phs_x l t : phs (pad Px l ++ t) = phs t.
  Proof. unfold BKInterModel.pad. induction (order l) as [|x m IH]; cbn [map app phs snd pz yph andb Nat.add]; auto. Qed.
  Lemma xat_z l q : xat (pad Pz l) q = false.
  Proof. unfold BKInterModel.pad. induction (order l) as [|x m IH]; cbn [map xat snd px]; auto. rewrite IH, Bool.andb_false_r. reflexivity. Qed.
  Lemma phs_z l t : (forall x, In x l -> xat t (N.to_nat x) = false) -> phs (pad Pz l ++ t) = phs t.
  Proof.
    intros H. unfold BKInterModel.pad. assert (H' : forall x, In x (order l) -> xat t (N.to_nat x) = false) by (intros x Hx; apply H; eapply Permutation_in; [apply Horder|auto]).
    clear H. induction (order l) as [|x m IH]; cbn [map app phs fst snd pz yph andb Nat.add]; [reflexivity|]. rewrite IH by (intros y Hy; apply H'; right; auto).
    assert (X : xat (map (fun i => (N.to_nat i, Pz)) m ++ t) (N.to_nat x) = false).
    { rewrite xat_app, H' by (left; auto). rewrite Bool.xorb_false_r. clear. induction m as [|y m IH]; cbn [map xat snd px]; auto. rewrite IH, Bool.andb_false_r. reflexivity. }
    unfold term, factor in *; rewrite X. reflexivity.
  Qed.
  Lemma phs_zend l : phs (pad Pz l) = 0.
  Proof. rewrite <- (app_nil_r (pad Pz l)). rewrite phs_z by auto. reflexivity. Qed.
  (** a set with at most one member *)
  Lemma pad_none p : pad p [] = [].
  Proof. unfold BKInterModel.pad. pose proof (Horder []) as P. symmetry in P. apply Permutation_nil in P. rewrite P. reflexivity. Qed.
  Lemma pad_one p a : pad p [a] = [(N.to_nat a, p)].
  Proof. unfold BKInterModel.pad. pose proof (Horder [a]) as P. symmetry in P. apply Permutation_length_1_inv in P. rewrite P. reflexivity. Qed.
End Pads.
