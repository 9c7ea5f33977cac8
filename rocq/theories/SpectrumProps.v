(** C104: spectra and ground states; stated over SpectrumModel.v and SpectrumSpec.v. *)
From Coq Require Import List Arith Lia Sorted Permutation Ring.
From Verif Require Import Base BaseFacts MatModel MatFacts OpModel OpSpec OpProofs2 FermiModel FermiSpec FermiProofs2 FermiProofs7 FermiProps2 TensorModel TensorSpec SectorSpec SparseModel SparseProps SpectrumModel SpectrumSpec.
Import ListNotations.
Open Scope list_scope.
Local Open Scope nat_scope.

Section Ground.
  Context {K : cring} (leb : K -> K -> bool) (total : forall a b, leb a b = true \/ leb b a = true) (trans : forall a b c, leb a b = true -> leb b c = true -> leb a c = true).
  Context (eigsh : mat K -> option (vec K) -> result (list K * mat K)) (Hs : finds_lowest (fun a b => leb a b = true) eigsh).
  Add Ring Kring_c104g : (kth K).
  Open Scope K_scope.
  (** ** Ground states *)
  Lemma argsort_first values : values <> [] -> exists i rest x, argsort leb values = i :: rest /\ nth_error values i = Some x /\ forall y, In y values -> leb x y = true.
  Proof.
    intros N. unfold argsort. set (le2 := fun a b : K * nat => leb (fst a) (fst b)). set (l := combine values (seq 0 (length values))).
    assert (P : Permutation (sort_by le2 l) l) by apply sort_by_perm.
    assert (So : StronglySorted (fun a b => le2 a b = true) (sort_by le2 l)).
    { apply (sort_by_sorted le2); unfold le2; [intros; apply total|intros; eapply trans; eauto]. }
    assert (Lc : length l = length values) by (unfold l; rewrite combine_length, seq_length; lia).
    destruct (sort_by le2 l) as [|[x i] rest] eqn:E; [apply Permutation_nil in P; exfalso; apply N; destruct values; [reflexivity|rewrite P in Lc; discriminate]|].
    exists i, (map snd rest), x. split; [reflexivity|]. split.
    - assert (Hin : In (x, i) l) by (apply (Permutation_in _ P); now left). unfold l in Hin. clear - Hin. assert (G : forall k vs, In (x, i) (combine vs (seq k (length vs))) -> (k <= i)%nat /\ nth_error vs (i - k) = Some x).
      { intros k vs. revert k. induction vs as [|y vs IH]; intros k H; [destruct H|]. cbn [length seq combine] in H. destruct H as [H|H]; [injection H as <- <-; rewrite Nat.sub_diag; split; [lia|reflexivity]|].
        destruct (IH (S k) H) as (L & Nt). split; [lia|]. replace (i - k)%nat with (S (i - S k)) by lia. exact Nt. }
      destruct (G 0%nat values Hin) as (_ & R). now rewrite Nat.sub_0_r in R.
    - intros y Hy. assert (Hl : exists j, In (y, j) l).
      { unfold l. clear - Hy. generalize 0%nat. induction values as [|z vs IH]; intros k; [destruct Hy|]. destruct Hy as [->|Hy]; [exists k; now left|]. destruct (IH Hy (S k)) as (j & Hj). exists j. now right. }
      destruct Hl as (j & Hj). apply (Permutation_in _ (Permutation_sym P)) in Hj. destruct Hj as [Hj|Hj]; [injection Hj as -> ->; destruct (total y y); assumption|].
      inversion So as [|? ? _ F]; subst. rewrite Forall_forall in F. exact (F _ Hj).
  Qed.
  (** The ground state is an eigenvector of lowest eigenvalue. *)
  Theorem C104_ground_state A guess value v : get_ground_state leb eigsh A guess = Ok (value, v) -> nonzero v /\ eigenpair A value v /\ forall y, eigenvalue A y -> leb value y = true.
  Proof.
    intros E. unfold get_ground_state in E. destruct (eigsh A guess) as [[values vectors]|e] eqn:Es; [|discriminate]. cbn [rbind] in E.
    destruct (Hs A guess values vectors Es) as (_ & _ & Each & x & Hx & Low). destruct (argsort_first values) as (i & rest & y & Ea & Ey & Min); [intros ->; destruct Hx|].
    rewrite Ea, Ey in E. injection E as <- <-. destruct (Each i y Ey) as (N1 & N2). split; [exact N1|]. split; [exact N2|]. intros z Hz'. eapply trans; [apply (Min x Hx)|apply Low, Hz'].
  Qed.
  (** It is a failure only if the eigensolver fails. *)
  Theorem C104_ground_state_total A guess : (forall e, eigsh A guess <> Err e) -> exists value v, get_ground_state leb eigsh A guess = Ok (value, v).
  Proof.
    intros N. unfold get_ground_state. destruct (eigsh A guess) as [[values vectors]|e] eqn:Es; [|exfalso; now apply (N e)]. cbn [rbind].
    destruct (Hs A guess values vectors Es) as (_ & _ & _ & x & Hx & _). destruct (argsort_first values) as (i & rest & y & Ea & Ey & _); [intros ->; destruct Hx|]. rewrite Ea, Ey. eauto.
  Qed.
  (** In a normalised ground state the operator has that energy. *)
  Theorem C104_mean A guess value v : nr A = nc A -> get_ground_state leb eigsh A guess = Ok (value, v) -> norm2 v = 1 -> mean A v = value.
  Proof.
    intros Sq G U. destruct (C104_ground_state A guess value v G) as (_ & (P1 & P2) & _). unfold mean.
    rewrite (bigsum_ext _ _ (fun i => value * (kconj (vent v i) * vent v i))).
    - rewrite <- bigsum_mul_l. unfold norm2 in U. rewrite U. ring.
    - intros i Hi. rewrite <- P1. rewrite P2 by congruence. ring.
  Qed.
End Ground.

Section C104.
  Context {K : cring} (im half : K) (Him : kmul im im = kopp k1) (Hhalf : kadd half half = k1) (small is_zero : K -> bool) (Hz : forall c, is_zero c = true <-> c = k0).
  Context (negligible : K -> bool) (Hneg : forall c, negligible c = true -> c = k0) (leb : K -> K -> bool).
  Context (total : forall a b, leb a b = true \/ leb b a = true) (trans : forall a b c, leb a b = true -> leb b c = true -> leb a c = true).
  Context (eigvalsh eigvals : mat K -> result (list K)) (Hh : finds_all hermitian eigvalsh) (Hg : finds_all (fun A => nr A = nc A) eigvals).
  Context (eigsh : mat K -> option (vec K) -> result (list K * mat K)) (Hs : finds_lowest (fun a b => leb a b = true) eigsh).
  Add Ring Kring_c104 : (kth K).
  Open Scope K_scope.
  Notation spectrum := (sparse_eigenspectrum is_zero negligible leb eigvalsh eigvals).
  Notation eigenspectrum := (eigenspectrum im half small is_zero negligible leb eigvalsh eigvals).
  Notation sorted := (StronglySorted (fun a b => leb a b = true)).

  (** ** Equal and similar matrices *)
  Lemma forallb_not {X} (f : X -> bool) l : forallb f l = false -> exists x, In x l /\ f x = false.
  Proof. induction l as [|x l IH]; cbn; [discriminate|]. destruct (f x) eqn:E; [intros H; destruct (IH H) as (y & A & B); eauto|eauto]. Qed.
  Lemma eigenpair_as (A : mat K) (x : K) (v : MatModel.vec K) : eigenpair A x v <-> nc A = vlen v /\ forall i, (i < nr A)%nat -> vent (mvmul A v) i = x * vent v i.
  Proof. reflexivity. Qed.
  Lemma eigenvalue_meq (A B : mat K) x : meq A B -> eigenvalue A x <-> eigenvalue B x.
  Proof.
    assert (G : forall A B : mat K, meq A B -> eigenvalue A x -> eigenvalue B x).
    { clear A B. intros A B (H1 & H2 & H3) (v & N & E1 & E2). exists v. split; [exact N|]. split; [congruence|]. rewrite <- H1, <- H2. intros i Hi. rewrite <- E2 by exact Hi. apply bigsum_ext. intros j Hj. now rewrite H3. }
    intros E. split; apply G; [exact E|now symmetry].
  Qed.
  Lemma similar_eigenvalue (A B E : mat K) n : nr A = n -> nc A = n -> nr B = n -> nc B = n -> nr E = n -> unitary E -> meq (mmul B E) (mmul E A) -> forall x, eigenvalue A x -> eigenvalue B x.
  Proof.
    intros A1 A2 B1 B2 E1 UE S x (v & (k & Hk & Nk) & P1 & P2). destruct UE as (E3 & U1 & _). assert (E2 : nc E = n) by congruence.
    assert (Lv : vlen v = n) by congruence. exists (mvmul E v). split.
    - (* the image of v is not 0, since v is the image of it under the adjoint *)
      assert (Back : forall i, (i < n)%nat -> vent v i = vent (mvmul (adjoint E) (mvmul E v)) i).
      { intros i Hi. assert (X : veq (mvmul (mmul (adjoint E) E) v) v).
        { transitivity (mvmul (eye (nc E)) v); [apply mvmul_ext; [cbn; congruence|exact U1|reflexivity]|apply mvmul_eye; congruence]. }
        destruct X as (_ & X). assert (Y : veq (mvmul (mmul (adjoint E) E) v) (mvmul (adjoint E) (mvmul E v))) by (apply mvmul_assoc; reflexivity). destruct Y as (_ & Y).
        rewrite <- Y by (cbn; congruence). symmetry. apply X. cbn. congruence. }
      destruct (Bool.bool_dec (forallb (fun i => is_zero (vent (mvmul E v) i)) (seq 0 n)) true) as [All|Some].
      + exfalso. apply Nk. rewrite Back by congruence. cbn [vent mvmul]. cbn [adjoint nc].
        rewrite (bigsum_ext _ _ (fun _ => 0)); [apply bigsum_0; reflexivity|]. intros j Hj. rewrite forallb_forall in All. assert (Z : is_zero (vent (mvmul E v) j) = true) by (apply All, in_seq; lia).
        apply Hz in Z. cbn [vent mvmul] in Z. rewrite Z. ring.
      + apply Bool.not_true_iff_false in Some. apply forallb_not in Some. destruct Some as (i & Hi & Z). apply in_seq in Hi. exists i. cbn [vlen mvmul]. split; [lia|]. intros E0. rewrite (proj2 (Hz _) E0) in Z. discriminate.
    - split; [cbn; congruence|]. rewrite B1. intros i Hi. change (bigsum (nc B) (fun j => ent B i j * vent (mvmul E v) j)) with (vent (mvmul B (mvmul E v)) i).
      assert (X : veq (mvmul (mmul B E) v) (mvmul B (mvmul E v))) by (apply mvmul_assoc; congruence). destruct X as (_ & X). rewrite <- X by (cbn; congruence).
      assert (Y : veq (mvmul (mmul B E) v) (mvmul (mmul E A) v)) by (apply mvmul_ext; [cbn; congruence|exact S|reflexivity]). destruct Y as (_ & Y). rewrite Y by (cbn; congruence).
      assert (W : veq (mvmul (mmul E A) v) (mvmul E (mvmul A v))) by (apply mvmul_assoc; congruence). destruct W as (_ & W). rewrite W by (cbn; congruence).
      cbn [vent mvmul]. rewrite bigsum_mul_l. apply bigsum_ext. intros j Hj. rewrite P2 by congruence. ring.
  Qed.
  Lemma similar_back (A B E : mat K) n : nr A = n -> nc A = n -> nr B = n -> nc B = n -> nr E = n -> unitary E -> meq (mmul B E) (mmul E A) -> meq (mmul A (adjoint E)) (mmul (adjoint E) B).
  Proof.
    intros A1 A2 B1 B2 E1 (E3 & U1 & U2) S. assert (E2 : nc E = n) by congruence.
    transitivity (mmul (mmul (mmul (adjoint E) E) A) (adjoint E)).
    { apply mmul_ext; [cbn; congruence| |reflexivity]. symmetry. transitivity (mmul (eye (nc E)) A); [apply mmul_ext; [cbn; congruence|exact U1|reflexivity]|apply mmul_eye_l; congruence]. }
    transitivity (mmul (mmul (adjoint E) (mmul E A)) (adjoint E)); [apply mmul_ext; [cbn; congruence|apply mmul_assoc; cbn; congruence|reflexivity]|].
    transitivity (mmul (mmul (adjoint E) (mmul B E)) (adjoint E)); [apply mmul_ext; [cbn; congruence|apply mmul_ext; [cbn; congruence|reflexivity|now symmetry]|reflexivity]|].
    transitivity (mmul (adjoint E) (mmul (mmul B E) (adjoint E))); [apply mmul_assoc; cbn; congruence|].
    apply mmul_ext; [cbn; congruence|reflexivity|]. transitivity (mmul B (mmul E (adjoint E))); [apply mmul_assoc; cbn; congruence|].
    transitivity (mmul B (eye (nr E))); [apply mmul_ext; [cbn; congruence|reflexivity|exact U2]|apply mmul_eye_r; congruence].
  Qed.
  Lemma similar_same (A B E : mat K) n : nr A = n -> nc A = n -> nr B = n -> nc B = n -> nr E = n -> unitary E -> meq (mmul B E) (mmul E A) ->
    (forall x, eigenvalue A x <-> eigenvalue B x) /\ (forall l, spectrum_of A l -> spectrum_of B l).
  Proof.
    intros A1 A2 B1 B2 E1 UE S. assert (E2 : nc E = n) by (destruct UE; congruence). split.
    - intros x. split; [now apply (similar_eigenvalue A B E n)|]. apply (similar_eigenvalue B A (adjoint E) n); auto; [now apply unitary_adjoint|]. now apply (similar_back A B E n).
    - intros l (Ll & U & U1 & UU & D). split; [congruence|]. assert (U2 : nc U = n) by (destruct UU; congruence). exists (mmul E U). split; [cbn; congruence|]. split; [apply unitary_mmul; auto; congruence|].
      transitivity (mmul (mmul B E) U); [symmetry; apply mmul_assoc; congruence|]. transitivity (mmul (mmul E A) U); [apply mmul_ext; [cbn; congruence|exact S|reflexivity]|].
      transitivity (mmul E (mmul A U)); [apply mmul_assoc; congruence|]. transitivity (mmul E (mmul U (diagonal_of l))); [apply mmul_ext; [cbn; congruence|reflexivity|exact D]|].
      symmetry. apply mmul_assoc; cbn; congruence.
  Qed.

  (** ** Spectra *)
  Lemma hermitian_check A : nr A = nc A -> sparse_is_hermitian is_zero negligible A = true <-> hermitian A.
  Proof.
    intros Sq. unfold sparse_is_hermitian, hermitian. rewrite forallb_forall. split.
    - intros H. split; [exact Sq|]. intros i j Hi Hj. specialize (H j). rewrite forallb_forall in H. specialize (H (proj2 (in_seq _ _ _) (conj (Nat.le_0_l _) Hj)) i (proj2 (in_seq _ _ _) (conj (Nat.le_0_l _) (eq_ind _ (fun m => (i < m)%nat) Hi _ Sq)))).
      apply Bool.orb_true_iff in H. assert (Z : ksub (ent A j i) (kconj (ent A i j)) = 0) by (destruct H as [H|H]; [now apply Hz|now apply Hneg]).
      transitivity (ksub (ent A j i) (kconj (ent A i j)) + kconj (ent A i j)); [ring|]. rewrite Z. ring.
    - intros (_ & H) i Hi. apply in_seq in Hi. apply forallb_forall. intros j Hj. apply in_seq in Hj. apply Bool.orb_true_iff. left. apply Hz. rewrite (H j i) by lia. ring.
  Qed.
  (** The spectrum of a square matrix: in ascending order, and exactly its eigenvalues. *)
  Theorem C104_sparse A l : nr A = nc A -> spectrum A = Ok l -> sorted l /\ length l = nr A /\ forall x, In x l <-> eigenvalue A x.
  Proof.
    intros Sq E. unfold sparse_eigenspectrum in E. destruct (sparse_is_hermitian is_zero negligible A) eqn:H.
    - apply hermitian_check in H; [|exact Sq]. destruct (eigvalsh A) as [v|e] eqn:Ev; [|discriminate]. cbn [rbind] in E. injection E as <-. destruct (Hh A v H Ev) as (Ln & I). split; [apply (sort_by_sorted leb total trans)|]. split; [rewrite <- Ln; apply Permutation_length, sort_by_perm|]. intros x. rewrite <- (I x).
      split; apply Permutation_in; [|symmetry]; apply sort_by_perm.
    - destruct (eigvals A) as [v|e] eqn:Ev; [|discriminate]. cbn [rbind] in E. injection E as <-. destruct (Hg A v Sq Ev) as (Ln & I). split; [apply (sort_by_sorted leb total trans)|]. split; [rewrite <- Ln; apply Permutation_length, sort_by_perm|]. intros x. rewrite <- (I x).
      split; apply Permutation_in; [|symmetry]; apply sort_by_perm.
  Qed.
  (** The spectrum of a fermion operator, and of a qubit operator. *)
  Theorem C104_fermion (a : fop K) n l : on_qubits n a -> eigenspectrum (OFermion a) (Some n) = Ok l -> sorted l /\ length l = 2 ^ n /\ forall x, In x l <-> eigenvalue (fop_matrix n a) x.
  Proof.
    intros Ha E. destruct (C74_fermion im half Him Hhalf small is_zero Hz a n Ha) as (A & EA & MA). unfold SpectrumModel.eigenspectrum in E. rewrite EA in E. cbn [rbind] in E.
    destruct (C104_sparse A l) as (S & Ln & I); [destruct MA as (X & Y & _); destruct (fop_shape n a) as [Z W]; congruence|exact E|]. split; [exact S|]. split; [rewrite Ln; destruct MA as (X & _); rewrite X; apply fop_shape|]. intros x. rewrite I. now apply eigenvalue_meq.
  Qed.
  Theorem C104_qubit (a : qop K) n l : (forall t c, In (t, c) a -> canonical t) -> on_qubits n a -> eigenspectrum (OQubit a) (Some n) = Ok l -> sorted l /\ length l = 2 ^ n /\ forall x, In x l <-> eigenvalue (qop_matrix im n a) x.
  Proof.
    intros Hc Ha E. destruct (C74_qubit im half Him small is_zero Hz a n Hc Ha) as (A & EA & MA). unfold SpectrumModel.eigenspectrum in E. rewrite EA in E. cbn [rbind] in E.
    destruct (C104_sparse A l) as (S & Ln & I); [destruct MA as (X & Y & _); destruct (qop_matrix_shape im n a) as [Z W]; congruence|exact E|]. split; [exact S|]. split; [rewrite Ln; destruct MA as (X & _); rewrite X; apply qop_matrix_shape|]. intros x. rewrite I. now apply eigenvalue_meq.
  Qed.
  (** ** A fermion operator and its two transforms have the same eigenvalues, with the same multiplicities. *)
  Theorem C104_encodings (order : list N -> list N) (a : fop K) n b l1 l2 l3 : (forall l, Permutation (order l) l) -> small half = false -> small (half * im) = false -> small (- (half * im)) = false -> only_zero small ->
    on_qubits n a -> bravyi_kitaev im half small order a (Some n) = Ok b ->
    eigenspectrum (OFermion a) (Some n) = Ok l1 -> eigenspectrum (OQubit (jordan_wigner im half small a)) (Some n) = Ok l2 -> eigenspectrum (OQubit b) (Some n) = Ok l3 ->
    (forall x, In x l1 <-> In x l2) /\ (forall x, In x l1 <-> In x l3) /\
    (forall l, spectrum_of (fop_matrix n a) l -> spectrum_of (qop_matrix im n (jordan_wigner im half small a)) l /\ spectrum_of (qop_matrix im n b) l).
  Proof.
    intros Ho Hs1 Hs2 Hs3 Hz0 Ha Eb E1 E2 E3.
    destruct (C47_acts im half Him Hhalf small Hs1 Hs2 Hs3 n a Ha) as [Hq _]. pose proof (C47_acts_exact im half Him Hhalf small Hs1 Hs2 Hs3 n a Ha Hz0) as Mj.
    pose proof (C48_acts im half Him Hhalf small Hs1 Hs2 Hs3 n order Ho a b Eb) as [Hb _]. pose proof (C48_acts_exact im half Him Hhalf small Hs1 Hs2 Hs3 n order Ho a b Eb Hz0) as Mb.
    destruct (C104_fermion a n l1 Ha E1) as (_ & _ & I1).
    destruct (C104_qubit (jordan_wigner im half small a) n l2) as (_ & _ & I2); [apply (image_canonical im small (jw_ladder im half small) a)|exact Hq|exact E2|].
    destruct (C104_qubit b n l3) as (_ & _ & I3).
    { unfold bravyi_kitaev in Eb. destruct (n <? fermion_count_qubits a)%nat; [discriminate|]. injection Eb as <-. apply (image_canonical im small (bk_ladder im half small order (N.of_nat n)) a). }
    { exact Hb. } { exact E3. }
    destruct (fop_shape n a) as [F1 F2]. destruct (qop_matrix_shape im n b) as [B1 B2]. destruct (qop_matrix_shape (K := K) im n (jordan_wigner im half small a)) as [J1 J2].
    destruct (similar_same (fop_matrix n a) (qop_matrix im n b) (bk_encoding n) (2 ^ n)) as (SB & DB); [exact F1|exact F2|exact B1|exact B2|reflexivity|apply C48_encoding|exact Mb|].
    destruct (similar_same (fop_matrix n a) (qop_matrix im n (jordan_wigner im half small a)) (eye (2 ^ n)) (2 ^ n)) as (SJ & DJ); [exact F1|exact F2|exact J1|exact J2|reflexivity|apply unitary_eye| |].
    { transitivity (qop_matrix im n (jordan_wigner im half small a)); [apply mmul_eye_r; now symmetry|]. transitivity (fop_matrix n a); [exact Mj|symmetry; apply mmul_eye_l; now symmetry]. }
    split; [intros x; rewrite I1, I2; apply SJ|]. split; [intros x; rewrite I1, I3; apply SB|]. intros l Hl. split; [now apply DJ|now apply DB].
  Qed.

  (** The spectrum starts with the energy of the ground state. *)
  Theorem C104_first A guess l value v : (forall a b, leb a b = true -> leb b a = true -> a = b) -> nr A = nc A -> spectrum A = Ok l -> get_ground_state leb eigsh A guess = Ok (value, v) -> hd_error l = Some value.
  Proof.
    intros Anti Sq E G. destruct (C104_sparse A l Sq E) as (S & _ & I). destruct (C104_ground_state leb total trans eigsh Hs A guess value v G) as (N & P & Low).
    assert (Hin : In value l) by (apply I; exists v; auto). destruct l as [|x l]; [destruct Hin|]. cbn. f_equal. apply Anti.
    - destruct Hin as [->|Hin]; [destruct (total value value); assumption|]. inversion S as [|? ? _ F]; subst. rewrite Forall_forall in F. now apply F.
    - apply Low, I. now left.
  Qed.
End C104.

Print Assumptions C104_sparse.
Print Assumptions C104_fermion.
Print Assumptions C104_qubit.
Print Assumptions C104_encodings.
Print Assumptions C104_ground_state.
Print Assumptions C104_ground_state_total.
Print Assumptions C104_first.
Print Assumptions C104_mean.
