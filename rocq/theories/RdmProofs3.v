(** Density matrices from measured expectations, of the Hartree-Fock state and of ground states. *)
From Coq Require Import ZArith Ring Permutation Setoid Morphisms Ncring Ncring_tac.
From Verif Require Import Base BaseFacts MatModel MatFacts LiftSpec LiftProofs OpModel OpSpec OpProofs PauliProofs OpProofs2 FermiModel FermiSpec FermiProofs FermiProofs2 FermiProofs3 FermiProofs7 FermiProps FermiProps2
  TensorModel TensorSpec TensorProps DiagModel DiagSpec DiagProofs ConvModel ConvProofs ActsProofs SectorSpec UCCSpec MatRing UCCProofs UCCProofs2 UCCProofs3 UCCProofs4 UCCProofs5
  MolModel MolSpec MolProofs MolProofs2 MolProofs3 MolProofs4 MolProofs5 MolProofs6 MolProofs8 RdmModel RdmSpec RdmProofs RdmProofs2.
Open Scope list_scope.
Local Open Scope nat_scope.

Section S.
  Context {K : cring}.
  Add Ring Kring_rdm3 : (kth K).
  Open Scope K_scope.
  Notation arr := (TensorModel.ndarray K).
  Lemma rdm_new n (rho : mat K) (h : heap K) (x y : arr) : shape0 x = n -> shape0 y = n ->
    (forall p q, (p < n)%nat -> (q < n)%nat -> data x [p; q] = average n rho (fterm_matrix n [(p, true); (q, false)])) ->
    (forall p q r s, (p < n)%nat -> (q < n)%nat -> (r < n)%nat -> (s < n)%nat -> data y [p; q; r; s] = average n rho (fterm_matrix n [(p, true); (q, true); (r, false); (s, false)])) ->
    exists h' a, interaction_rdm h x y = Ok (h', a) /\ preserved h h' /\ is_rdm n rho h' a.
  Proof.
    intros Hx Hy H1 H2. unfold interaction_rdm, polynomial_tensor. cbn [rbind]. destruct (read_app h x y) as [R1 R2]. eexists _, _. split; [reflexivity|]. split; [apply preserved_app|].
    unfold is_rdm, rdm_ok, tensor_ok, value. cbn [n_qubits n_body_tensors dget key_eqb list_eqb Bool.eqb andb element]. rewrite R1, R2. repeat split; auto.
    - repeat constructor; cbn; intuition discriminate.
    - intros k k' r H H'. cbn [In] in H, H'. destruct H as [H|[H|[]]], H' as [H'|[H'|[]]]; inversion H; inversion H'; subst; auto; lia.
    - exists [true; false], (length h). left; reflexivity.
    - intros k e H. cbn [In] in H. destruct H as [H|[H|[]]]; inversion H; subst; (split; [discriminate|]; split; [rewrite app_length; cbn [length]; lia|]); cbn [n_qubits]; rewrite ?R1, ?R2; congruence.
  Qed.

  (** ** Measured expectations *)
  Section Measured.
    Context (im half : K) (Him : im * im = - (1)) (Hhalf : half + half = 1) (small : K -> bool).
    Context (Hs1 : small half = false) (Hs2 : small (half * im) = false) (Hs3 : small (- (half * im)) = false) (Hz : only_zero small).
    Context (n : nat) (rho : mat K) (m : qop K).
    Lemma measured_data (x : arr) t i : data (measured_element im half small m x t) i =
      if list_eqb Nat.eqb i (map fst t) then data x i + lval (coef pauli_eqb m) (jordan_wigner im half small (fermion_op t 1)) else data x i.
    Proof.
      unfold measured_element. revert x. induction (jordan_wigner im half small (fermion_op t 1)) as [|[u c] l IH]; intros x; cbn [fold_left lval fst snd].
      - destruct (list_eqb _ _ _); [ring|reflexivity].
      - rewrite IH. unfold coef at 2. destruct (dget _ u m) as [v|].
        + cbn [assign data]. destruct (list_eqb Nat.eqb i (map fst t)) eqn:E; [|reflexivity]. apply (list_eqb_spec _ nat_eqb_spec) in E. rewrite E. ring.
        + destruct (list_eqb _ _ _); [ring|reflexivity].
    Qed.
    Lemma measured_shape (x : arr) t : shape0 (measured_element im half small m x t) = shape0 x.
    Proof.
      unfold measured_element. revert x. induction (jordan_wigner im half small (fermion_op t 1)) as [|[u c] l IH]; intros x; cbn [fold_left]; [reflexivity|]. rewrite IH. destruct (dget _ _ _); reflexivity.
    Qed.
    Lemma measured_loop k l : (forall i, In i l -> length i = length k) -> NoDup l -> forall (x : arr) i,
      shape0 (fold_left (fun x i => measured_element im half small m x (combine i k)) l x) = shape0 x /\
      data (fold_left (fun x i => measured_element im half small m x (combine i k)) l x) i =
      if memb (list_eqb Nat.eqb) i l then data x i + lval (coef pauli_eqb m) (jordan_wigner im half small (fermion_op (combine i k) 1)) else data x i.
    Proof.
      induction l as [|j l IH]; intros Hl ND x i; cbn [fold_left]; [split; reflexivity|]. inversion ND as [|? ? Nj ND']; subst.
      destruct (IH (fun i H => Hl i (or_intror H)) ND' (measured_element im half small m x (combine j k)) i) as [I1 I2]. split; [rewrite I1; apply measured_shape|]. rewrite I2. clear I1 I2.
      rewrite measured_data. assert (Ej : map fst (combine j k) = j).
      { pose proof (Hl j (or_introl eq_refl)) as L. clear -L. revert k L. induction j as [|p j IH]; intros [|b k] L; cbn in *; try discriminate; [reflexivity|]. f_equal. apply IH. lia. }
      rewrite Ej. unfold memb at 2. cbn [existsb]. destruct (list_eqb Nat.eqb i j) eqn:E; cbn [orb].
      - apply (list_eqb_spec _ nat_eqb_spec) in E. subst i. destruct (memb (list_eqb Nat.eqb) j l) eqn:M; [|reflexivity]. apply (memb_In _ (list_eqb_spec _ nat_eqb_spec)) in M. contradiction.
      - unfold memb. destruct (existsb _ l); reflexivity.
    Qed.
    Lemma measured_value t : (forall f, In f t -> (fst f < n)%nat) ->
      (forall u c, In (u, c) (jordan_wigner im half small (fermion_op t 1)) -> coef pauli_eqb m u = average n rho (term_matrix im n u)) ->
      lval (coef pauli_eqb m) (jordan_wigner im half small (fermion_op t 1)) = average n rho (fterm_matrix n t).
    Proof.
      intros O H. transitivity (lval (fun u => average n rho (term_matrix im n u)) (jordan_wigner im half small (fermion_op t 1))).
      { induction (jordan_wigner im half small (fermion_op t 1)) as [|[u c] l IH]; [reflexivity|]. cbn [lval fst snd]. rewrite IH by (intros v d Hv; apply (H v d); right; exact Hv). rewrite (H u c (or_introl eq_refl)). reflexivity. }
      rewrite <- average_qop.
      assert (On : on_qubits n (fermion_op (K := K) t 1)) by (intros u c [E|[]]; inversion E; subst; auto).
      rewrite (average_meq n rho _ (fop_matrix n (fermion_op (K := K) t 1))); [|apply qop_matrix_shape|apply qop_matrix_shape|apply (C47_acts_exact im half Him Hhalf small Hs1 Hs2 Hs3 n _ On Hz)].
      rewrite average_fop. cbn [fermion_op mk_op fermion_simplify lval fst snd]. ring.
    Qed.
    Lemma measured_array k : (forall i, In i (indices n (length k)) -> forall u c, In (u, c) (jordan_wigner im half small (fermion_op (combine i k) 1)) -> coef pauli_eqb m u = average n rho (term_matrix im n u)) ->
      forall i, In i (indices n (length k)) -> data (fold_left (fun x i => measured_element im half small m x (combine i k)) (indices n (length k)) (zeros_array n)) i = average n rho (fterm_matrix n (combine i k)).
    Proof.
      intros H i Hi. destruct (measured_loop k (indices n (length k)) (fun i H => proj1 (proj1 (in_indices n _ i) H)) (ConvProofs.indices_NoDup n _) (zeros_array n) i) as [_ ->].
      rewrite (proj2 (memb_In _ (list_eqb_spec _ nat_eqb_spec) i _) Hi). cbn [zeros_array data]. rewrite measured_value; [ring| |eauto].
      intros f Hf. apply in_indices in Hi. destruct Hi as [_ Hi]. rewrite Forall_forall in Hi. apply Hi. destruct f as [p b]. apply in_combine_l in Hf. exact Hf.
    Qed.
  End Measured.
End S.
