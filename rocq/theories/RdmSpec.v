(** Specification for C81 and C82: states, averages and reduced density matrices. *)
From Verif Require Import Base MatModel OpModel LiftSpec OpSpec FermiModel FermiSpec TensorModel TensorSpec SectorSpec DiagSpec.
Open Scope list_scope.
Local Open Scope nat_scope.

Section S.
  Context {K : cring}.
  Open Scope K_scope.
  (** The average of an operator on n modes in the (pure or mixed) state with density matrix rho: the trace of the product. *)
  Definition average (n : nat) (rho A : mat K) : K := bigsum (2 ^ n) (fun i => bigsum (2 ^ n) (fun j => ent rho j i * ent A i j)).
  (** The density matrix of a state vector. *)
  Definition pure (v : vec K) : mat K := Build_mat (vlen v) (vlen v) (fun i j => vent v i * kconj (vent v j)).
  Definition normalized (n : nat) (rho : mat K) : Prop := average n rho (eye (2 ^ n)) = 1.
  (** A tensor that holds arrays of the one-body and the two-body terms only. *)
  Definition rdm_ok (h : heap K) (a : ptensor K) : Prop := tensor_ok h a /\ dkeys (n_body_tensors a) = [[true; false]; [true; true; false; false]].
  (** The tensor holds the averages of all products a+_p a_q and a+_p a+_q a_r a_s in the state. *)
  Definition is_rdm (n : nat) (rho : mat K) (h : heap K) (a : ptensor K) : Prop :=
    rdm_ok h a /\ n_qubits a = n /\
    (forall p q, (p < n)%nat -> (q < n)%nat -> value h a [true; false] [p; q] = average n rho (fterm_matrix n [(p, true); (q, false)])) /\
    (forall p q r s, (p < n)%nat -> (q < n)%nat -> (r < n)%nat -> (s < n)%nat ->
      value h a [true; true; false; false] [p; q; r; s] = average n rho (fterm_matrix n [(p, true); (q, true); (r, false); (s, false)])).
  (** The matrix of the operator a tensor stands for. *)
  Definition tensor_matrix (h : heap K) (a : ptensor K) : mat K :=
    Build_mat (2 ^ n_qubits a) (2 ^ n_qubits a) (fun i j => tensor_entry h a (bits (n_qubits a) i) (bits (n_qubits a) j)).
  (** A combination of products, in normal order, of at most four creation and annihilation operators. *)
  Definition few_body (n : nat) (A : mat K) : Prop :=
    exists b : fop K, wf_op b /\ on_qubits n b /\ normal_op b /\ (forall t c, In (t, c) b -> (length t <= 4)%nat) /\ meq (fop_matrix n b) A.
End S.
