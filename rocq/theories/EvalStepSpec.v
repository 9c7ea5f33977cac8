(** Specification for C100: density matrices in files, energies of measured bitstrings, and steps that touch only their output. *)
From Coq Require Import String ZArith QArith.
From Verif Require Import Base MatModel CostModel TensorModel FermiSpec RdmSpec EvalStepModel.
From Verif Require MeasSpec.
Open Scope list_scope.
Local Open Scope nat_scope.

(** Arrays that hold the averages of all products a+_p a_q and a+_p a+_q a_r a_s in a state. *)
Definition density_arrays {K : cring} (n : nat) (rho : mat K) (one two : ndarray K) : Prop :=
  shape0 one = n /\ shape0 two = n /\
  (forall p q, p < n -> q < n -> data one [p; q] = average n rho (fterm_matrix n [(p, true); (q, false)])) /\
  (forall p q r s, p < n -> q < n -> r < n -> s < n -> data two [p; q; r; s] = average n rho (fterm_matrix n [(p, true); (q, true); (r, false); (s, false)])).
(** What a file holds. *)
Definition holds {K : cring} (d : disk K) (name : string) (x : artifact K) : Prop := dget String.eqb name d = Some x.
(** Only the named files differ. *)
Definition only_files {K : cring} (names : list string) (d d' : disk K) : Prop := forall name, ~ In name names -> dget String.eqb name d' = dget String.eqb name d.
(** The value of a sum of products of Z operators on one measured bitstring. *)
Definition energy (op : list (list nat * Q)) (o : list Z) : Q := fold_right Qplus 0%Q (map (fun tc => snd tc * inject_Z (MeasSpec.z_sign (fst tc) o))%Q op).
(** The mean of the squares of the deviations from the mean. *)
Definition spread (f : list Z -> Q) (m : list (list Z)) : Q := MeasSpec.mean (fun o => (f o - MeasSpec.mean f m) ^ 2)%Q m.
(** An argument that is an object, or the name of a file that holds it. *)
Definition refers_to {K : cring} {A} (kind : A -> artifact K) (d : disk K) (x : string + A) (a : A) : Prop := match x with inl name => holds d name (kind a) | inr b => b = a end.
