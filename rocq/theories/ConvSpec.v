(** What the conversions of operators are specified by. *)
From Coq Require Import Sorted.
From Verif Require Import Base MatModel OpModel OpSpec ConvModel TensorModel TensorSpec.
Local Open Scope list_scope.
Local Open Scope nat_scope.

(** Reading a coefficient back from its parts gives the coefficient. *)
Record parts_of_numbers {K : cring} {R} (py : pynum K R) : Prop := {
  complex_parts : forall c, c = kadd (of_real py (re py c)) (times_1j py (imag py c));
  real_parts : forall c, is_complex py c = false -> c = of_real py (re py c);
  zero_part : forall y, zero_r py y = true -> times_1j py y = k0 }.
(** The terms whose coefficient is not small. *)
Definition not_small_terms {A} {K : cring} (small : K -> bool) (a : sop A K) : sop A K := filter (fun tc => negb (small (snd tc))) a.
(** An Ising term as operators hold it: strictly increasing indices. *)
Definition ising_canonical (t : term zact) : Prop := StronglySorted lt (map fst t).
(** The kinds of terms an InteractionOperator can hold. *)
Definition interaction_term (t : term bool) : Prop := map snd t = [] \/ map snd t = [true; false] \/ map snd t = [true; true; false; false].
(** The factors of a term act on the first n modes. *)
Definition within (n : nat) (t : term bool) : Prop := Forall (fun f => fst f < n) t.
(** The number a tensor holds for the product of ladder operators [t]. *)
Definition tensor_value {K : cring} (h : heap K) (a : ptensor K) (t : term bool) : K := value h a (map snd t) (map fst t).
