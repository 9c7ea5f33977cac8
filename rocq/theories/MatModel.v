(** Scalars with conjugation, and matrices and vectors as numpy/sympy dense arrays. *)
From Coq Require Import Ring.
From Verif Require Import Base.

(** A commutative ring with conjugation: the scalars of numpy/sympy arrays, taken exact. *)
Record cring := {
  car :> Type;
  k0 : car; k1 : car;
  kadd : car -> car -> car;
  kmul : car -> car -> car;
  ksub : car -> car -> car;
  kopp : car -> car;
  kconj : car -> car;
  kth : ring_theory k0 k1 kadd kmul ksub kopp eq;
  kconj_add : forall a b, kconj (kadd a b) = kadd (kconj a) (kconj b);
  kconj_mul : forall a b, kconj (kmul a b) = kmul (kconj a) (kconj b);
  kconj_invol : forall a, kconj (kconj a) = a;
}.
Arguments k0 {c}. Arguments k1 {c}. Arguments kadd {c}. Arguments kmul {c}. Arguments ksub {c}.
Arguments kopp {c}. Arguments kconj {c}.

Declare Scope K_scope.
Delimit Scope K_scope with K.
Notation "0" := k0 : K_scope.
Notation "1" := k1 : K_scope.
Infix "+" := kadd : K_scope.
Infix "*" := kmul : K_scope.
Infix "-" := ksub : K_scope.
Notation "- x" := (kopp x) : K_scope.

(** Dense matrix: shape and entries (entries outside the shape are irrelevant). *)
Record mat (K : cring) := { nr : nat; nc : nat; ent : nat -> nat -> K }.
Arguments nr {K}. Arguments nc {K}. Arguments ent {K}. Arguments Build_mat {K}.
(** Dense vector. *)
Record vec (K : cring) := { vlen : nat; vent : nat -> K }.
Arguments vlen {K}. Arguments vent {K}. Arguments Build_vec {K}.

Section Ops.
  Context {K : cring}.
  Open Scope K_scope.

  Fixpoint bigsum (n : nat) (f : nat -> K) : K :=
    match n with O => 0 | S m => bigsum m f + f m end.

  Definition delta (b : bool) : K := if b then 1 else 0.

  (** np.eye(n), sympy.eye(n) *)
  Definition eye (n : nat) : mat K := Build_mat n n (fun i j => delta (Nat.eqb i j)).
  (** np.zeros((n, m)) *)
  Definition zeros (n m : nat) : mat K := Build_mat n m (fun _ _ => 0).
  (** np.kron, sympy.kronecker_product *)
  Definition kron (A B : mat K) : mat K :=
    Build_mat (nr A * nr B) (nc A * nc B)
      (fun i j => ent A (i / nr B)%nat (j / nc B)%nat * ent B (i mod nr B)%nat (j mod nc B)%nat).
  (** np.kron of one-dimensional arrays *)
  Definition vkron (u v : vec K) : vec K :=
    Build_vec (vlen u * vlen v) (fun i => vent u (i / vlen v)%nat * vent v (i mod vlen v)%nat).
  Definition transpose (A : mat K) : mat K := Build_mat (nc A) (nr A) (fun i j => ent A j i).
  (** sympy Matrix.adjoint(): conjugate transpose *)
  Definition adjoint (A : mat K) : mat K := Build_mat (nc A) (nr A) (fun i j => kconj (ent A j i)).
  (** product of conforming matrices *)
  Definition mmul (A B : mat K) : mat K :=
    Build_mat (nr A) (nc B) (fun i j => bigsum (nc A) (fun l => ent A i l * ent B l j)).
  (** the operator [@]: ValueError on mismatching shapes *)
  Definition matmul (A B : mat K) : result (mat K) :=
    if Nat.eqb (nc A) (nr B) then Ok (mmul A B) else Err ValueError.
  Definition mvmul (A : mat K) (v : vec K) : vec K :=
    Build_vec (nr A) (fun i => bigsum (nc A) (fun l => ent A i l * vent v l)).
  Definition matvec (A : mat K) (v : vec K) : result (vec K) :=
    if Nat.eqb (nc A) (vlen v) then Ok (mvmul A v) else Err ValueError.
  Definition mscale (a : K) (A : mat K) : mat K := Build_mat (nr A) (nc A) (fun i j => a * ent A i j).
  (** sympy.Matrix.diag(A, B): block diagonal *)
  Definition diag2 (A B : mat K) : mat K :=
    Build_mat (nr A + nr B) (nc A + nc B) (fun i j =>
      if (i <? nr A)%nat then if (j <? nc A)%nat then ent A i j else 0
      else if (j <? nc A)%nat then 0 else ent B (i - nr A)%nat (j - nc A)%nat).
  (** matrix[:, j] = v *)
  Definition set_column (A : mat K) (j : nat) (v : vec K) : mat K :=
    Build_mat (nr A) (nc A) (fun r c => if Nat.eqb c j then vent v r else ent A r c).
  (** sympy.Matrix(rows) *)
  Definition of_rows (rows : list (list K)) : mat K :=
    Build_mat (length rows) (match rows with [] => O | r :: _ => length r end)
      (fun i j => nth j (nth i rows []) 0).
  Definition of_list (l : list K) : vec K := Build_vec (length l) (fun i => nth i l 0).
  Definition to_list (v : vec K) : list K := map (vent v) (seq 0 (vlen v)).

  (** ** Equality of arrays: same shape, same entries. *)
  Definition meq (A B : mat K) : Prop :=
    nr A = nr B /\ nc A = nc B /\ forall i j, i < nr A -> j < nc A -> ent A i j = ent B i j.
  Definition veq (u v : vec K) : Prop := vlen u = vlen v /\ forall i, i < vlen u -> vent u i = vent v i.

  (** Unitary: both products with the adjoint are the identity. *)
  Definition unitary (A : mat K) : Prop :=
    nr A = nc A /\ meq (mmul (adjoint A) A) (eye (nc A)) /\ meq (mmul A (adjoint A)) (eye (nr A)).
  (** squared norm of a vector *)
  Definition norm2 (v : vec K) : K := bigsum (vlen v) (fun i => kconj (vent v i) * vent v i).
  Definition inner (u v : vec K) : K := bigsum (vlen u) (fun i => kconj (vent u i) * vent v i).
End Ops.

(** ** Binary indices *)
(** value of a bit list, most significant bit first *)
Fixpoint bval (l : list bool) : nat :=
  match l with [] => 0 | b :: l' => (if b then 2 ^ length l' else 0) + bval l' end.
(** the [n] low bits of [i], most significant first *)
Fixpoint bits (n i : nat) : list bool :=
  match n with O => [] | S m => Nat.odd (i / 2 ^ m) :: bits m i end.
