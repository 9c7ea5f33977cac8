(** What symbolic operators denote (C42-C45). *)
From Coq Require Import Reals.
From Verif Require Import Base MatModel LiftSpec Cplx CmpModel OpModel.
Open Scope list_scope.
Local Open Scope nat_scope.

Section S.
  Context {K : cring}.
  Open Scope K_scope.

  Definition madd (A B : mat K) : mat K := Build_mat (nr A) (nc A) (fun i j => ent A i j + ent B i j).
  Definition msub (A B : mat K) : mat K := Build_mat (nr A) (nc A) (fun i j => ent A i j - ent B i j).
  Fixpoint mpow (A : mat K) (k : nat) : mat K := match k with O => eye (nr A) | S k' => mmul (mpow A k') A end.

  (** The Pauli matrices, [im] being the imaginary unit. *)
  Definition pauli_matrix (im : K) (p : pauli) : mat K :=
    match p with
    | Pid => of_rows [[1; 0]; [0; 1]]
    | Px => of_rows [[0; 1]; [1; 0]]
    | Py => of_rows [[0; - im]; [im; 0]]
    | Pz => of_rows [[1; 0]; [0; - (1)]]
    end.
  (** A term denotes the product, in the written order, of its factors placed on their qubits. *)
  Definition term_matrix (im : K) (n : nat) (t : term pauli) : mat K :=
    fold_right (fun f M => mmul (embed n [fst f] (pauli_matrix im (snd f))) M) (eye (2 ^ n)) t.
  (** An operator denotes the sum of coefficient times term. *)
  Definition qop_matrix (im : K) (n : nat) (a : qop K) : mat K :=
    fold_right (fun tc M => madd (mscale (snd tc) (term_matrix im n (fst tc))) M) (zeros (2 ^ n) (2 ^ n)) a.

  (** The value of an Ising operator at an assignment of bits: Z is +1 on 0 and -1 on 1. *)
  Definition zsign (b : bool) : K := if b then - (1) else 1.
  Definition zterm_value (s : nat -> bool) (t : term zact) : K := fold_right (fun f v => zsign (s (fst f)) * v) 1 t.
  Definition isop_value (s : nat -> bool) (a : isop K) : K := fold_right (fun tc v => snd tc * zterm_value s (fst tc) + v) 0 a.
End S.

(** All qubits of an operator are below [n]. *)
Definition on_qubits {A} {K : cring} (n : nat) (a : sop A K) : Prop := forall t c, In (t, c) a -> forall f, In f t -> fst f < n.
(** A dictionary has each key once. *)
Definition wf_op {A} {K : cring} (a : sop A K) : Prop := NoDup (dkeys a).
(** The coefficient of a term, zero when absent. *)
Definition coef {A} {K : cring} (aeqb : A -> A -> bool) (a : sop A K) (t : term A) : K :=
  match dget (term_eqb aeqb) t a with Some c => c | None => k0 end.
(** A Pauli term is in canonical form: qubits strictly increasing, no identity factor. *)
Fixpoint canonical (t : term pauli) : Prop :=
  match t with
  | [] => True
  | f :: t' => snd f <> Pid /\ (match t' with [] => True | g :: _ => fst f < fst g end) /\ canonical t'
  end.
