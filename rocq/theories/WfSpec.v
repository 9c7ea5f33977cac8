(** Vocabulary for the properties of wavefunctions (C19-C22). *)
From Coq Require Import String Reals.
From Verif Require Import Base MatModel CircuitModel CircuitSpec Cplx WfModel.
Open Scope list_scope.

(** Number of one bits among the lowest [n] bits of [i]. *)
Fixpoint weight (n i : nat) : nat :=
  match n with O => 0 | S m => Nat.b2n (Nat.odd (i / 2 ^ m)) + weight m i end.

(** Binomial coefficients by Pascal's rule. *)
Fixpoint binomial (n k : nat) : nat :=
  match k, n with
  | O, _ => 1
  | S _, O => 0
  | S k', S n' => binomial n' k' + binomial n' k
  end.

(** Reversal of the lowest [n] bits. *)
Definition reverse_bits (n i : nat) : nat := bval (rev (bits n i)).

Section Spec.
  Context (O : sympy_oracle C) (F : string -> list C -> C).

  (** Total probability of the amplitudes that are numbers. *)
  Definition numeric_probability (w : wavefunction) : R :=
    fold_right (fun e acc => (match expr_syms e with [] => cabs2 (amp_value F e) | _ => 0 end + acc)%R) 0%R (w_amps w).
  Definition all_numeric (w : wavefunction) : Prop := forall e, In e (w_amps w) -> expr_syms e = [].

  Definition valid_wavefunction (w : wavefunction) : Prop :=
    (exists n, length (w_amps w) = 2 ^ n) /\
    (all_numeric w -> (Rabs (numeric_probability w - 1) <= 1.001e-5)%R) /\
    (~ all_numeric w -> (numeric_probability w <= 1)%R).

  (** Everything a user can do with wavefunctions. *)
  Inductive reachable : wavefunction -> Prop :=
  | reach_new arr w : mk_wf F arr = Ok w -> reachable w
  | reach_set w i v w' r : reachable w -> wf_setitem F w i v = (w', r) -> reachable w'
  | reach_bind w m w' : reachable w -> wf_bind O F w m = Ok w' -> reachable w'.
End Spec.

(** What is assumed of the random generator: it returns as many positions as asked for, each of a positive
    probability. *)
Definition samples_support (choice : list R -> nat -> result (list nat)) : Prop :=
  forall p n l, choice p n = Ok l -> length l = n /\ forall i, In i l -> exists x, nth_error p i = Some x /\ (0 < x)%R.
