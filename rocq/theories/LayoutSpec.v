(** What the connectivity layouts should be, independently of how they are built. *)
From Coq Require Import Permutation.
From Verif Require Import Base.
Open Scope list_scope.
Local Open Scope nat_scope.

Definition ends (e : nat * nat) : list nat := [fst e; snd e].
(** no qubit takes part in two gates of a layer *)
Definition parallel (layer : list (nat * nat)) : Prop := NoDup (flat_map ends layer).
(** every connection is used exactly once *)
Definition each_once (layers : list (list (nat * nat))) (connectivity : list (nat * nat)) : Prop :=
  Permutation (concat layers) connectivity.

(** ** The sycamore lattice
    Qubits are numbered row by row: qubit (row r, column c) is r * X + c.  Neighbouring rows are joined in a zigzag: a qubit of an odd row
    r, column c, is joined to the qubits in columns c and c + 1 (when present) of the rows above and below it. *)
Definition qubit (X r c : nat) : nat := r * X + c.
Definition sycamore_joined (X Y : nat) (e : nat * nat) : Prop :=
  exists r c r' c', e = (qubit X r c, qubit X r' c') /\ r < Y /\ r' < Y /\ c < X /\ c' < X
    /\ Nat.odd r = true /\ (r' = r + 1 \/ r = r' + 1) /\ (c' = c \/ c' = c + 1).
