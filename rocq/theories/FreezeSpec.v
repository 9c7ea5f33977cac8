(** What freezing orbitals means (C68). *)
From Verif Require Import Base MatModel OpModel OpSpec.
Open Scope list_scope.
Local Open Scope nat_scope.

(** [x] gives the occupation of [n] modes: the modes in [occupied] are occupied, the i-th of [modes] has the i-th occupation of [u], all others are empty. *)
Definition completes (n : nat) (occupied modes : list nat) (u x : list bool) : Prop :=
  length u = length modes /\ length x = n /\
  (forall q, In q occupied -> nth q x false = true) /\
  (forall i, i < length modes -> nth (nth i modes 0) x false = nth i u false) /\
  (forall q, ~ In q occupied -> ~ In q modes -> nth q x false = false).
(** Modes that can be kept: increasing, among the n modes, none of them frozen. *)
Definition kept (n : nat) (frozen modes : list nat) : Prop :=
  (forall i j, i < j -> j < length modes -> nth i modes 0 < nth j modes 0) /\ forall q, In q modes -> q < n /\ ~ In q frozen.
(** [b] is the operator [a] with the mode [nth i modes] called [i]: same coefficients in the same order. *)
Definition renumbered {K : cring} (modes : list nat) (a b : fop K) : Prop :=
  Forall2 (fun ta tb : term bool * K => snd ta = snd tb /\
    Forall2 (fun f g : factor bool => fst g < length modes /\ fst f = nth (fst g) modes 0 /\ snd f = snd g) (fst ta) (fst tb)) a b.
