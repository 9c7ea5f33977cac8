(** Specifications for distributions and sampling, independent of the model's helpers. *)
From Coq Require Import String Ascii QArith Qabs Qminmax.
From Verif Require Import Base UtilsModel DistModel.
Local Open Scope list_scope.
Local Open Scope nat_scope.

Definition total_mass (l : list Q) : Q := fold_right Qplus 0%Q l.

(** the largest relative deviation from one which counts as normalised: math.isclose's 1e-9 *)
Definition near_one (x : Q) : Prop := (Qabs (x - 1) <= (1 # 1000000000) * Qmax (Qabs x) 1)%Q.

(** dictionaries from integer tuples to numbers that are discrete distributions, up to normalisation *)
Definition proper_dist (d : dist) : Prop :=
  d <> [] /\ NoDup (map fst d) /\
  (exists n, forall k v, In (k, v) d -> length k = n) /\
  (forall k v z, In (k, v) d -> In z k -> (0 <= z)%Z) /\
  (forall k v, In (k, v) d -> (0 <= v)%Q).

(** How a tuple may be written as a key: the tuple itself, its one-digit entries one after another, or its entries
    separated by commas (when there are at least two). *)
Inductive denotes : key -> outcome -> Prop :=
| den_tuple z : denotes (KTuple (map EInt z)) z
| den_digits z : (forall d, In d z -> (0 <= d <= 9)%Z) -> denotes (KStr (String.concat "" (map str_of_int z))) z
| den_commas z : 2 <= length z -> denotes (KStr (String.concat "," (map str_of_int z))) z.

(** [b] is [a] scaled by a positive factor *)
Definition proportional (a b : dist) : Prop :=
  map fst a = map fst b /\ exists c, (0 < c)%Q /\ forall i, (nth i (map snd b) 0 == c * nth i (map snd a) 0)%Q.

(** A random generator: on probabilities that are non-negative and add up to one within 1e-8 it returns the requested number of
    positions, all of positive probability. *)
Definition draws_from_support (choice : nat -> list Q -> nat -> result (list nat)) : Prop :=
  forall k ps n, (forall p, In p ps -> 0 <= p)%Q -> (Qabs (total_mass ps - 1) <= 1 # 100000000)%Q ->
    exists l, choice k ps n = Ok l /\ length l = n /\ forall i, In i l -> i < length ps /\ (0 < nth i ps 0)%Q.
