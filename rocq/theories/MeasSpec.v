(** Specifications for measurement.py, independent of the model's helpers. *)
From Coq Require Import String Ascii QArith Qabs.
From Verif Require Import Base UtilsModel DistModel.
Local Open Scope list_scope.
Local Open Scope nat_scope.

(** how often an outcome was measured *)
Definition times (o : list Z) (m : list (list Z)) : nat := count_occ (list_eq_dec Z.eq_dec) m o.
Definition digits_only (m : list (list Z)) : Prop := forall t d, In t m -> In d t -> (0 <= d <= 9)%Z.
(** the string of a tuple of digits *)
Definition written (t : list Z) : string := String.concat EmptyString (map str_of_int t).
Definition is_digit_string (s : string) : Prop := exists t, (forall d, In d t -> (0 <= d <= 9)%Z) /\ s = written t.

Definition is_nearest (k : Z) (x : Q) : Prop := (Qabs (x - inject_Z k) <= 1 # 2)%Q.
(** distance of [x] to the integers *)
Definition away_from_integers (x eps : Q) : Prop := forall k : Z, (eps <= Qabs (x - inject_Z k))%Q.

(** the eigenvalue of a product of Z operators on the given qubits *)
Definition z_sign (qs : list nat) (o : list Z) : Z :=
  fold_right Z.mul 1%Z (map (fun q => if Z.odd (nth q o 0%Z) then (-1)%Z else 1%Z) qs).
(** average over the measurements *)
Definition mean (f : list Z -> Q) (m : list (list Z)) : Q :=
  (fold_right Qplus 0 (map f m) / inject_Z (Z.of_nat (length m)))%Q.
(** every outcome has [n] positions, holding bits *)
Definition bit_tuples (n : nat) (m : list (list Z)) : Prop := forall t, In t m -> length t = n /\ forall b, In b t -> (b = 0 \/ b = 1)%Z.
