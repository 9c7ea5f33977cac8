(** Gaussian integers: a ring of scalars with an imaginary unit in which examples compute. *)
From Verif Require Import Base MatModel.
Local Open Scope Z_scope.
Definition gz_mul (a b : Z * Z) : Z * Z := (fst a * fst b - snd a * snd b, fst a * snd b + snd a * fst b).
Definition GZ : cring.
Proof.
  refine {| car := Z * Z; k0 := (0, 0); k1 := (1, 0); kadd := fun a b => (fst a + fst b, snd a + snd b); kmul := gz_mul;
    ksub := fun a b => (fst a - fst b, snd a - snd b); kopp := fun a => (- fst a, - snd a); kconj := fun a => (fst a, - snd a) |}.
  - constructor; intros; repeat match goal with x : (Z * Z)%type |- _ => destruct x end; unfold gz_mul; cbn [fst snd]; f_equal; lia.
  - intros [] []; cbn; f_equal; lia.
  - intros [] []; cbn; unfold gz_mul; cbn; f_equal; lia.
  - intros []; cbn; f_equal; lia.
Defined.
Definition gi : GZ := (0, 1).
Definition gz_zero (a : GZ) : bool := Z.eqb (fst a) 0 && Z.eqb (snd a) 0.
