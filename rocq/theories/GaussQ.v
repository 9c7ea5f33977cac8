(** Gaussian rationals: scalars with an imaginary unit and a half in which examples compute. *)
From Coq Require Import QArith Qcanon Field.
From Verif Require Import Base MatModel.
Local Open Scope Qc_scope.
Definition gq_mul (a b : Qc * Qc) : Qc * Qc := (fst a * fst b - snd a * snd b, fst a * snd b + snd a * fst b).
Definition GQ : cring.
Proof.
  refine {| car := Qc * Qc; k0 := (0, 0); k1 := (1, 0); kadd := fun a b => (fst a + fst b, snd a + snd b); kmul := gq_mul;
    ksub := fun a b => (fst a - fst b, snd a - snd b); kopp := fun a => (- fst a, - snd a); kconj := fun a => (fst a, - snd a) |}.
  - constructor; intros; repeat match goal with x : (Qc * Qc)%type |- _ => destruct x end; unfold gq_mul; cbn [fst snd]; f_equal; ring.
  - intros [] []; cbn; f_equal; ring.
  - intros [] []; cbn; unfold gq_mul; cbn; f_equal; ring.
  - intros []; cbn; f_equal; ring.
Defined.
Definition qi : GQ := (0, 1).
Definition qhalf : GQ := (Q2Qc (1 # 2), 0).
Definition gq_zero (a : GQ) : bool := Qc_eq_bool (fst a) 0 && Qc_eq_bool (snd a) 0.
(** (x + y i) / 4 *)
Definition gq (x y : Z) : GQ := (Q2Qc (x # 4), Q2Qc (y # 4)).
Definition gq_eqb (a b : GQ) : bool := Qc_eq_bool (fst a) (fst b) && Qc_eq_bool (snd a) (snd b).
Lemma gq_zero_spec c : gq_zero c = true -> c = k0.
Proof.
  destruct c as [x y]. unfold gq_zero. cbn [fst snd]. intros H. apply andb_prop in H as [H1 H2]. apply Qc_eq_bool_correct in H1, H2. subst. reflexivity.
Qed.
Lemma qi_sq : kmul qi qi = kopp (k1 : GQ).
Proof. cbn. unfold gq_mul. cbn [fst snd qi]. f_equal; ring. Qed.
Lemma qhalf_two : kadd qhalf qhalf = (k1 : GQ).
Proof. cbn. apply pair_equal_spec. split; [apply Qc_is_canon; reflexivity|ring]. Qed.
Lemma qi_conj : kconj qi = kopp (qi : GQ).
Proof. cbn. apply pair_equal_spec. split; [ring|reflexivity]. Qed.
Lemma qhalf_not_small : gq_zero qhalf = false /\ gq_zero (kmul qhalf qi) = false /\ gq_zero (kopp (kmul qhalf qi)) = false.
Proof. repeat split. Qed.
(** comparison of operators with Gaussian rational coefficients *)
From Verif Require Import OpModel.
Definition gq_same {A} (aeqb : A -> A -> bool) (a b : sop A GQ) : bool :=
  list_eqb (fun x y => term_eqb aeqb (fst x) (fst y) && gq_eqb (snd x) (snd y)) a b.
