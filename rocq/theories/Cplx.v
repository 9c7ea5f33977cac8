(** Complex numbers as pairs of reals: the exact counterpart of Python's [complex]. *)
From Coq Require Import Reals Lra Ring.
From Verif Require Import Base MatModel.
Local Open Scope R_scope.

Definition C : Type := (R * R)%type.
Definition c0 : C := (0, 0).
Definition c1 : C := (1, 0).
(** the imaginary unit [1j] *)
Definition ci : C := (0, 1).
Definition cadd (a b : C) : C := (fst a + fst b, snd a + snd b).
Definition copp (a : C) : C := (- fst a, - snd a).
Definition csub (a b : C) : C := (fst a - fst b, snd a - snd b).
Definition cmul (a b : C) : C := (fst a * fst b - snd a * snd b, fst a * snd b + snd a * fst b).
Definition cconj (a : C) : C := (fst a, - snd a).
(** a real number as a complex one *)
Definition rc (x : R) : C := (x, 0).
(** exp(i t) *)
Definition cis (t : R) : C := (cos t, sin t).
(** squared modulus *)
Definition cabs2 (a : C) : R := fst a * fst a + snd a * snd a.

Lemma c_eq (a b : C) : fst a = fst b -> snd a = snd b -> a = b.
Proof. destruct a, b; cbn; congruence. Qed.
Ltac c_ring := apply c_eq; cbn [fst snd cadd cmul copp csub cconj c0 c1 ci rc]; ring.

Lemma C_ring : ring_theory c0 c1 cadd cmul csub copp eq.
Proof. constructor; intros; c_ring. Qed.

Definition CC : cring.
Proof.
  refine {| car := C; k0 := c0; k1 := c1; kadd := cadd; kmul := cmul; ksub := csub; kopp := copp; kconj := cconj; kth := C_ring |};
    intros; c_ring.
Defined.

Lemma cis_add a b : cis (a + b) = cmul (cis a) (cis b).
Proof. apply c_eq; cbn. - rewrite cos_plus; ring. - rewrite sin_plus; ring. Qed.
Lemma cis_0 : cis 0 = c1.
Proof. unfold cis. rewrite cos_0, sin_0. reflexivity. Qed.
Lemma cis_conj a : cconj (cis a) = cis (- a).
Proof. apply c_eq; cbn; [rewrite cos_neg|rewrite sin_neg]; reflexivity. Qed.
Lemma cis_norm a : cmul (cis a) (cis (- a)) = c1.
Proof. rewrite <- cis_add. replace (a + - a) with 0 by ring. apply cis_0. Qed.
Lemma cis_norm' a : cmul (cis (- a)) (cis a) = c1.
Proof. rewrite <- cis_add. replace (- a + a) with 0 by ring. apply cis_0. Qed.
Lemma cabs2_mul a b : cabs2 (cmul a b) = cabs2 a * cabs2 b.
Proof. unfold cabs2, cmul; cbn. ring. Qed.
Lemma cabs2_cis t : cabs2 (cis t) = 1.
Proof. unfold cabs2, cis; cbn. pose proof (sin2_cos2 t) as H. unfold Rsqr in H. lra. Qed.
Lemma cabs2_nonneg a : 0 <= cabs2 a.
Proof. unfold cabs2. pose proof (Rle_0_sqr (fst a)). pose proof (Rle_0_sqr (snd a)). unfold Rsqr in *. lra. Qed.
Lemma cconj_mul_abs a : cmul (cconj a) a = rc (cabs2 a).
Proof. unfold cabs2; apply c_eq; cbn; ring. Qed.
