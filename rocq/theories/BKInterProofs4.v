(** The Seeley-Richard-Love strings on encoded occupation states. *)
From Coq Require Import NArith Nnat Permutation Ring.
From Verif Require Import Base BaseFacts MatModel MatFacts LiftSpec LiftProofs OpModel OpSpec OpProofs PauliProofs OpProofs2 ConjProofs
  FermiModel FermiSpec FermiProofs FermiProofs2 FermiProofs3 FermiProofs4 BKProofs FermiProofs5 FermiProofs6 FermiProofs7 JWInterModel JWInterSpec JWInterProofs JWInterProofs2
  BKInterModel BKInterProofs BKInterProofs2 BKInterProofs3.
Open Scope list_scope.
Local Open Scope nat_scope.

Lemma flip_one n v i : length v = n -> i < n -> xflip (fun q => xorb (inU (N.of_nat i) (N.of_nat n) (N.of_nat q)) (i =? q)) (bk_code n v) = bk_code n (setb i (negb (nth i v false)) v).
Proof.
  intros Hv Hi. apply bits_ext; [rewrite xflip_length, !bk_code_length; auto|]. intros q Hq. rewrite xflip_length, bk_code_length in Hq.
  rewrite xflip_nth by (rewrite bk_code_length; auto). rewrite (bk_code_flip n v i (negb (nth i v false))) by auto. rewrite Bool.xorb_comm. f_equal.
  apply Bool.eq_iff_eq_true. unfold inU. destruct (Nat.eqb_spec i q) as [<-|E].
  - split; [intros _; apply covers_self; lia|intros _]. destruct (memb _ _ _) eqn:X; [|reflexivity]. apply (memb_In _ N_eqb_spec'), update_set_spec in X. lia.
  - rewrite Bool.xorb_false_r, (memb_In _ N_eqb_spec'), update_set_spec. split; [intros (_ & _ & H); auto|]. intros H. split; [lia|]. split; auto.
    unfold covers in H. apply andb_prop in H as [_ H]. apply N.leb_le in H. lia.
Qed.
Lemma xflip_xor f g e : xflip (fun q => xorb (f q) (g q)) e = xflip f (xflip g e).
Proof.
  apply bits_ext; [rewrite !xflip_length; auto|]. intros q Hq. rewrite xflip_length in Hq. rewrite !xflip_nth by (rewrite ?xflip_length; auto). destruct (f q), (g q), (nth q e false); reflexivity.
Qed.
Lemma flip_two n v i j : length v = n -> i < n -> j < n -> i <> j ->
  xflip (flipped i j n) (bk_code n v) = bk_code n (setb i (negb (nth i v false)) (setb j (negb (nth j v false)) v)).
Proof.
  intros Hv Hi Hj Hij. unfold flipped. rewrite (xflip_xor (fun q => xorb (inU (N.of_nat i) (N.of_nat n) (N.of_nat q)) (i =? q)) (fun q => xorb (inU (N.of_nat j) (N.of_nat n) (N.of_nat q)) (j =? q))).
  rewrite flip_one by auto. rewrite flip_one by (rewrite ?setb_length; auto). rewrite nth_setb_other by auto. reflexivity.
Qed.
Lemma occ_par n v i : length v = n -> i < n -> zpar (fun q => inF (N.of_nat i) (N.of_nat q)) (bk_code n v) = nth i v false.
Proof.
  intros Hv Hi. unfold inF. rewrite zpar_set; [|auto with sets|intros x Hx; rewrite bk_code_length; revert x Hx; apply bounded_occupation; auto].
  rewrite code_occupation by (auto; lia). rewrite Nat2N.id. reflexivity.
Qed.
Lemma par_par n v i : length v = n -> i < n -> zpar (fun q => inP (N.of_nat i) (N.of_nat q)) (bk_code n v) = odd_count (firstn i v).
Proof.
  intros Hv Hi. unfold inP. rewrite zpar_set; [|auto with sets|intros x Hx; rewrite bk_code_length; revert x Hx; apply bounded_parity; auto].
  rewrite code_parity by (auto; lia). unfold Pf. rewrite Nat2N.id. reflexivity.
Qed.
Lemma zpar_and b f e : zpar (fun q => b && f q) e = b && zpar f e.
Proof. destruct b; cbn [andb]; [apply zpar_ext; auto|apply zpar_none]. Qed.
Lemma sign_two n v i j a b : length v = n -> i < n -> j < n ->
  zpar (signed i j a b) (bk_code n v) = xorb (xorb (odd_count (firstn i v)) (a && nth i v false)) (xorb (odd_count (firstn j v)) (b && nth j v false)).
Proof.
  intros Hv Hi Hj. unfold signed.
  rewrite (zpar_xor (fun q => xorb (inP (N.of_nat i) (N.of_nat q)) (a && inF (N.of_nat i) (N.of_nat q))) (fun q => xorb (inP (N.of_nat j) (N.of_nat q)) (b && inF (N.of_nat j) (N.of_nat q)))).
  rewrite !zpar_xor, !zpar_and, !occ_par, !par_par by auto. reflexivity.
Qed.

Section Srl.
  Context {K : cring} (im half : K) (Him : kmul im im = kopp k1) (Hhalf : kadd half half = k1) (order : list N -> list N) (Horder : forall l, Permutation (order l) l) (n : nat).
  Add Ring Kring_srl4 : (kth K).
  Open Scope K_scope.
  Notation tact := (tact im).
  Notation code := (bk_code n).
  Notation lad2 i j := [(i, true); (j, false)].
  (** Column v of the ladder operators, written with encoded rows *)
  Definition column (t : fterm) (x v : list bool) : K :=
    if list_eqb Bool.eqb x (code (snd (FermiProofs3.fact (K := K) t v))) then fst (FermiProofs3.fact (K := K) t v) else 0.
  Lemma string_act i j c a b tk x v : i <> j -> (i < n)%nat -> (j < n)%nat -> length v = n -> string_is im half i j n c a b tk ->
    snd tk * tact (fst tk) x (code v) =
    if list_eqb Bool.eqb x (code (setb i (negb (nth i v false)) (setb j (negb (nth j v false)) v)))
    then sgn (xorb (xorb b (Nat.ltb j i)) (xorb (xorb (odd_count (firstn i v)) (a && nth i v false)) (xorb (odd_count (firstn j v)) (b && nth j v false)))) * (half * half * c) else 0.
  Proof.
    intros Hij Hi Hj Hv (Ho & Hx & Hz & Hk). unfold JWInterProofs.tact. rewrite (nf_act im Him) by (intros f Hf; rewrite bk_code_length; revert f Hf; apply Forall_forall; exact Ho).
    cbn [fst snd]. rewrite (xflip_ext _ (flipped i j n)) by auto. rewrite flip_two by auto. destruct (list_eqb _ _ _); [|ring].
    rewrite (zpar_ext _ (signed i j a b)) by auto. rewrite sign_two by auto. rewrite (sgn_xor (K := K) (xorb b (j <? i))).
    transitivity (snd tk * ipow im (phs (fst tk)) * sgn (xorb (xorb (odd_count (firstn i v)) (a && nth i v false)) (xorb (odd_count (firstn j v)) (b && nth j v false)))); [ring|]. rewrite Hk. ring.
  Qed.
  Lemma lsum_perm {X} (f : X -> K) l m : Permutation l m -> lsum f l = lsum f m.
  Proof. unfold lsum. induction 1; cbn [fold_right]; [reflexivity|rewrite IHPermutation; reflexivity|ring|congruence]. Qed.
  Notation val l x v := (lsum (fun tk : term pauli * K => snd tk * tact (fst tk) x (code v)) l).
  Lemma quarter4 (z : K) : half * half * z + half * half * z + (half * half * z + half * half * z) = z.
  Proof. transitivity ((half + half) * (half + half) * z); [ring|]. rewrite Hhalf. ring. Qed.
  Lemma srl_other i j c x v : i <> j -> (i < n)%nat -> (j < n)%nat -> length x = n -> length v = n ->
    val (seeley_richard_love im half order i j c n) x v = c * column (lad2 i j) x v.
  Proof.
    intros Hij Hi Hj Hx Hv. destruct (all_cases im half Him order Horder i j n Hij Hi Hj c) as (s0 & s1 & s2 & s3 & P & S0 & S1 & S2 & S3).
    rewrite (lsum_perm _ _ _ P). cbn [lsum fold_right].
    rewrite (string_act i j c false false s0), (string_act i j c false true s1), (string_act i j c true false s2), (string_act i j c true true s3) by auto.
    unfold column. cbn [FermiProofs3.fact]. unfold mcomp. cbn [fst snd ladder_act]. rewrite !nth_setb_other by auto. rewrite odd_count_setb by lia.
    set (Pi := odd_count (firstn i v)). set (Pj := odd_count (firstn j v)). destruct (nth i v false) eqn:Ei, (nth j v false) eqn:Ej; cbn [negb Bool.eqb andb].
    - destruct (list_eqb _ _ _), (list_eqb _ _ _), Pi, Pj, (j <? i); cbn [xorb sgn]; ring.
    - destruct (list_eqb _ _ _), (list_eqb _ _ _), Pi, Pj, (j <? i); cbn [xorb sgn]; ring.
    - transitivity (c * (if list_eqb Bool.eqb x (code (setb i true (setb j false v))) then sgn (xorb (j <? i) (xorb Pi Pj)) else 0)).
      + rewrite <- (quarter4 c) at 5. destruct (list_eqb _ _ _), Pi, Pj, (j <? i); cbn [xorb sgn]; ring.
      + f_equal. destruct (list_eqb _ _ _); [|reflexivity]. destruct Pi, Pj, (j <? i); cbn [xorb sgn]; ring.
    - destruct (list_eqb _ _ _), (list_eqb _ _ _), Pi, Pj, (j <? i); cbn [xorb sgn]; ring.
  Qed.
  (** A string of Z on a set of qubits *)
  Lemma z_string l (k : K) x v : NoDup l -> bounded n l -> length v = n ->
    k * tact (pad order Pz l) x (code v) = if list_eqb Bool.eqb x (code v) then k * sgn (zpar (fun q => memb N.eqb (N.of_nat q) l) (code v)) else 0.
  Proof.
    intros Nl Bl Hv. unfold JWInterProofs.tact. change (pad order Pz l) with (FermiProofs5.on order Pz l). rewrite (on_z im order Horder). cbn [fst snd].
    rewrite zpar_set by (auto; intros y Hy; rewrite bk_code_length; auto). destruct (list_eqb _ _ _); ring.
  Qed.
  Lemma number_column i x v : (i < n)%nat -> length v = n -> column (lad2 i i) x v = if list_eqb Bool.eqb x (code v) then (if nth i v false then 1 else 0) else 0.
  Proof.
    intros Hi Hv. unfold column. cbn [FermiProofs3.fact]. unfold mcomp. cbn [fst snd ladder_act]. rewrite nth_setb_same by lia. rewrite odd_count_setb by lia. rewrite Nat.ltb_irrefl, setb_setb.
    destruct (nth i v false) eqn:Ei; cbn [negb Bool.eqb].
    - rewrite <- Ei, setb_nth. destruct (list_eqb _ _ _); [|reflexivity]. destruct (odd_count (firstn i v)); cbn [sgn]; ring.
    - destruct (list_eqb _ _ _), (list_eqb _ _ _); ring.
  Qed.
  Lemma srl_same i c x v : (i < n)%nat -> length x = n -> length v = n ->
    val (seeley_richard_love im half order i i c n) x v = c * column (lad2 i i) x v.
  Proof.
    intros Hi Hx Hv. rewrite number_column by auto. unfold seeley_richard_love. rewrite Nat.eqb_refl. cbn [lsum fold_right fst snd].
    rewrite z_string by (auto with sets). change (fun q => memb N.eqb (N.of_nat q) (occupation_set (N.of_nat i))) with (fun q => inF (N.of_nat i) (N.of_nat q)). rewrite occ_par by auto.
    unfold JWInterProofs.tact. cbn [term_act fst snd]. destruct (list_eqb _ _ _); [|ring]. transitivity (half * half * c + half * half * c + (half * half * c + half * half * c) - (half * half * c + half * half * c) * (1 + sgn (nth i v false)) + 0).
    - destruct (nth i v false); cbn [sgn]; ring.
    - rewrite quarter4. destruct (nth i v false); cbn [sgn]; [ring|]. rewrite <- (quarter4 c) at 1. ring.
  Qed.
  Lemma srl_val i j c x v : (i < n)%nat -> (j < n)%nat -> length x = n -> length v = n ->
    val (seeley_richard_love im half order i j c n) x v = c * column (lad2 i j) x v.
  Proof. intros Hi Hj Hx Hv. destruct (Nat.eq_dec i j) as [<-|Hij]; [apply srl_same|apply srl_other]; auto. Qed.
End Srl.
