(** C78: molecular Hamiltonians and active spaces. *)
From Coq Require Import Ring Qcanon.
From Verif Require Import Base BaseFacts MatModel MatFacts GaussQ LiftSpec OpModel OpSpec FermiSpec SectorSpec SectorOpSpec UCCSpec TensorModel TensorSpec ConvModel DiagModel DiagSpec JWInterSpec UCCProofs5 MolModel MolSpec MolProofs MolProofs2 MolProofs4 MolProofs5 MolProofs6 MolProofs7.
Open Scope list_scope.
Local Open Scope nat_scope.

Section C78.
  Context {K : cring} (small : K -> bool) (half : K).
  Add Ring Kring_c78 : (kth K).
  Open Scope K_scope.
  Notation arr := (TensorModel.ndarray K).
  (** What get_molecular_hamiltonian returns is the electronic Hamiltonian of the integrals: any number of orbitals, any integrals, all matrix elements.  Integrals
      below the tolerance count as zero. *)
  Lemma hamiltonian_of h constant one two n : shape0 one = n -> shape0 two = n ->
    exists h' p, (let! c := spinorb_from_spatial small one two in interaction_operator h constant (fst c) {| shape0 := shape0 (snd c); data := fun i => half * data (snd c) i |}) = Ok (h', p) /\
      interaction_ok h' p /\ preserved h h' /\ n_qubits p = (2 * n)%nat /\
      forall x y, length x = (2 * n)%nat -> length y = (2 * n)%nat ->
        tensor_entry h' p x y = ent (electronic n half constant (fun p q => clipped small (data one [p; q])) (fun p q r s => clipped small (data two [p; q; r; s]))) (bval x) (bval y).
  Proof.
    intros H1 H2. destruct (spin_tensors_ok small (fun c => c) one two n H1 H2) as (A & B & E & SA & SB & IA & IB). unfold spinorb_from_spatial. rewrite E. cbn [rbind fst snd].
    destruct (interaction_ok_new small h constant A {| shape0 := shape0 B; data := fun i => half * data B i |} (2 * n) SA SB) as (p & Ep & Op & Np & Bp). rewrite Ep. do 2 eexists. split; [reflexivity|]. split; [exact Op|]. split; [apply preserved_app|]. split; [exact Np|].
    intros x y Hx Hy. destruct (read_app h A {| shape0 := shape0 B; data := fun i => half * data B i |}) as [R1 R2]. eapply (entry_electronic small); eauto.
    - intros u v a b Hu Hv Ha Hb. cbn [element]. rewrite R1. apply IA; assumption.
    - intros u v r s a b c d Hu Hv Hr Hs Ha Hb Hc Hd. cbn [element]. rewrite R2. cbn [data]. rewrite (IB u v r s a b c d) by assumption. destruct (_ && _)%bool; [reflexivity|ring].
  Qed.
  Theorem C78_hamiltonian h nuclear one two n : shape0 one = n -> shape0 two = n ->
    exists h' p, get_molecular_hamiltonian small half h nuclear one two None None = Ok (h', p) /\ interaction_ok h' p /\ preserved h h' /\ n_qubits p = (2 * n)%nat /\
      forall x y, length x = (2 * n)%nat -> length y = (2 * n)%nat ->
        tensor_entry h' p x y = ent (electronic n half nuclear (fun p q => clipped small (data one [p; q])) (fun p q r s => clipped small (data two [p; q; r; s]))) (bval x) (bval y).
  Proof. intros H1 H2. unfold get_molecular_hamiltonian. cbn [rbind fst snd]. apply hamiltonian_of; assumption. Qed.
  (** The tensors of get_tensors_from_integrals give the same operator; here it is the halves of the two-electron integrals that are compared to the tolerance. *)
  Theorem C78_tensors h constant one two n : shape0 one = n -> shape0 two = n ->
    exists A B h' p, get_tensors_from_integrals small half one two = Ok (A, B) /\ interaction_operator h constant A B = Ok (h', p) /\ interaction_ok h' p /\ n_qubits p = (2 * n)%nat /\
      (forall p q a b, (p < n)%nat -> (q < n)%nat -> (a < 2)%nat -> (b < 2)%nat -> data A [2 * p + a; 2 * q + b]%nat = if Nat.eqb a b then clipped small (data one [p; q]) else 0) /\
      (forall p q r s a b c d, (p < n)%nat -> (q < n)%nat -> (r < n)%nat -> (s < n)%nat -> (a < 2)%nat -> (b < 2)%nat -> (c < 2)%nat -> (d < 2)%nat ->
        data B [2 * p + a; 2 * q + b; 2 * r + c; 2 * s + d]%nat = if (Nat.eqb a d && Nat.eqb b c)%bool then clipped small (half * data two [p; q; r; s]) else 0) /\
      (only_zero small -> forall x y, length x = (2 * n)%nat -> length y = (2 * n)%nat ->
        tensor_entry h' p x y = ent (electronic n half constant (fun p q => data one [p; q]) (fun p q r s => data two [p; q; r; s])) (bval x) (bval y)).
  Proof.
    intros H1 H2. destruct (spin_tensors_ok small (fun c => c * half) one two n H1 H2) as (A & B & E & SA & SB & IA & IB).
    destruct (interaction_ok_new small h constant A B (2 * n) SA SB) as (p & Ep & Op & Np & Bp). exists A, B. do 2 eexists. split; [exact E|]. split; [exact Ep|]. split; [exact Op|]. split; [exact Np|].
    assert (Q : forall c, clipped small (half * c) = if small (c * half) then 0 else c * half) by (intros c; unfold clipped; replace (half * c) with (c * half) by ring; reflexivity).
    split; [exact IA|]. split; [intros; rewrite Q; apply IB; assumption|].
    intros Hz x y Hx Hy. destruct (read_app h A B) as [R1 R2]. assert (Z : forall c, (if small c then 0 else c) = c) by (intros c; destruct (small c) eqn:Ec; [symmetry; apply Hz; exact Ec|reflexivity]).
    eapply (entry_electronic small); eauto.
    - intros u v a b Hu Hv Ha Hb. cbn [element]. rewrite R1, (IA u v a b) by assumption. rewrite Z. reflexivity.
    - intros u v r s a b c d Hu Hv Hr Hs Ha Hb Hc Hd. cbn [element]. rewrite R2, (IB u v r s a b c d) by assumption. rewrite Z. destruct (_ && _)%bool; [ring|reflexivity].
  Qed.

  (** ** Active spaces *)
  (** Every state of the active orbitals stands for exactly one state of all orbitals. *)
  Theorem C78_states n occupied active b : active_space n occupied active -> length b = (2 * length active)%nat -> exists x, extends n occupied active b x /\ forall y, extends n occupied active b y -> y = x.
  Proof. intros Hs Hb. exists (ext n occupied active b). split; [apply ext_extends; assumption|]. intros y. apply extends_unique. exact Hs. Qed.
  (** The Hamiltonian with occupied and active orbitals chosen has, between any two states of the active orbitals, the matrix element of the full Hamiltonian between
      the states with the occupied orbitals filled and the others empty. *)
  Theorem C78_active h nuclear one two n occupied active : half + half = 1 -> only_zero small -> shape0 one = n -> shape0 two = n -> active_space n occupied active -> active <> [] ->
    exchange_symmetric n (fun p q r s => data two [p; q; r; s]) ->
    exists h' p, get_molecular_hamiltonian small half h nuclear one two (Some occupied) (Some active) = Ok (h', p) /\ interaction_ok h' p /\ preserved h h' /\ n_qubits p = (2 * length active)%nat /\
      forall hf f b b' x y, get_molecular_hamiltonian small half h nuclear one two None None = Ok (hf, f) -> extends n occupied active b x -> extends n occupied active b' y ->
        tensor_entry h' p b b' = tensor_entry hf f x y.
  Proof.
    intros Hh Hz H1 H2 Hs Hn Hx. destruct (active_integrals_ok one two n occupied active H1 H2 Hs Hn) as (one' & two' & E & S1 & S2 & D1 & D2).
    destruct (hamiltonian_of h (nuclear + core_energy occupied (one_of one) (two_of two)) one' two' (length active) S1 S2) as (h' & p & Ep & Op & Pp & Np & Vp).
    exists h', p. split; [unfold get_molecular_hamiltonian; rewrite E; cbn [rbind fst snd]; exact Ep|]. split; [exact Op|]. split; [exact Pp|]. split; [exact Np|].
    intros hf f b b' x y Ef Xb Xb'. destruct (C78_hamiltonian h nuclear one two n H1 H2) as (hf' & f' & Ef' & _ & _ & _ & Vf). rewrite Ef in Ef'. injection Ef' as <- <-.
    pose proof (restriction n occupied active Hs half nuclear (one_of one) (two_of two) b b' x y Hh Hx Xb Xb') as R.
    destruct Xb as (Lb & Lx & _), Xb' as (Lb' & Ly & _). rewrite Vp, Vf by assumption.
    assert (Z : forall c, clipped small c = c) by (intros c; unfold clipped; destruct (small c) eqn:Ec; [symmetry; apply Hz; exact Ec|reflexivity]).
    transitivity (ent (electronic n half nuclear (one_of one) (two_of two)) (bval x) (bval y)).
    - rewrite R. apply (electronic_ext small); [rewrite <- Lb; apply bval_lt|rewrite <- Lb'; apply bval_lt| |]; intros; rewrite Z; [apply D1; assumption|apply D2].
    - apply (electronic_ext small); [rewrite <- Lx; apply bval_lt|rewrite <- Ly; apply bval_lt| |]; intros; rewrite Z; reflexivity.
  Qed.
  (** Not giving occupied orbitals is giving none; without active orbitals there is no active space. *)
  Theorem C78_choices h nuclear one two occupied active :
    get_molecular_hamiltonian small half h nuclear one two None (Some active) = get_molecular_hamiltonian small half h nuclear one two (Some []) (Some active) /\
    get_molecular_hamiltonian small half h nuclear one two (Some occupied) None = Err TypeError /\
    get_molecular_hamiltonian small half h nuclear one two (Some occupied) (Some []) = Err ValueError /\
    get_molecular_hamiltonian small half h nuclear one two None (Some []) = Err ValueError.
  Proof. repeat split. Qed.
  (** An orbital that does not exist raises IndexError. *)
  Theorem C78_no_orbital h nuclear one two n occupied active : shape0 one = n -> shape0 two = n -> active <> [] -> (exists p, (In p occupied \/ In p active) /\ (n <= p)%nat) ->
    get_molecular_hamiltonian small half h nuclear one two (Some occupied) (Some active) = Err IndexError.
  Proof.
    intros H1 H2 Hn (p & Hp & Ln).
    assert (F : forall {S : Type} (f : S -> nat -> result S) l, (forall a s, In a l -> (exists s', f s a = Ok s') \/ f s a = Err IndexError) -> forall s, (exists s', foldM f l s = Ok s') \/ foldM f l s = Err IndexError).
    { intros T f l. induction l as [|a l IH]; intros H s; [left; eexists; reflexivity|]. cbn [foldM]. destruct (H a s (or_introl eq_refl)) as [(s' & ->)| ->]; [|right; reflexivity]. cbn [rbind]. apply IH. intros b t Hb. apply H. right. exact Hb. }
    assert (G : forall {S : Type} (f : S -> nat -> result S) l a, In a l -> (forall a s, In a l -> (exists s', f s a = Ok s') \/ f s a = Err IndexError) -> (forall s, f s a = Err IndexError) -> forall s, foldM f l s = Err IndexError).
    { intros T f l a. induction l as [|b l IH]; intros Ha Hf Hb s; [destruct Ha|]. cbn [foldM]. destruct (Hf b s (or_introl eq_refl)) as [(s' & Es)|Es]; rewrite Es; [|reflexivity]. cbn [rbind].
      destruct Ha as [->|Ha]; [rewrite Hb in Es; discriminate|]. apply IH; [exact Ha| |exact Hb]. intros c t Hc. apply Hf. right. exact Hc. }
    assert (A : forall (x : arr) i, (exists c, aget x i = Ok c) \/ aget x i = Err IndexError) by (intros x i; unfold aget; destruct (forallb _ i); [left; eexists; reflexivity|right; reflexivity]).
    assert (B : forall (x : arr) i q, In q i -> (shape0 x <= q)%nat -> aget x i = Err IndexError).
    { intros x i q Hq Hx. unfold aget. replace (forallb _ i) with false; [reflexivity|]. symmetry. apply not_true_is_false. intros Q. rewrite forallb_forall in Q. specialize (Q q Hq). apply Nat.ltb_lt in Q. lia. }
    unfold get_molecular_hamiltonian, get_active_space_integrals. destruct active as [|a0 active]; [congruence|]. set (act := a0 :: active) in *.
    set (body := fun c i => let! c0 := aget one [i; i] in foldM (fun c j => let! g1 := aget two [i; j; j; i] in let! g2 := aget two [i; j; i; j] in Ok (c + ((1 + 1) * g1 - g2))) occupied (c + (1 + 1) * c0)).
    assert (Hb : forall i s, (exists s', body s i = Ok s') \/ body s i = Err IndexError).
    { intros i s. unfold body. destruct (A one [i; i]) as [(c & ->)| ->]; [|right; reflexivity]. cbn [rbind]. apply F. intros j t _.
      destruct (A two [i; j; j; i]) as [(c1 & ->)| ->]; [|right; reflexivity]. cbn [rbind]. destruct (A two [i; j; i; j]) as [(c2 & ->)| ->]; [|right; reflexivity]. cbn [rbind]. left. eexists. reflexivity. }
    change (core_constant one two occupied) with (foldM body occupied 0).
    destruct Hp as [Hp|Hp].
    - rewrite (G K body occupied p Hp); [reflexivity|intros; apply Hb|]. intros s. unfold body. rewrite (B one [p; p] p); [reflexivity|left; reflexivity|lia].
    - destruct (F K body occupied (fun a s _ => Hb a s) 0) as [(c & ->)| ->]; [|reflexivity]. cbn [rbind].
      set (b3 := fun u v (x : arr) i => let! g1 := aget two [i; u; v; i] in let! g2 := aget two [i; u; i; v] in let! c := aget x [u; v] in Ok (assign x [u; v] (c + ((1 + 1) * g1 - g2)))).
      assert (H3 : forall u v i x, (exists x', b3 u v x i = Ok x') \/ b3 u v x i = Err IndexError).
      { intros u v i x. unfold b3. destruct (A two [i; u; v; i]) as [(c1 & ->)| ->]; [|right; reflexivity]. cbn [rbind]. destruct (A two [i; u; i; v]) as [(c2 & ->)| ->]; [|right; reflexivity]. cbn [rbind].
        destruct (A x [u; v]) as [(c3 & ->)| ->]; [|right; reflexivity]. cbn [rbind]. left. eexists. reflexivity. }
      change (dressed_one_body one two occupied act) with (foldM (fun x u => foldM (fun x v => foldM (b3 u v) occupied x) act x) act one).
      destruct (F arr (fun x u => foldM (fun x v => foldM (b3 u v) occupied x) act x) act) with (s := one) as [(x & Ex)|Ex]; [| |rewrite Ex; reflexivity].
      { intros u x _. apply F. intros v x' _. apply F. intros i x'' _. apply H3. }
      rewrite Ex. cbn [rbind]. unfold restrict at 1. destruct (forallb (fun q => q <? shape0 x) act) eqn:Q; [|reflexivity]. cbn [rbind].
      unfold restrict. replace (forallb (fun q => q <? shape0 two) act) with false; [reflexivity|]. symmetry. apply not_true_is_false. intros Q'. rewrite forallb_forall in Q'. specialize (Q' p Hp). apply Nat.ltb_lt in Q'. lia.
  Qed.

  (** ** Symmetries *)
  (** Hermitian integrals give a Hermitian operator. *)
  Theorem C78_hermitian h nuclear one two n h' p : shape0 one = n -> shape0 two = n -> kconj half = half -> kconj nuclear = nuclear -> (forall c, small (kconj c) = small c) ->
    hermitian_integrals n (fun p q => data one [p; q]) (fun p q r s => data two [p; q; r; s]) -> get_molecular_hamiltonian small half h nuclear one two None None = Ok (h', p) -> hermitian_tensor h' p.
  Proof.
    intros H1 H2 Hh Hc Hs [I1 I2] E. destruct (C78_hamiltonian h nuclear one two n H1 H2) as (h'' & p' & E' & _ & _ & Np & V). rewrite E in E'. injection E' as <- <-.
    assert (Q : forall c, kconj (clipped small c) = clipped small (kconj c)) by (intros c; unfold clipped; rewrite Hs; destruct (small c); [apply kconj_0|reflexivity]).
    intros x y Hx Hy. rewrite Np in Hx, Hy. rewrite !V by assumption. symmetry. apply (electronic_hermitian n half nuclear); auto.
    - split; intros; cbn beta; rewrite Q; [rewrite I1|rewrite I2]; auto.
    - change (bval y < 2 ^ (2 * n))%nat. rewrite <- Hy. apply bval_lt.
    - change (bval x < 2 ^ (2 * n))%nat. rewrite <- Hx. apply bval_lt.
  Qed.
  (** It commutes with the spin operators S+ and S-, and conserves the number of particles of either spin, whatever the integrals are. *)
  Theorem C78_spin h nuclear one two n h' p : shape0 one = n -> shape0 two = n -> get_molecular_hamiltonian small half h nuclear one two None None = Ok (h', p) ->
    exists H, nr H = (2 ^ (2 * n))%nat /\ nc H = (2 ^ (2 * n))%nat /\ (forall x y, length x = (2 * n)%nat -> length y = (2 * n)%nat -> ent H (bval x) (bval y) = tensor_entry h' p x y) /\
      commute H (raise_spin (2 * n)) /\ commute H (lower_spin (2 * n)).
  Proof.
    intros H1 H2 E. destruct (C78_hamiltonian h nuclear one two n H1 H2) as (h'' & p' & E' & _ & _ & _ & V). rewrite E in E'. injection E' as <- <-.
    eexists. split; [|split; [|split; [intros x y Hx Hy; symmetry; apply V; assumption|]]]; [reflexivity|reflexivity|]. apply electronic_spin.
  Qed.
  Theorem C78_particles h nuclear one two n h' p x y : shape0 one = n -> shape0 two = n -> get_molecular_hamiltonian small half h nuclear one two None None = Ok (h', p) ->
    length x = (2 * n)%nat -> length y = (2 * n)%nat -> particles_up x <> particles_up y \/ particles_down x <> particles_down y -> tensor_entry h' p x y = 0.
  Proof.
    intros H1 H2 E Hx Hy D. destruct (C78_hamiltonian h nuclear one two n H1 H2) as (h'' & p' & E' & _ & _ & _ & V). rewrite E in E'. injection E' as <- <-.
    rewrite V by assumption. destruct D as [D|D]; [apply (electronic_counts n Nat.even)|apply (electronic_counts n Nat.odd)]; auto.
  Qed.
End C78.

(** ** Cases *)
Definition c78_f (p s : nat) : GQ := gq (4 * Z.of_nat (1 + p * s)) 0.
Definition c78_one : TensorModel.ndarray GQ := {| shape0 := 3; data := fun i => gq (4 * Z.of_nat (1 + nth 0 i 0 + nth 1 i 0)) 0 |}.
Definition c78_two : TensorModel.ndarray GQ := {| shape0 := 3; data := fun i => kmul (c78_f (nth 0 i 0) (nth 3 i 0)) (c78_f (nth 1 i 0) (nth 2 i 0)) |}.
Lemma gq_only_zero : only_zero (K := GQ) gq_zero.
Proof. intros c. apply gq_zero_spec. Qed.
Lemma gq_conj_real a : kconj (gq a 0 : GQ) = gq a 0.
Proof. unfold gq. cbn [kconj GQ fst snd]. f_equal. apply Qc_is_canon. reflexivity. Qed.
Example C78_hypotheses : kadd qhalf qhalf = (k1 : GQ) /\ only_zero (K := GQ) gq_zero /\ active_space 3 [1] [0; 2] /\ exchange_symmetric (K := GQ) 3 (fun p q r s => data c78_two [p; q; r; s]) /\
  kconj (qhalf : GQ) = qhalf /\ hermitian_integrals (K := GQ) 3 (fun p q => data c78_one [p; q]) (fun p q r s => data c78_two [p; q; r; s]).
Proof.
  split; [exact qhalf_two|]. split; [exact gq_only_zero|]. split.
  { split; [repeat constructor; cbn; intuition lia|]. split; [cbn; lia|]. split; [cbn; intuition lia|]. cbn. intuition lia. }
  split; [intros p q r s _ _ _ _; cbn [data c78_two nth]; unfold kmul; cbn [GQ]; unfold gq_mul; f_equal; ring|].
  split; [cbn [kconj GQ qhalf fst snd]; unfold qhalf; f_equal; ring|].
  split.
  - intros p q _ _. cbn [data c78_one nth]. rewrite gq_conj_real. do 3 f_equal. lia.
  - intros p q r s _ _ _ _. cbn [data c78_two nth]. rewrite (kconj_mul GQ). unfold c78_f. rewrite !gq_conj_real. rewrite (Nat.mul_comm s p), (Nat.mul_comm r q). reflexivity.
Qed.
(** orbital 1 is frozen: constant 10, and the one-electron integral between the active orbitals 0 and 2 becomes 4 *)
Definition c78_active := get_active_space_integrals c78_one c78_two (Some [1]) (Some [0; 2]).
Example C78_active_case : match c78_active with
  | Ok (c, (one, two)) => gq_eqb c (gq 40 0) && gq_eqb (data one [0; 1]) (gq 16 0) && Nat.eqb (shape0 one) 2 && Nat.eqb (shape0 two) 2 && gq_eqb (data two [1; 0; 1; 1]) (gq 20 0)
  | Err _ => false end = true.
Proof. vm_compute. reflexivity. Qed.
Example C78_hamiltonian_case : match get_molecular_hamiltonian gq_zero qhalf [] (gq 4 0) c78_one c78_two (Some [1]) (Some [0; 2]) with
  | Ok (h, p) => Nat.eqb (n_qubits p) 4 && gq_eqb (value h p [] []) (gq 44 0) && gq_eqb (value h p [true; false] [1; 3]) (gq 16 0) && gq_eqb (value h p [true; false] [1; 2]) (gq 0 0) &&
      gq_eqb (value h p [true; true; false; false] [2; 1; 3; 2]) (gq 10 0) && gq_eqb (value h p [true; true; false; false] [2; 1; 2; 3]) (gq 0 0)
  | Err _ => false end = true.
Proof. vm_compute. reflexivity. Qed.
(** the same orbital listed twice is counted twice (here the constant is 4 * 3 + 4 * 4) *)
Example C78_duplicates_case : match get_active_space_integrals c78_one c78_two (Some [1; 1]) (Some [0; 2]) with Ok (c, _) => gq_eqb c (gq 112 0) | Err _ => false end = true.
Proof. vm_compute. reflexivity. Qed.
Example C78_no_orbital_case : get_molecular_hamiltonian gq_zero qhalf [] (gq 4 0) c78_one c78_two (Some [1]) (Some [0; 3]) = Err IndexError.
Proof. apply (C78_no_orbital gq_zero qhalf [] (gq 4 0) c78_one c78_two 3); try reflexivity; [discriminate|]. exists 3. cbn. lia. Qed.

Print Assumptions C78_hamiltonian.
Print Assumptions C78_tensors.
Print Assumptions C78_states.
Print Assumptions C78_active.
Print Assumptions C78_choices.
Print Assumptions C78_no_orbital.
Print Assumptions C78_hermitian.
Print Assumptions C78_spin.
Print Assumptions C78_particles.
