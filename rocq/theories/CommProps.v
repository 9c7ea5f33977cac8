(** C69: commutators. *)
From Coq Require Import Permutation Sorted Ring.
From Verif Require Import Base BaseFacts MatModel MatFacts LiftSpec LiftProofs OpModel OpSpec OpProofs PauliProofs OpProofs2 OpProps FermiModel FermiSpec FermiProofs FermiProofs2 FermiProofs3 FermiProofs6 FermiProofs7 FermiProps
  GaussZ GateMatProps CommModel CommSpec.
Open Scope list_scope.
Local Open Scope nat_scope.

Section Brackets.
  Context {K : cring} (im : K) (Him : kmul im im = kopp k1) (small : K -> bool) (n : nat).
  Add Ring Kring_c69 : (kth K).
  Open Scope K_scope.
  Notation Q := (qop_matrix im n).
  Notation F := (fop_matrix (K := K) n).
  Lemma msub_ext (A A' B B' : mat K) : nr A = nr B -> nc A = nc B -> meq A A' -> meq B B' -> meq (msub A B) (msub A' B').
  Proof. intros R C (H1 & H2 & H3) (G1 & G2 & G3). split; [cbn; auto|]. split; [cbn; auto|]. intros i j Hi Hj. cbn in *. rewrite H3, G3; auto; congruence. Qed.
  Lemma madd_ext (A A' B B' : mat K) : nr A = nr B -> nc A = nc B -> meq A A' -> meq B B' -> meq (madd A B) (madd A' B').
  Proof. intros R C (H1 & H2 & H3) (G1 & G2 & G3). split; [cbn; auto|]. split; [cbn; auto|]. intros i j Hi Hj. cbn in *. rewrite H3, G3; auto; congruence. Qed.

  Theorem C69_qubit (a b : qop K) : on_qubits n a -> on_qubits n b ->
    (exists c r : qop K, commutator_of im small (OQubit a) (OQubit b) = Ok (OQubit c) /\ all_small small r /\ (length r <= length a * length b)%nat /\ meq (madd (Q c) (Q r)) (bracket_matrix (Q a) (Q b))) /\
    (exists c r : qop K, anticommutator_of im small (OQubit a) (OQubit b) = Ok (OQubit c) /\ all_small small r /\ (length r <= length a * length b)%nat /\ meq (madd (Q c) (Q r)) (antibracket_matrix (Q a) (Q b))).
  Proof.
    intros Ha Hb. pose proof (C42_product im Him n a b Ha Hb) as P1. pose proof (C42_product im Him n b a Hb Ha) as P2.
    set (ab := op_mul pauli_eqb (qubit_simplify im) a b) in *. set (ba := op_mul pauli_eqb (qubit_simplify im) b a) in *.
    destruct (qop_matrix_shape im n ab) as [S1 S2], (qop_matrix_shape im n ba) as [S3 S4]. split.
    - destruct (C42_difference im n small ab ba) as (r & H1 & _ & Hl & H3). exists (op_sub pauli_eqb small ab ba), r. split; [reflexivity|]. split; [exact H1|]. split; [etransitivity; [exact Hl|]; rewrite Nat.mul_comm; apply mul_length|].
      etransitivity; [exact H3|]. apply msub_ext; auto; congruence.
    - destruct (C42_sum im n small ab ba) as (r & H1 & _ & Hl & H3). exists (op_add pauli_eqb small ab ba), r. split; [reflexivity|]. split; [exact H1|]. split; [etransitivity; [exact Hl|]; rewrite Nat.mul_comm; apply mul_length|].
      etransitivity; [exact H3|]. apply madd_ext; auto; congruence.
  Qed.
  Theorem C69_fermion (a b : fop K) : on_qubits n a -> on_qubits n b ->
    (exists c r : fop K, commutator_of im small (OFermion a) (OFermion b) = Ok (OFermion c) /\ all_small small r /\ (length r <= length a * length b)%nat /\ meq (madd (F c) (F r)) (bracket_matrix (F a) (F b))) /\
    (exists c r : fop K, anticommutator_of im small (OFermion a) (OFermion b) = Ok (OFermion c) /\ all_small small r /\ (length r <= length a * length b)%nat /\ meq (madd (F c) (F r)) (antibracket_matrix (F a) (F b))).
  Proof.
    intros _ _. pose proof (fop_mul_matrix n a b) as P1. pose proof (fop_mul_matrix n b a) as P2.
    set (ab := fermion_mul a b) in *. set (ba := fermion_mul b a) in *.
    destruct (fop_shape n ab) as [S1 S2], (fop_shape n ba) as [S3 S4]. split.
    - destruct (fop_sub_matrix n small ab ba) as (r & H1 & Hl & H3). exists (fermion_sub small ab ba), r. split; [reflexivity|]. split; [exact H1|]. split; [etransitivity; [exact Hl|]; rewrite Nat.mul_comm; apply mul_length|].
      etransitivity; [exact H3|]. apply msub_ext; auto; congruence.
    - destruct (fop_add_matrix n small ab ba) as (r & H1 & Hl & H3). exists (fermion_add small ab ba), r. split; [reflexivity|]. split; [exact H1|]. split; [etransitivity; [exact Hl|]; rewrite Nat.mul_comm; apply mul_length|].
      etransitivity; [exact H3|]. apply madd_ext; auto; congruence.
  Qed.
  (** Ising operators commute *)
  Theorem C69_ising (a b : isop K) (s : nat -> bool) :
    (exists c r : isop K, commutator_of im small (OIsing a) (OIsing b) = Ok (OIsing c) /\ all_small small r /\ (length r <= length a * length b)%nat /\ isop_value s c + isop_value s r = 0) /\
    (exists c r : isop K, anticommutator_of im small (OIsing a) (OIsing b) = Ok (OIsing c) /\ all_small small r /\ (length r <= length a * length b)%nat /\ 
      isop_value s c + isop_value s r = isop_value s a * isop_value s b + isop_value s a * isop_value s b).
  Proof.
    pose proof (C43_product s a b) as P1. pose proof (C43_product s b a) as P2.
    set (ab := op_mul zact_eqb ising_simplify a b) in *. set (ba := op_mul zact_eqb ising_simplify b a) in *. split.
    - destruct (merge_count zact_eqb zact_eqb_spec ksub small (- (1)) ba ab) as (r & H1 & _ & Hl & H3); [intros; ring|]. exists (op_sub zact_eqb small ab ba), r.
      split; [reflexivity|]. split; [exact H1|]. split; [etransitivity; [exact Hl|]; rewrite Nat.mul_comm; apply mul_length|]. unfold op_sub. rewrite !isop_value_lval. rewrite H3, <- !isop_value_lval, P1, P2. ring.
    - destruct (C43_sum small ab ba s) as (r & H1 & _ & Hl & H3). exists (op_add zact_eqb small ab ba), r. split; [reflexivity|]. split; [exact H1|]. split; [etransitivity; [exact Hl|]; rewrite Nat.mul_comm; apply mul_length|]. rewrite H3, P1, P2. ring.
  Qed.
  (** square arrays of one size *)
  Theorem C69_array (A B : mat K) m : nr A = m -> nc A = m -> nr B = m -> nc B = m ->
    (exists C, commutator_of im small (OArray A) (OArray B) = Ok (OArray C) /\ meq C (bracket_matrix A B)) /\
    (exists C, anticommutator_of im small (OArray A) (OArray B) = Ok (OArray C) /\ meq C (antibracket_matrix A B)).
  Proof.
    intros R1 C1 R2 C2. unfold commutator_of, anticommutator_of, bracket, np_dot. rewrite C1, C2, R1, R2, Nat.eqb_refl. cbn [rbind]. unfold np_update. cbn [nr nc mmul].
    rewrite R1, R2, C1, C2, Nat.eqb_refl. cbn [orb andb rbind].
    assert (G : forall i, i < m -> (if Nat.eqb m 1 then O else i) = i) by (intros i Hi; destruct (Nat.eqb_spec m 1); lia).
    split; (eexists; split; [reflexivity|]); (split; [cbn; auto|]; split; [cbn; congruence|]); intros i j Hi Hj; cbn [nr nc ent bracket_matrix antibracket_matrix msub madd] in *; rewrite !G by auto; reflexivity.
  Qed.
  (** Operands of different types *)
  Definition type_of (x : operand K) : nat := match x with OQubit _ => 0 | OIsing _ => 1 | OFermion _ => 2 | OArray _ => 3 end.
  Theorem C69_types (x y : operand K) : type_of x <> type_of y <-> commutator_of im small x y = Err TypeError /\ anticommutator_of im small x y = Err TypeError.
  Proof.
    split.
    - intros H. destruct x, y; try (split; reflexivity); exfalso; apply H; reflexivity.
    - intros [H _] E. destruct x as [| | |A], y as [| | |B]; try discriminate. unfold commutator_of, bracket, np_dot in H.
      destruct (Nat.eqb (nc A) (nr B)); [|discriminate]. cbn [rbind] in H. destruct (Nat.eqb (nc B) (nr A)); [|discriminate]. cbn [rbind] in H. unfold np_update in H.
      destruct (_ && _); discriminate.
  Qed.

  (** ** The double commutator *)
  Notation comm := (commutator fermion_mul (fermion_sub small)).
  Lemma fsub_on (a b : fop K) : on_qubits n a -> on_qubits n b -> on_qubits n (fermion_sub small a b).
  Proof.
    unfold fermion_sub, op_sub. rewrite !on_keys. revert a. induction b as [|[t c] b IH]; intros a Ha Hb; cbn [fold_left]; [auto|]. apply IH; [|intros u Hu; apply Hb; right; auto].
    intros u Hu. unfold merge_term in Hu. cbn [fst snd] in Hu. cbn zeta in Hu. destruct (small _).
    - apply In_dkeys_ddel, (In_dkeys_dset _ (term_eqb_spec _ bool_eqb_spec)) in Hu as [->|Hu]; [apply Hb; left; auto|apply Ha; auto].
    - apply (In_dkeys_dset _ (term_eqb_spec _ bool_eqb_spec)) in Hu as [->|Hu]; [apply Hb; left; auto|apply Ha; auto].
  Qed.
  Lemma comm_on (a b : fop K) : on_qubits n a -> on_qubits n b -> on_qubits n (comm a b).
  Proof. intros Ha Hb. apply fsub_on; apply fmul_on; auto. Qed.
  Lemma ordered_comm (a b : fop K) : on_qubits n a -> on_qubits n b ->
    exists r : fop K, all_small small r /\ (length r <= length a * length b + drop_bound (comm a b))%nat /\ meq (madd (F (normal_ordered small (comm a b))) (F r)) (bracket_matrix (F a) (F b)).
  Proof.
    intros Ha Hb. destruct (C69_fermion a b Ha Hb) as [(c & r & E & R1 & Rl & R2) _]. inversion E; subst c.
    destruct (C46_same_operator small n (comm a b) (comm_on a b Ha Hb)) as (r' & R1' & Rl' & _ & R2').
    exists (r' ++ r). split; [apply Forall_app; auto|]. split; [rewrite app_length; lia|]. etransitivity; [|exact R2].
    destruct R2' as (_ & _ & R2'). apply (meq_qop n); try (unfold bracket_matrix; cbn [nr nc madd msub mmul]; apply fop_shape). intros i j Hi Hj. cbn [ent madd] in *. rewrite (fop_ent n (r' ++ r)), lval_app, <- !fop_ent.
    fold (comm a b). rewrite <- R2' by (cbn; rewrite ?(proj1 (fop_shape _ _)), ?(proj2 (fop_shape _ _)); auto). cbn [ent]. ring.
  Qed.
  (** In general, [op1, [op2, op3]] in normal order: the inner commutator and the outer one, each up to dropped terms. *)
  Theorem C69_double (op1 op2 op3 : fop K) i2 i3 h2 h3 : on_qubits n op1 -> on_qubits n op2 -> on_qubits n op3 -> h2 && h3 = false ->
    exists d inner r1 r2 : fop K, double_commutator small op1 op2 op3 i2 i3 h2 h3 = Ok d /\ all_small small r1 /\ all_small small r2 /\ (length r1 <= length op2 * length op3 + drop_bound (comm op2 op3))%nat /\ (length r2 <= length op1 * length inner + drop_bound (comm op1 inner))%nat /\
      meq (madd (F inner) (F r1)) (bracket_matrix (F op2) (F op3)) /\ meq (madd (F d) (F r2)) (bracket_matrix (F op1) (F inner)) /\ normal_op d.
  Proof.
    intros H1 H2 H3 Hh. unfold double_commutator. rewrite Hh. destruct (ordered_comm op2 op3 H2 H3) as (r1 & A1 & Al & A2).
    set (inner := normal_ordered small (comm op2 op3)) in *.
    assert (Hi : on_qubits n inner). { intros t c Hin. destruct (normal_ordered_ok small (on_modes n) (on_modes_perm n) (on_modes_del n) (comm op2 op3) (comm_on op2 op3 H2 H3)) as [G _].
      destruct (good_In _ bool_eqb_spec _ _ _ G t c Hin) as [[_ X] _]. exact X. }
    destruct (ordered_comm op1 inner H1 Hi) as (r2 & B1 & Bl & B2). exists (normal_ordered small (comm op1 inner)), inner, r1, r2.
    split; [reflexivity|]. split; [auto|]. split; [auto|]. split; [auto|]. split; [auto|]. split; [auto|]. split; [auto|]. apply C46_normal.
  Qed.

  (** ** Hopping operators *)
  Section Car.
    Context (phi : fterm -> K) (Hphi : carf (on_modes n) phi).
    Lemma swap_ne (l : fterm) x y (r : fterm) : fst x <> fst y -> on_modes n (l ++ x :: y :: r) -> phi (l ++ x :: y :: r) = - phi (l ++ y :: x :: r).
    Proof.
      intros Hn Ho. pose proof (carf_swap _ phi Hphi l x y r Ho) as C. unfold car in C. apply Nat.eqb_neq in Hn. rewrite Hn in C. cbn [andb] in C.
      assert (G : forall a b z : K, a + b = 0 * z -> a = - b) by (intros a b z E; transitivity (a + b - b); [ring|]; rewrite E; ring). exact (G _ _ _ C).
    Qed.
    Lemma swap_ca (l : fterm) p d (r : fterm) : on_modes n (l ++ (p, d) :: (p, negb d) :: r) ->
      phi (l ++ (p, d) :: (p, negb d) :: r) = phi (l ++ r) - phi (l ++ (p, negb d) :: (p, d) :: r).
    Proof.
      intros Ho. pose proof (carf_swap _ phi Hphi l _ _ r Ho) as C. unfold car in C. cbn [fst snd] in C. rewrite Nat.eqb_refl in C. 
      assert (G : forall a b z : K, a + b = 1 * z -> a = z - b) by (intros a b z E; transitivity (a + b - b); [ring|]; rewrite E; ring). destruct d; exact (G _ _ _ C).
    Qed.
  End Car.
  Definition up (p : nat) : factor bool := (p, true).
  Definition dn (p : nat) : factor bool := (p, false).
  Lemma modes4 (x y z w : factor bool) : (fst x < n)%nat -> (fst y < n)%nat -> (fst z < n)%nat -> (fst w < n)%nat -> on_modes n [x; y; z; w].
  Proof. intros ? ? ? ? f [<-|[<-|[<-|[<-|[]]]]]; auto. Qed.
  Section Four.
    Context (phi : fterm -> K) (Hphi : carf (on_modes n) phi).
    Lemma swap0 (x y z w : factor bool) : fst x <> fst y -> on_modes n [x; y; z; w] -> phi [x; y; z; w] = - phi [y; x; z; w].
    Proof. exact (swap_ne phi Hphi [] x y [z; w]). Qed.
    Lemma swap1 (x y z w : factor bool) : fst y <> fst z -> on_modes n [x; y; z; w] -> phi [x; y; z; w] = - phi [x; z; y; w].
    Proof. exact (swap_ne phi Hphi [x] y z [w]). Qed.
    Lemma swap2 (x y z w : factor bool) : fst z <> fst w -> on_modes n [x; y; z; w] -> phi [x; y; z; w] = - phi [x; y; w; z].
    Proof. exact (swap_ne phi Hphi [x; y] z w []). Qed.
    Lemma same1 (x y w : factor bool) : on_modes n [x; y; y; w] -> phi [x; y; y; w] = 0.
    Proof. exact (carf_same _ phi Hphi [x] y [w]). Qed.
    Lemma bilinears_commute (x y z w : factor bool) : (fst x < n)%nat -> (fst y < n)%nat -> (fst z < n)%nat -> (fst w < n)%nat ->
      fst x <> fst z -> fst x <> fst w -> fst y <> fst z -> fst y <> fst w -> phi [x; y; z; w] = phi [z; w; x; y].
    Proof.
      intros Hp Hq Hr Hs N1 N2 N3 N4. rewrite (swap1 x y z w), (swap0 x z y w), (swap2 z x y w), (swap1 z x w y) by auto using modes4. ring.
    Qed.
    Lemma repeated (x y w : factor bool) : (fst x < n)%nat -> (fst y < n)%nat -> (fst w < n)%nat -> (fst x <> fst y -> phi [x; y; x; w] = 0) /\ (fst x <> fst w -> phi [y; x; w; x] = 0).
    Proof.
      intros Hp Hq Hr. split; intros N.
      - rewrite (swap0 x y x w), (same1 y x w) by auto using modes4. ring.
      - rewrite (swap2 y x w x), (same1 y x w) by auto using modes4. ring.
    Qed.
    (** [a_i^ a_s + a_s^ a_i, a_s^ a_j + a_j^ a_s] = a_i^ a_j - a_j^ a_i *)
    Lemma hopping_bracket i s j : (i < n)%nat -> (s < n)%nat -> (j < n)%nat -> i <> s -> j <> s -> i <> j ->
      phi [up i; dn s; up s; dn j] + phi [up i; dn s; up j; dn s] + phi [up s; dn i; up s; dn j] + phi [up s; dn i; up j; dn s]
      - (phi [up s; dn j; up i; dn s] + phi [up s; dn j; up s; dn i] + phi [up j; dn s; up i; dn s] + phi [up j; dn s; up s; dn i])
      = phi [up i; dn j] - phi [up j; dn i].
    Proof.
      intros Hi Hs Hj Nis Njs Nij.
      rewrite (proj1 (repeated (up s) (dn i) (dn j) Hs Hi Hj)), (proj1 (repeated (up s) (dn j) (dn i) Hs Hj Hi)) by (cbn; auto).
      rewrite (proj2 (repeated (dn s) (up i) (up j) Hs Hi Hj)), (proj2 (repeated (dn s) (up j) (up i) Hs Hj Hi)) by (cbn; auto).
      assert (T : forall p q : nat, (p < n)%nat -> (q < n)%nat -> p <> s -> q <> s -> p <> q ->
        phi [up p; dn s; up s; dn q] - phi [up s; dn q; up p; dn s] = phi [up p; dn q]).
      { intros p q Hp Hq N1 N2 N3. assert (E : phi [up p; dn s; up s; dn q] = phi [up p; dn q] - phi [up p; up s; dn s; dn q]) by (apply (swap_ca phi Hphi [up p] s false [dn q]), modes4; auto).
        rewrite E, (swap1 (up s) (dn q) (up p) (dn s)), (swap0 (up s) (up p) (dn q) (dn s)), (swap2 (up p) (up s) (dn q) (dn s)) by (first [apply modes4; auto|cbn; auto]). ring. }
      rewrite <- (T i j), <- (T j i) by auto. ring.
    Qed.
  End Four.
  Lemma term2_app (t u : fterm) i j : (i < 2 ^ n)%nat -> (j < 2 ^ n)%nat -> ent (mmul (fterm_matrix (K := K) n t) (fterm_matrix n u)) i j = ent (fterm_matrix n (t ++ u)) i j.
  Proof. intros Hi Hj. destruct (fterm_app (K := K) n t u) as (_ & _ & E). symmetry. apply E; [rewrite (proj1 (fterm_shape n _))|rewrite (proj2 (fterm_shape n _))]; auto. Qed.
  Definition hop (i j : nat) : mat K := madd (fterm_matrix n [up i; dn j]) (fterm_matrix n [up j; dn i]).
  Lemma hop_product i j k l x y : (x < 2 ^ n)%nat -> (y < 2 ^ n)%nat -> ent (mmul (hop i j) (hop k l)) x y =
    ent (fterm_matrix n [up i; dn j; up k; dn l]) x y + ent (fterm_matrix n [up i; dn j; up l; dn k]) x y
    + ent (fterm_matrix n [up j; dn i; up k; dn l]) x y + ent (fterm_matrix n [up j; dn i; up l; dn k]) x y.
  Proof.
    intros Hx Hy. change [up i; dn j; up k; dn l] with ([up i; dn j] ++ [up k; dn l]). change [up i; dn j; up l; dn k] with ([up i; dn j] ++ [up l; dn k]).
    change [up j; dn i; up k; dn l] with ([up j; dn i] ++ [up k; dn l]). change [up j; dn i; up l; dn k] with ([up j; dn i] ++ [up l; dn k]).
    rewrite <- !term2_app by auto. unfold hop. cbn [ent mmul madd nc]. rewrite !(proj2 (fterm_shape n _)). rewrite <- !bigsum_add. apply bigsum_ext. intros m Hm. ring.
  Qed.
  Lemma hopping_product (a b : fop K) i j k l c e x y : hopping n i j c a -> hopping n k l e b -> (x < 2 ^ n)%nat -> (y < 2 ^ n)%nat ->
    ent (mmul (F a) (F b)) x y = c * e * ent (mmul (hop i j) (hop k l)) x y.
  Proof.
    intros (_ & _ & _ & _ & _ & Ea) (_ & _ & _ & _ & _ & Eb) Hx Hy.
    assert (E : meq (mmul (F a) (F b)) (mmul (mscale c (hop i j)) (mscale e (hop k l)))) by (apply mmul_ext; [rewrite (proj2 (fop_shape n a)), (proj1 (fop_shape n b)); auto|exact Ea|exact Eb]).
    destruct E as (_ & _ & E). rewrite E by (cbn [nr nc mmul]; rewrite ?(proj1 (fop_shape n _)), ?(proj2 (fop_shape n _)); auto).
    cbn [ent mmul mscale nc]. rewrite bigsum_mul_l. apply bigsum_ext. intros m Hm. ring.
  Qed.
  Lemma hop_sym i j x y : ent (hop i j) x y = ent (hop j i) x y.
  Proof. unfold hop. cbn [ent madd]. ring. Qed.
  Lemma hopping_sym (a : fop K) i j c : hopping n i j c a -> hopping n j i c a.
  Proof.
    intros (H1 & H2 & H3 & H4 & H5 & H6). split; [auto|]. split; [auto|]. split; [auto|]. split; [auto|]. split; [auto|].
    etransitivity; [exact H6|]. apply mscale_ext. split; [cbn; reflexivity|]. split; [cbn; reflexivity|]. intros x y _ _. apply hop_sym.
  Qed.
  Lemma filter_two (l : list nat) (g : nat -> bool) i j : NoDup l -> (forall q, In q l <-> q = i \/ q = j) -> i <> j ->
    filter g l = (if g i then if g j then filter g l else [i] else if g j then [j] else []) /\
    (g i = true -> g j = true -> length (filter g l) = 2%nat).
  Proof.
    intros N H Hij. assert (P : Permutation l [i; j]).
    { apply NoDup_Permutation; auto; [repeat constructor; cbn; intuition|]. intros q. rewrite H. cbn [In]. intuition. }
    assert (L : length l = 2%nat) by (rewrite (Permutation_length P); reflexivity).
    destruct l as [|u [|v [|w l]]]; try discriminate. assert (Q : (u = i /\ v = j) \/ (u = j /\ v = i)).
    { inversion N as [|? ? Nu _]; subst. assert (u <> v) by (intros ->; apply Nu; left; auto). destruct (proj1 (H u)) as [->| ->]; [left; auto| |]; destruct (proj1 (H v)) as [->| ->]; cbn; auto; try congruence; tauto. }
    destruct Q as [[-> ->]|[-> ->]]; cbn [filter]; destruct (g i) eqn:Gi, (g j) eqn:Gj; cbn [filter length]; split; auto; discriminate.
  Qed.
  (** the entries of the commutator of two hopping operators *)
  Lemma hopping_commutator (a b : fop K) i s j c e x y : hopping n i s c a -> hopping n s j e b -> i <> j -> (x < 2 ^ n)%nat -> (y < 2 ^ n)%nat ->
    ent (bracket_matrix (F a) (F b)) x y = c * e * (ent (fterm_matrix n [up i; dn j]) x y - ent (fterm_matrix n [up j; dn i]) x y).
  Proof.
    intros Ha Hb Nij Hx Hy. unfold bracket_matrix. cbn [ent msub]. rewrite (hopping_product a b i s s j c e x y Ha Hb Hx Hy), (hopping_product b a s j i s e c x y Hb Ha Hx Hy).
    rewrite !hop_product by auto. destruct Ha as (N1 & L1 & L2 & _), Hb as (N2 & L3 & L4 & _).
    pose proof (hopping_bracket _ (mat_carf (K := K) n x y Hx Hy) i s j L1 L2 L4 N1 (fun E => N2 (eq_sym E)) Nij) as E. cbn beta in E. rewrite <- E. ring.
  Qed.
  Lemma hopping_disjoint (a b : fop K) i s k l c e x y : hopping n i s c a -> hopping n k l e b -> i <> k -> i <> l -> s <> k -> s <> l -> (x < 2 ^ n)%nat -> (y < 2 ^ n)%nat ->
    ent (bracket_matrix (F a) (F b)) x y = 0.
  Proof.
    intros Ha Hb N1 N2 N3 N4 Hx Hy. unfold bracket_matrix. cbn [ent msub]. rewrite (hopping_product a b i s k l c e x y Ha Hb Hx Hy), (hopping_product b a k l i s e c x y Hb Ha Hx Hy).
    rewrite !hop_product by auto. destruct Ha as (_ & L1 & L2 & _), Hb as (_ & L3 & L4 & _). pose proof (mat_carf (K := K) n x y Hx Hy) as Cf.
    pose proof (bilinears_commute _ Cf (up i) (dn s) (up k) (dn l) L1 L2 L3 L4 N1 N2 N3 N4) as E1. pose proof (bilinears_commute _ Cf (up i) (dn s) (up l) (dn k) L1 L2 L4 L3 N2 N1 N4 N3) as E2.
    pose proof (bilinears_commute _ Cf (up s) (dn i) (up k) (dn l) L2 L1 L3 L4 N3 N4 N1 N2) as E3. pose proof (bilinears_commute _ Cf (up s) (dn i) (up l) (dn k) L2 L1 L4 L3 N4 N3 N2 N1) as E4.
    cbn beta in *. rewrite E1, E2, E3, E4. ring.
  Qed.
  Lemma hopping_twice (a b : fop K) i s c e x y : hopping n i s c a -> hopping n i s e b -> (x < 2 ^ n)%nat -> (y < 2 ^ n)%nat -> ent (bracket_matrix (F a) (F b)) x y = 0.
  Proof. intros Ha Hb Hx Hy. unfold bracket_matrix. cbn [ent msub]. rewrite (hopping_product a b i s i s c e x y Ha Hb Hx Hy), (hopping_product b a i s i s e c x y Hb Ha Hx Hy). ring. Qed.
  Lemma zero_bracket (A B : mat K) : nr A = (2 ^ n)%nat -> nc A = (2 ^ n)%nat -> nr B = (2 ^ n)%nat -> nc B = (2 ^ n)%nat -> (forall x y, (x < 2 ^ n)%nat -> (y < 2 ^ n)%nat -> ent B x y = 0) ->
    meq (bracket_matrix A B) (zeros (2 ^ n) (2 ^ n)).
  Proof.
    intros R C R' C' Hz. apply (meq_qop n); auto. intros x y Hx Hy. unfold bracket_matrix. cbn [ent msub mmul zeros]. rewrite !bigsum_0; [ring| |]; intros m Hm; rewrite Hz; try congruence; ring.
  Qed.
  Lemma first_coef (a : fop K) i j c : hopping n i j c a -> first_coefficient a = Ok c.
  Proof. intros (_ & _ & _ & H & H' & _). destruct a as [|[t e] a]; [congruence|]. cbn. f_equal. apply (H' t e). left; auto. Qed.
  Lemma uniq_set i j l : index_set i j l -> NoDup (uniq Nat.eqb l) /\ forall q, In q (uniq Nat.eqb l) <-> q = i \/ q = j.
  Proof. intros H. split; [apply uniq_NoDup, nat_eqb_spec|]. intros q. rewrite (uniq_In _ nat_eqb_spec). apply H. Qed.
  (** The shortcut for hopping operators: also [op1, [op2, op3]]. *)
  Theorem C69_hopping (op1 op2 op3 : fop K) l2 l3 i2 j2 c2 i3 j3 c3 : on_qubits n op1 -> hopping n i2 j2 c2 op2 -> hopping n i3 j3 c3 op3 ->
    index_set i2 j2 l2 -> index_set i3 j3 l3 ->
    exists d inner r1 r2 : fop K, double_commutator small op1 op2 op3 (Some l2) (Some l3) true true = Ok d /\ all_small small r1 /\ all_small small r2 /\ (length r1 <= 1)%nat /\ (length r2 <= length op1 * length inner + drop_bound (comm op1 inner))%nat /\
      meq (madd (F inner) (F r1)) (bracket_matrix (F op2) (F op3)) /\ meq (madd (F d) (F r2)) (bracket_matrix (F op1) (F inner)) /\ normal_op d.
  Proof.
    intros H1 H2 H3 S2 S3.
    (* a single shared index *)
    assert (One : forall i s j l2 l3, hopping n i s c2 op2 -> hopping n s j c3 op3 -> i <> j -> index_set i s l2 -> index_set s j l3 ->
      exists d inner r1 r2 : fop K, double_commutator small op1 op2 op3 (Some l2) (Some l3) true true = Ok d /\ all_small small r1 /\ all_small small r2 /\ (length r1 <= 1)%nat /\ (length r2 <= length op1 * length inner + drop_bound (comm op1 inner))%nat /\
        meq (madd (F inner) (F r1)) (bracket_matrix (F op2) (F op3)) /\ meq (madd (F d) (F r2)) (bracket_matrix (F op1) (F inner)) /\ normal_op d).
    { clear l2 l3 S2 S3 H2 H3 i2 j2 i3 j3. intros i s j l2 l3 H2 H3 Nij S2 S3. pose proof H2 as (Nis & Li & Ls & _). pose proof H3 as (Nsj & _ & Lj & _).
      destruct (uniq_set i s l2 S2) as [U2 V2]. destruct (uniq_set s j l3 S3) as [U3 V3]. unfold double_commutator. cbn [andb].
      set (s2 := uniq Nat.eqb l2) in *. set (s3 := uniq Nat.eqb l3) in *.
      assert (M : forall q, memb Nat.eqb q s3 = true <-> In q s3) by (intros; apply (memb_In _ nat_eqb_spec)).
      assert (Mi : memb Nat.eqb i s3 = false) by (destruct (memb Nat.eqb i s3) eqn:E; auto; apply M, V3 in E; intuition congruence).
      assert (Ms : memb Nat.eqb s s3 = true) by (apply M, V3; auto).
      destruct (filter_two s2 (fun q => memb Nat.eqb q s3) i s U2 V2 Nis) as [E1 _]. cbn beta in E1. rewrite Mi, Ms in E1. rewrite E1. cbn [the_only].
      destruct (filter_two s2 (fun q => negb (Nat.eqb q s)) i s U2 V2 Nis) as [E2 _]. cbn beta in E2. rewrite Nat.eqb_refl in E2. apply Nat.eqb_neq in Nis. rewrite Nis in E2. cbn [negb] in E2. rewrite E2. cbn [the_only rbind].
      destruct (filter_two s3 (fun q => negb (Nat.eqb q s)) s j U3 V3 Nsj) as [E3 _]. cbn beta in E3. rewrite Nat.eqb_refl in E3. assert (Njs : Nat.eqb j s = false) by (apply Nat.eqb_neq; auto). rewrite Njs in E3. cbn [negb] in E3. rewrite E3. cbn [the_only rbind].
      rewrite (first_coef op2 i s c2 H2), (first_coef op3 s j c3 H3). cbn [rbind].
      set (p := fermion_op [(i, true); (j, false)] (c2 * c3)). set (q := fermion_op [(j, true); (i, false)] (- c2 * c3)).
      set (inner := fermion_add small p q).
      assert (Hi : on_qubits n inner). { apply fadd_on; intros t c [E|[]] f Hf; inversion E; subst; destruct Hf as [<-|[<-|[]]]; cbn; auto. }
      destruct (fop_add_matrix n small p q) as (r1 & R1 & Rl & R2). destruct (ordered_comm op1 inner H1 Hi) as (r2 & B1 & Bl & B2).
      exists (normal_ordered small (comm op1 inner)), inner, r1, r2. split; [reflexivity|]. split; [exact R1|]. split; [exact B1|]. split; [exact Rl|]. split; [exact Bl|]. split; [|split; [exact B2|apply C46_normal]].
      etransitivity; [exact R2|]. apply (meq_qop n); try (unfold bracket_matrix; cbn [nr nc madd msub mmul]; apply fop_shape). intros x y Hx Hy. rewrite (hopping_commutator op2 op3 i s j c2 c3 x y H2 H3 Nij Hx Hy).
      cbn [ent madd]. rewrite !fop_ent. unfold p, q. cbn [fermion_op mk_op fermion_simplify lval fst snd]. pose (X := ent (fterm_matrix (K := K) n [up i; dn j]) x y). pose (Y := ent (fterm_matrix (K := K) n [up j; dn i]) x y).
      change (c2 * c3 * X + 0 + (- c2 * c3 * Y + 0) = c2 * c3 * (X - Y)). ring. }
    (* no shared index, or both *)
    assert (Zero : (forall x y, (x < 2 ^ n)%nat -> (y < 2 ^ n)%nat -> ent (bracket_matrix (F op2) (F op3)) x y = 0) ->
      length (filter (fun i => memb Nat.eqb i (uniq Nat.eqb l3)) (uniq Nat.eqb l2)) <> 1%nat ->
      exists d inner r1 r2 : fop K, double_commutator small op1 op2 op3 (Some l2) (Some l3) true true = Ok d /\ all_small small r1 /\ all_small small r2 /\ (length r1 <= 1)%nat /\ (length r2 <= length op1 * length inner + drop_bound (comm op1 inner))%nat /\
        meq (madd (F inner) (F r1)) (bracket_matrix (F op2) (F op3)) /\ meq (madd (F d) (F r2)) (bracket_matrix (F op1) (F inner)) /\ normal_op d).
    { intros Hz Hl. exists [], [], [], []. unfold double_commutator. cbn [andb]. split.
      - destruct (filter _ _) as [|u [|v l]]; [reflexivity|exfalso; apply Hl; reflexivity|reflexivity].
      - split; [constructor|]. split; [constructor|]. split; [cbn; lia|]. split; [cbn; lia|]. split; [|split; [|intros t c []]].
        + apply (meq_qop n); try (unfold bracket_matrix; cbn [nr nc madd msub mmul]; apply fop_shape); try reflexivity. intros x y Hx Hy. rewrite Hz by auto. cbn. ring.
        + symmetry. etransitivity; [apply zero_bracket; try apply fop_shape; intros; reflexivity|]. apply (meq_qop n); try reflexivity. intros x y Hx Hy. cbn. ring. }
    destruct (uniq_set i2 j2 l2 S2) as [U2 V2]. destruct (uniq_set i3 j3 l3 S3) as [U3 V3]. pose proof H2 as (N2 & _). pose proof H3 as (N3 & _).
    assert (M : forall q, memb Nat.eqb q (uniq Nat.eqb l3) = Nat.eqb q i3 || Nat.eqb q j3).
    { intros q. apply eq_true_iff_eq. rewrite orb_true_iff, !Nat.eqb_eq, <- V3. apply (memb_In _ nat_eqb_spec). }
    assert (Sw : forall a b l, index_set a b l -> index_set b a l) by (intros a b l H q; rewrite (H q); tauto).
    pose proof (hopping_sym op2 i2 j2 c2 H2) as H2'. pose proof (hopping_sym op3 i3 j3 c3 H3) as H3'.
    destruct (filter_two _ (fun q => memb Nat.eqb q (uniq Nat.eqb l3)) i2 j2 U2 V2 N2) as [E1 E2]. cbn beta in E1, E2. rewrite !M in E1, E2.
    destruct (Nat.eq_dec i2 i3) as [A1|A1], (Nat.eq_dec i2 j3) as [A2|A2], (Nat.eq_dec j2 i3) as [A3|A3], (Nat.eq_dec j2 j3) as [A4|A4]; try congruence.
    - apply Zero; [|rewrite E2 by (rewrite ?A1, ?A4, !Nat.eqb_refl, ?orb_true_r; auto); discriminate]. intros x y Hx Hy. subst. apply (hopping_twice op2 op3 i3 j3 c2 c3); auto.
    - subst i3. apply (One j2 i2 j3 l2 l3); auto.
    - apply Zero; [|rewrite E2 by (rewrite ?A2, ?A3, !Nat.eqb_refl, ?orb_true_r; auto); discriminate]. intros x y Hx Hy. subst. apply (hopping_twice op2 op3 j3 i3 c2 c3); auto.
    - subst j3. apply (One j2 i2 i3 l2 l3); auto.
    - subst i3. apply (One i2 j2 j3 l2 l3); auto.
    - subst j3. apply (One i2 j2 i3 l2 l3); auto.
    - apply Zero; [intros x y Hx Hy; apply (hopping_disjoint op2 op3 i2 j2 i3 j3 c2 c3); auto|].
      apply Nat.eqb_neq in A1, A2, A3, A4. rewrite A1, A2, A3, A4 in E1. cbn [orb] in E1. rewrite E1. discriminate.
  Qed.
  (** Both ways, exactly, when sums only drop zeros. *)
  Theorem C69_double_exact (op1 op2 op3 : fop K) (d : fop K) (l2 l3 : option (list nat)) (h2 h3 : bool) : only_zero small -> on_qubits n op1 -> on_qubits n op2 -> on_qubits n op3 ->
    (h2 && h3 = true -> exists i2 j2 c2 i3 j3 c3 m2 m3, hopping n i2 j2 c2 op2 /\ hopping n i3 j3 c3 op3 /\ l2 = Some m2 /\ l3 = Some m3 /\ index_set i2 j2 m2 /\ index_set i3 j3 m3) ->
    double_commutator small op1 op2 op3 l2 l3 h2 h3 = Ok d -> meq (F d) (bracket_matrix (F op1) (bracket_matrix (F op2) (F op3))).
  Proof.
    intros Hz H1 H2 H3 Hh E.
    assert (G : exists d' inner r1 r2 : fop K, double_commutator small op1 op2 op3 l2 l3 h2 h3 = Ok d' /\ all_small small r1 /\ all_small small r2 /\
      meq (madd (F inner) (F r1)) (bracket_matrix (F op2) (F op3)) /\ meq (madd (F d') (F r2)) (bracket_matrix (F op1) (F inner)) /\ normal_op d').
    { destruct (h2 && h3) eqn:Eh; [|destruct (C69_double op1 op2 op3 l2 l3 h2 h3 H1 H2 H3 Eh) as (d' & inner & r1 & r2 & X1 & X2 & X3 & _ & _ & X4); exists d', inner, r1, r2; auto]. destruct (Hh eq_refl) as (i2 & j2 & c2 & i3 & j3 & c3 & m2 & m3 & A1 & A2 & -> & -> & A3 & A4).
      apply andb_true_iff in Eh as [-> ->]. destruct (C69_hopping op1 op2 op3 m2 m3 i2 j2 c2 i3 j3 c3 H1 A1 A2 A3 A4) as (d' & inner & r1 & r2 & X1 & X2 & X3 & _ & _ & X4). exists d', inner, r1, r2. auto. }
    destruct G as (d' & inner & r1 & r2 & E' & R1 & R2 & M1 & M2 & _). rewrite E in E'. inversion E'; subst d'.
    pose proof (fop_exact small n _ _ r1 R1 Hz (proj1 (fop_shape n inner)) (proj2 (fop_shape n inner)) M1) as M1'.
    pose proof (fop_exact small n _ _ r2 R2 Hz (proj1 (fop_shape n d)) (proj2 (fop_shape n d)) M2) as M2'.
    etransitivity; [exact M2'|]. pose proof M1' as (S1 & S2 & _). unfold bracket_matrix at 1 2. destruct (fop_shape n op1) as [T1 T2], (fop_shape n inner) as [T3 T4].
    apply msub_ext; [cbn; congruence|cbn; congruence| |]; apply mmul_ext; try reflexivity; auto; congruence.
  Qed.
End Brackets.

(** ** Cases *)
Section Terms.
Context {K : cring}.
Add Ring Kring_c69e : (kth K).
Lemma hopping_terms n i j (c : K) : i <> j -> i < n -> j < n -> hopping n i j c [([(i, true); (j, false)], c); ([(j, true); (i, false)], c)].
Proof.
  intros N Hi Hj. split; [auto|]. split; [auto|]. split; [auto|]. split; [discriminate|]. split.
  - intros t e [E|[E|[]]]; inversion E; auto.
  - apply (meq_qop n); try (cbn; reflexivity). intros x y _ _. cbn [fop_matrix fold_right ent madd mscale zeros fst snd]. ring.
Qed.
End Terms.
Definition gr (z : Z) : GZ := (z, 0%Z).
Definition hop_op (i j : nat) (c d : GZ) : fop GZ := [([(i, true); (j, false)], c); ([(j, true); (i, false)], d)].
Definition number_op : fop GZ := [([(0, true); (0, false)], gr 1)].
Example C69_ex_hypotheses : only_zero gz_zero /\ hopping 3 0 1 (gr 2) (hop_op 0 1 (gr 2) (gr 2)) /\ hopping 3 1 2 (gr 3) (hop_op 1 2 (gr 3) (gr 3)) /\
  index_set 0 1 [1; 0; 1] /\ index_set 1 2 [1; 2] /\ on_qubits 3 number_op.
Proof.
  split. { intros [a b] H. unfold gz_zero in H. apply andb_true_iff in H as [H1 H2]. apply Z.eqb_eq in H1, H2. cbn in H1, H2. subst. reflexivity. }
  split; [apply hopping_terms; lia|]. split; [apply hopping_terms; lia|]. split; [intros q; cbn; intuition|]. split; [intros q; cbn; intuition|].
  intros t c [E|[]] f Hf. inversion E; subst. destruct Hf as [<-|[<-|[]]]; cbn; lia.
Qed.
Example C69_ex_value : double_commutator gz_zero number_op (hop_op 0 1 (gr 2) (gr 2)) (hop_op 1 2 (gr 3) (gr 3)) (Some [1; 0; 1]) (Some [1; 2]) true true =
  Ok [([(0, true); (2, false)], gr 6); ([(2, true); (0, false)], gr 6)] /\
  double_commutator gz_zero number_op (hop_op 0 1 (gr 2) (gr 2)) (hop_op 1 2 (gr 3) (gr 3)) None None false true =
  Ok [([(0, true); (2, false)], gr 6); ([(2, true); (0, false)], gr 6)].
Proof. split; vm_compute; reflexivity. Qed.
(** A hopping operator with a complex amplitude, i a_0^ a_1 - i a_1^ a_0: the shortcut reads one coefficient only and has the wrong sign in one term. *)
Theorem C69_complex_hopping_refuted : exists op1 op2 op3 : fop GZ,
  op2 = hop_op 0 1 (0%Z, 1%Z) (0%Z, (-1)%Z) /\ on_qubits 3 op2 /\
  exists d d', double_commutator gz_zero op1 op2 op3 (Some [0; 1]) (Some [1; 2]) true true = Ok d /\
    double_commutator gz_zero op1 op2 op3 None None false false = Ok d' /\
    ent (fop_matrix 3 d) 1 4 <> ent (fop_matrix 3 d') 1 4.
Proof.
  exists number_op, (hop_op 0 1 (0%Z, 1%Z) (0%Z, (-1)%Z)), (hop_op 1 2 (gr 1) (gr 1)). split; [reflexivity|]. split.
  - intros t c [E|[E|[]]] f Hf; inversion E; subst; destruct Hf as [<-|[<-|[]]]; cbn; lia.
  - exists [([(0, true); (2, false)], (0%Z, 1%Z)); ([(2, true); (0, false)], (0%Z, 1%Z))], [([(0, true); (2, false)], (0%Z, 1%Z)); ([(2, true); (0, false)], (0%Z, (-1)%Z))].
    split; [vm_compute; reflexivity|]. split; [vm_compute; reflexivity|]. vm_compute. discriminate.
Qed.
(** A column and a row: the products have different shapes, and the difference is broadcast instead of refused. *)
Theorem C69_broadcast_refuted : exists (A B C : mat ZR), nr A = 2 /\ nc A = 1 /\ nr B = 1 /\ nc B = 2 /\
  commutator_of (K := ZR) 0%Z (Z.eqb 0) (OArray A) (OArray B) = Ok (OArray C) /\ nr C = 2 /\ ent C 0 1 = (-1)%Z /\ ent (mmul A B) 0 1 = 1%Z.
Proof.
  exists (Build_mat (K := ZR) 2 1 (fun _ _ => 1%Z)), (Build_mat (K := ZR) 1 2 (fun _ _ => 1%Z)).
  eexists. split; [reflexivity|]. split; [reflexivity|]. split; [reflexivity|]. split; [reflexivity|]. split; [reflexivity|]. split; [reflexivity|]. split; vm_compute; reflexivity.
Qed.
Print Assumptions C69_qubit.
Print Assumptions C69_double_exact.
Print Assumptions C69_hopping.
