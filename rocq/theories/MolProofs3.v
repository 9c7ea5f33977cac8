(** Proofs for C78: operators between the states of an active space. *)
From Coq Require Import Ring Setoid Morphisms Ncring Ncring_tac.
From Verif Require Import Base BaseFacts MatModel MatFacts LiftSpec LiftProofs OpModel OpSpec OpProofs OpProofs2 PauliProofs FermiModel FermiSpec FermiProofs FermiProofs2 FermiProofs6 UCCSpec MatRing UCCProofs MolSpec MolProofs.
Open Scope list_scope.
Local Open Scope nat_scope.

Section L.
  Context {K : cring} (N : nat).
  Add Ring Kring_mol3a : (kth K).
  Open Scope K_scope.
  Lemma mul_lad (A : sqm K (2 ^ N)) p d i c : (p < N)%nat -> length c = N ->
    sq_mul (2 ^ N) A (lad N p d) i (bval c) = A i (bval (setb p d c)) * (if Bool.eqb (nth p c false) (negb d) then sgn (odd_count (firstn p c)) else 0).
  Proof.
    intros Hp Hc. pose proof (mmul_mono_r (K := K) N (Build_mat (2 ^ N) (2 ^ N) A) (ladder_act (p, d)) i c eq_refl Hc) as E. cbn [ladder_act fst snd ent] in E. rewrite setb_length in E. specialize (E Hc). rewrite <- E.
    unfold sq_mul. cbn [ent mmul nc]. apply bigsum_ext. intros k Hk. f_equal. destruct (ladder_mono (K := K) N (p, d) Hp) as (_ & _ & Q). apply Q; [exact Hk|]. cbn. rewrite <- Hc. apply bval_lt.
  Qed.
  Lemma lad_mul_zero (A : sqm K (2 ^ N)) p d b j : (p < N)%nat -> length b = N -> nth p b false = negb d -> sq_mul (2 ^ N) (lad N p d) A (bval b) j = 0.
  Proof.
    intros Hp Hb H. unfold sq_mul. apply bigsum_0. intros k Hk. unfold lad. cbn [ent ladder_matrix fst snd]. rewrite (bits_bval_n N b Hb), H. rewrite Bool.eqb_negb1, andb_false_r. cbn [andb]. ring.
  Qed.
End L.

Section P.
  Context {K : cring} (n : nat) (occ act : list nat) (Hs : active_space n occ act).
  Add Ring Kring_mol3 : (kth K).
  Notation NN := (2 * n).
  Notation MM := (2 * length act).
  Declare Scope sm_scope.
  Delimit Scope sm_scope with sm.
  Local Notation "A '==' B" := (sq_eq (K := K) (Nat.pow 2 NN) A B) (at level 70, no associativity) : sq_scope.
  Local Notation "A '+' B" := (sq_add (K := K) (Nat.pow 2 NN) A B) : sq_scope.
  Local Notation "A '-' B" := (sq_sub (K := K) (Nat.pow 2 NN) A B) : sq_scope.
  Local Notation "A '*' B" := (sq_mul (K := K) (Nat.pow 2 NN) A B) : sq_scope.
  Local Notation "'-' A" := (sq_opp (K := K) (Nat.pow 2 NN) A) : sq_scope.
  Local Notation "0" := (sq0 (K := K) (Nat.pow 2 NN)) : sq_scope.
  Local Notation "1" := (sq1 (K := K) (Nat.pow 2 NN)) : sq_scope.
  Local Notation "A '==' B" := (sq_eq (K := K) (Nat.pow 2 MM) A B) (at level 70, no associativity) : sm_scope.
  Local Notation "A '+' B" := (sq_add (K := K) (Nat.pow 2 MM) A B) : sm_scope.
  Local Notation "A '-' B" := (sq_sub (K := K) (Nat.pow 2 MM) A B) : sm_scope.
  Local Notation "A '*' B" := (sq_mul (K := K) (Nat.pow 2 MM) A B) : sm_scope.
  Local Notation "'-' A" := (sq_opp (K := K) (Nat.pow 2 MM) A) : sm_scope.
  Local Notation "0" := (sq0 (K := K) (Nat.pow 2 MM)) : sm_scope.
  Local Notation "1" := (sq1 (K := K) (Nat.pow 2 MM)) : sm_scope.
  Notation big := (sqm K (Nat.pow 2 NN)).
  Notation little := (sqm K (Nat.pow 2 MM)).
  Notation ex := (ext n occ act).
  Definition proj (A : big) : little := fun i j => A (bval (ex (bits MM i))) (bval (ex (bits MM j))).
  Lemma ex_lt b : bval (ex b) < 2 ^ NN.
  Proof. rewrite <- (ext_length n occ act b). apply bval_lt. Qed.
  Global Instance proj_proper : Proper (sq_eq (2 ^ NN) ==> sq_eq (2 ^ MM)) proj.
  Proof. intros A B H i j Hi Hj. apply H; apply ex_lt. Qed.
  Lemma proj_add A B : (proj (A + B)%sq == proj A + proj B)%sm.
  Proof. intros i j _ _. reflexivity. Qed.
  Lemma proj_sub A B : (proj (A - B)%sq == proj A - proj B)%sm.
  Proof. intros i j _ _. reflexivity. Qed.
  Lemma proj_opp A : (proj (- A)%sq == - proj A)%sm.
  Proof. intros i j _ _. reflexivity. Qed.
  Lemma proj_zero : (proj 0%sq == 0)%sm.
  Proof. intros i j _ _. reflexivity. Qed.
  Lemma proj_one : (proj 1%sq == 1)%sm.
  Proof.
    intros i j Hi Hj. unfold proj, sq1. destruct (Nat.eqb_spec i j) as [->|Ne]; [rewrite Nat.eqb_refl; reflexivity|].
    destruct (Nat.eqb_spec (bval (ex (bits MM i))) (bval (ex (bits MM j)))) as [E|_]; [|reflexivity]. exfalso. apply Ne.
    apply bval_inj in E; [|rewrite !ext_length; reflexivity]. rewrite <- (bval_bits_small MM i), <- (bval_bits_small MM j) by auto. f_equal. apply bits_ext; [rewrite !bits_length; reflexivity|]. rewrite bits_length.
    intros m Hm. destruct (half_of (length act) m Hm) as (k & s & -> & Hk & Hs2). rewrite <- (ext_active n occ act Hs _ k s), <- (ext_active n occ act Hs (bits MM j) k s) by auto. rewrite E. reflexivity.
  Qed.
  Notation LN p d := (lad (K := K) NN p d).
  Notation LM p d := (lad (K := K) MM p d).
  Lemma act_lt k s : k < length act -> s < 2 -> 2 * nth k act 0 + s < NN.
  Proof. intros Hk H2. destruct Hs as (_ & _ & _ & Hr). specialize (Hr (nth k act 0) (or_intror (nth_In act 0 Hk))). lia. Qed.
  Lemma occ_lt p s : In p occ -> s < 2 -> 2 * p + s < NN.
  Proof. intros Hp H2. destruct Hs as (_ & _ & _ & Hr). specialize (Hr p (or_introl Hp)). lia. Qed.
  Lemma proj_active A k s d : k < length act -> s < 2 -> (proj (A * LN (2 * nth k act 0 + s)%nat d)%sq == proj A * LM (2 * k + s)%nat d)%sm.
  Proof.
    intros Hk H2 i j Hi Hj. pose proof (mul_lad (K := K) MM (proj A) (2 * k + s) d i (bits MM j) ltac:(lia) (bits_length _ _)) as E. rewrite (bval_bits_small MM j Hj) in E. rewrite E. clear E.
    unfold proj at 1. rewrite mul_lad by (auto using act_lt, ext_length). rewrite (ext_set n occ act Hs) by (auto using bits_length). unfold proj. rewrite (bits_bval_n MM (setb _ _ _)) by (rewrite setb_length; apply bits_length).
    f_equal. rewrite (ext_active n occ act Hs), (ext_parity n occ act Hs) by auto. reflexivity.
  Qed.
  Lemma proj_core_r A p s : In p occ -> s < 2 -> (proj (A * LN (2 * p + s)%nat true)%sq == 0)%sm.
  Proof. intros Hp H2 i j Hi Hj. unfold proj. rewrite mul_lad by (auto using occ_lt, ext_length). rewrite (ext_core n occ act Hs) by auto. cbn [Bool.eqb negb]. unfold sq0. ring. Qed.
  Lemma proj_core_l A p s : In p occ -> s < 2 -> (proj (LN (2 * p + s)%nat false * A)%sq == 0)%sm.
  Proof. intros Hp H2 i j Hi Hj. unfold proj. apply lad_mul_zero; [auto using occ_lt|apply ext_length|]. apply (ext_core n occ act Hs); auto. Qed.
  Notation other p := (~ In p occ /\ ~ In p act).
  Lemma proj_other_r A p s : p < n -> other p -> s < 2 -> (proj (A * LN (2 * p + s)%nat false)%sq == 0)%sm.
  Proof. intros Hp [H1 H3] H2 i j Hi Hj. unfold proj. rewrite mul_lad by (auto using ext_length; lia). rewrite (ext_other n occ act) by auto. cbn [Bool.eqb negb]. unfold sq0. ring. Qed.
  Lemma proj_other_l A p s : p < n -> other p -> s < 2 -> (proj (LN (2 * p + s)%nat true * A)%sq == 0)%sm.
  Proof. intros Hp [H1 H3] H2 i j Hi Hj. unfold proj. apply lad_mul_zero; [lia|apply ext_length|]. apply ext_other; auto. Qed.

  (** ** One electron *)
  Definition cr p s : big := LN (2 * p + s)%nat true.
  Definition an p s : big := LN (2 * p + s)%nat false.
  Lemma anti_cc p q s t : p < n -> q < n -> s < 2 -> t < 2 -> (cr p s * cr q t == - (cr q t * cr p s))%sq.
  Proof.
    intros. pose proof (lad_car (K := K) NN (2 * p + s) (2 * q + t) true true ltac:(lia) ltac:(lia)) as E. cbn [negb Bool.eqb] in E. fold (cr p s) (cr q t) in E.
    transitivity ((cr p s * cr q t + cr q t * cr p s) - cr q t * cr p s)%sq; [non_commutative_ring|]. rewrite E. non_commutative_ring.
  Qed.
  Lemma anti_aa p q s t : p < n -> q < n -> s < 2 -> t < 2 -> (an p s * an q t == - (an q t * an p s))%sq.
  Proof.
    intros. pose proof (lad_car (K := K) NN (2 * p + s) (2 * q + t) false false ltac:(lia) ltac:(lia)) as E. cbn [negb Bool.eqb] in E. fold (an p s) (an q t) in E.
    transitivity ((an p s * an q t + an q t * an p s) - an q t * an p s)%sq; [non_commutative_ring|]. rewrite E. non_commutative_ring.
  Qed.
  Definition del p s q t : big := if (Nat.eqb p q && Nat.eqb s t)%bool then 1%sq else 0%sq.
  Lemma anti_ca p q s t : p < n -> q < n -> s < 2 -> t < 2 -> (cr p s * an q t == del p s q t - an q t * cr p s)%sq.
  Proof.
    intros. pose proof (lad_car (K := K) NN (2 * p + s) (2 * q + t) true false ltac:(lia) ltac:(lia)) as E. cbn [negb Bool.eqb] in E. fold (cr p s) (an q t) in E.
    transitivity ((cr p s * an q t + an q t * cr p s) - an q t * cr p s)%sq; [non_commutative_ring|]. rewrite E.
    replace (delta (K := K) NN (2 * p + s) (2 * q + t)) with (del p s q t); [reflexivity|]. unfold del, delta.
    destruct (Nat.eqb_spec (2 * p + s) (2 * q + t)) as [E1|N1]; destruct (Nat.eqb_spec p q), (Nat.eqb_spec s t); cbn [andb]; try reflexivity; exfalso; lia.
  Qed.
  Lemma del_ne p s q t : p <> q -> (del p s q t == 0)%sq.
  Proof. intros H. unfold del. replace (Nat.eqb p q) with false by (symmetry; apply Nat.eqb_neq; exact H). reflexivity. Qed.
  Lemma occ_ob p : In p occ -> p < n. Proof. intros H. apply Hs. auto. Qed.
  Lemma act_ob p : In p act -> p < n. Proof. intros H. apply Hs. auto. Qed.
  Lemma occ_act p q : In p occ -> In q act -> p <> q. Proof. intros H1 H2 ->. destruct Hs as (_ & _ & Hd & _). apply (Hd q); auto. Qed.
  Lemma one_core p s q t : In p occ -> q < n -> s < 2 -> t < 2 -> (proj (cr p s * an q t)%sq == proj (del p s q t))%sm.
  Proof. intros Hp Hq H1 H2. rewrite anti_ca by (auto using occ_ob). rewrite proj_sub. unfold cr at 1. rewrite proj_core_r by auto. non_commutative_ring. Qed.
  Lemma one_act_core p s q t : In p act -> In q occ -> s < 2 -> t < 2 -> (proj (cr p s * an q t)%sq == 0)%sm.
  Proof.
    intros Hp Hq H1 H2. rewrite anti_ca by (auto using occ_ob, act_ob). rewrite del_ne by (intros E; symmetry in E; revert E; apply occ_act; auto). rewrite proj_sub, proj_zero. unfold an at 1. rewrite proj_core_l by auto. non_commutative_ring.
  Qed.
  Lemma one_act k s l t : k < length act -> l < length act -> s < 2 -> t < 2 -> (proj (cr (nth k act 0%nat) s * an (nth l act 0%nat) t)%sq == LM (2 * k + s)%nat true * LM (2 * l + t)%nat false)%sm.
  Proof.
    intros. unfold an. rewrite proj_active by auto. transitivity (proj (1 * cr (nth k act 0%nat) s)%sq * LM (2 * l + t)%nat false)%sm.
    - assert (E : (cr (nth k act 0%nat) s == 1 * cr (nth k act 0%nat) s)%sq) by non_commutative_ring. rewrite <- E. reflexivity.
    - unfold cr. rewrite proj_active by auto. rewrite proj_one. non_commutative_ring.
  Qed.
  Lemma one_other p s q t : p < n -> q < n -> s < 2 -> t < 2 -> other p \/ other q -> (proj (cr p s * an q t)%sq == 0)%sm.
  Proof. intros Hp Hq H1 H2 [H|H]; [unfold cr; apply proj_other_l|unfold an; apply proj_other_r]; auto. Qed.

  (** ** Two electrons *)
  Definition qd p a q b r c s d : big := (cr p a * cr q b * an r c * an s d)%sq.
  Lemma qd_swap p a q b r c s d : p < n -> q < n -> r < n -> s < n -> a < 2 -> b < 2 -> c < 2 -> d < 2 -> (qd p a q b r c s d == qd q b p a s d r c)%sq.
  Proof.
    intros. unfold qd. rewrite (anti_cc p q) by auto. transitivity (- (cr q b * cr p a) * (an r c * an s d))%sq; [non_commutative_ring|]. rewrite (anti_aa r s) by auto. non_commutative_ring.
  Qed.
  Lemma two_core p a q b r c s d : In p occ -> q < n -> r < n -> s < n -> a < 2 -> b < 2 -> c < 2 -> d < 2 ->
    (proj (qd p a q b r c s d) == proj (del p a s d * (cr q b * an r c))%sq - proj (del p a r c * (cr q b * an s d))%sq)%sm.
  Proof.
    intros Hp Hq Hr Hs' H1 H2 H3 H4. pose proof (occ_ob p Hp) as Op. unfold qd.
    assert (E : (cr p a * cr q b * an r c * an s d == del p a s d * (cr q b * an r c) - del p a r c * (cr q b * an s d) - cr q b * an r c * an s d * cr p a)%sq).
    { rewrite (anti_cc p q) by auto. transitivity (- (cr q b * (cr p a * an r c) * an s d))%sq; [non_commutative_ring|]. rewrite (anti_ca p r) by auto.
      transitivity (cr q b * an r c * (cr p a * an s d) - cr q b * del p a r c * an s d)%sq; [non_commutative_ring|]. rewrite (anti_ca p s) by auto.
      unfold del. destruct (Nat.eqb p s && Nat.eqb a d)%bool, (Nat.eqb p r && Nat.eqb a c)%bool; non_commutative_ring. }
    rewrite E, !proj_sub. unfold cr at 4. rewrite proj_core_r by auto. non_commutative_ring.
  Qed.
  Lemma two_act_core p a q b r c s d : In p act -> In q act -> r < n -> s < n -> a < 2 -> b < 2 -> c < 2 -> d < 2 -> In r occ \/ In s occ -> (proj (qd p a q b r c s d) == 0)%sm.
  Proof.
    intros Hp Hq Hr Hs' H1 H2 H3 H4 H. assert (G : forall r c s d, In r occ -> s < n -> c < 2 -> d < 2 -> (proj (qd p a q b r c s d) == 0)%sm).
    { clear r c s d Hr Hs' H3 H4 H. intros r c s d Hr Hs' H3 H4. unfold qd. pose proof (occ_ob r Hr). pose proof (act_ob p Hp). pose proof (act_ob q Hq).
      assert (E : (cr p a * cr q b * an r c * an s d == an r c * (cr p a * cr q b * an s d))%sq).
      { transitivity (cr p a * (cr q b * an r c) * an s d)%sq; [non_commutative_ring|]. rewrite (anti_ca q r) by auto. rewrite (del_ne q b r c) by (intros ->; apply (occ_act r r); auto).
        transitivity (- (cr p a * an r c) * (cr q b * an s d))%sq; [non_commutative_ring|]. rewrite (anti_ca p r) by auto. rewrite (del_ne p a r c) by (intros ->; apply (occ_act r r); auto). non_commutative_ring. }
      rewrite E. unfold an at 1. apply proj_core_l; auto. }
    destruct H as [H|H]; [apply G; auto|]. assert (E : (qd p a q b r c s d == - qd p a q b s d r c)%sq).
    { unfold qd. transitivity (cr p a * cr q b * (an r c * an s d))%sq; [non_commutative_ring|]. rewrite (anti_aa r s) by auto. non_commutative_ring. }
    rewrite E, proj_opp, G by auto. non_commutative_ring.
  Qed.
  Lemma two_other p a q b r c s d : p < n -> q < n -> r < n -> s < n -> a < 2 -> b < 2 -> c < 2 -> d < 2 -> other p \/ other q \/ other r \/ other s -> (proj (qd p a q b r c s d) == 0)%sm.
  Proof.
    intros Hp Hq Hr Hs' H1 H2 H3 H4 H.
    assert (G1 : forall p a q b r c s d, p < n -> a < 2 -> other p -> (proj (qd p a q b r c s d) == 0)%sm).
    { clear. intros p a q b r c s d Hp Ha H. unfold qd. assert (E : (cr p a * cr q b * an r c * an s d == cr p a * (cr q b * an r c * an s d))%sq) by non_commutative_ring. rewrite E. unfold cr at 1. apply proj_other_l; auto. }
    assert (G2 : forall p a q b r c s d, s < n -> d < 2 -> other s -> (proj (qd p a q b r c s d) == 0)%sm).
    { clear. intros p a q b r c s d Hp Ha H. unfold qd. unfold an at 2. apply proj_other_r; auto. }
    destruct H as [H|[H|[H|H]]]; [apply G1; auto| | |apply G2; auto]; rewrite qd_swap by auto; [apply G1|apply G2]; auto.
  Qed.
  Lemma two_act i a j b k c l d : i < length act -> j < length act -> k < length act -> l < length act -> a < 2 -> b < 2 -> c < 2 -> d < 2 ->
    (proj (qd (nth i act 0%nat) a (nth j act 0%nat) b (nth k act 0%nat) c (nth l act 0%nat) d) == LM (2 * i + a)%nat true * LM (2 * j + b)%nat true * LM (2 * k + c)%nat false * LM (2 * l + d)%nat false)%sm.
  Proof.
    intros. unfold qd. unfold an. rewrite !proj_active by auto. unfold cr at 2. rewrite proj_active by auto.
    assert (E : (cr (nth i act 0%nat) a == 1 * cr (nth i act 0%nat) a)%sq) by non_commutative_ring. rewrite E. unfold cr. rewrite proj_active by auto. rewrite proj_one. non_commutative_ring.
  Qed.
End P.
