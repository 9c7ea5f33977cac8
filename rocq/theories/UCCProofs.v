(** Proofs for C77: the algebra of excitations. *)
From Coq Require Import Ring Setoid Morphisms Ncring Ncring_tac.
From Verif Require Import Base BaseFacts MatModel MatFacts LiftSpec LiftProofs OpModel OpSpec OpProofs OpProofs2 FermiModel FermiSpec FermiProofs FermiProofs2 FermiProofs6 UCCSpec MatRing.
Open Scope list_scope.
Local Open Scope nat_scope.

Section S.
  Context {K : cring} (n : nat).
  Add Ring Kring_ucc1 : (kth K).
  Local Notation "A '==' B" := (sq_eq (Nat.pow 2 n) A B) (at level 70, no associativity) : sq_scope.
  Local Notation "A '+' B" := (sq_add (Nat.pow 2 n) A B) : sq_scope.
  Local Notation "A '-' B" := (sq_sub (Nat.pow 2 n) A B) : sq_scope.
  Local Notation "A '*' B" := (sq_mul (Nat.pow 2 n) A B) : sq_scope.
  Local Notation "'-' A" := (sq_opp (Nat.pow 2 n) A) : sq_scope.
  Local Notation "0" := (sq0 (Nat.pow 2 n)) : sq_scope.
  Local Notation "1" := (sq1 (Nat.pow 2 n)) : sq_scope.
  Definition T := sqm K (2 ^ n).
  Definition lad (p : nat) (d : bool) : T := ent (ladder_matrix n (p, d)).
  Definition delta (p q : nat) : T := if Nat.eqb p q then sq1 (2 ^ n) else sq0 (2 ^ n).
  Lemma lad_car p q d e : p < n -> q < n -> (lad p d * lad q e + lad q e * lad p d == if negb (Bool.eqb d e) then delta p q else 0)%sq.
  Proof.
    intros Hp Hq i j Hi Hj. destruct (ladder_car (K := K) n (p, d) (q, e) Hp Hq) as (_ & _ & E). specialize (E i j Hi Hj). cbn [ent madd mscale mmul eye] in E. unfold sq_add, sq_mul, lad.
    etransitivity; [exact E|]. unfold car, delta. cbn [fst snd]. destruct (Nat.eqb p q), (Bool.eqb d e); cbn [negb andb]; unfold sq1, sq0, MatModel.delta; destruct (Nat.eqb i j); ring.
  Qed.
  Definition mv (i j : nat) : T := (lad i true * lad j false)%sq.
  Lemma mv_comm i j k l : i < n -> j < n -> k < n -> l < n -> (mv i j * mv k l - mv k l * mv i j == delta j k * mv i l - delta i l * mv k j)%sq.
  Proof.
    intros Hi Hj Hk Hl. unfold mv.
    pose proof (lad_car j k false true Hj Hk) as E1. pose proof (lad_car i k true true Hi Hk) as E2. pose proof (lad_car j l false false Hj Hl) as E3. pose proof (lad_car i l true false Hi Hl) as E4.
    cbn [negb Bool.eqb] in *.
    set (A := lad i true) in *. set (B := lad j false) in *. set (C := lad k true) in *. set (D := lad l false) in *.
    transitivity (A * (B * C + C * B) * D - C * (A * D + D * A) * B - (A * C + C * A) * (B * D) + C * A * (B * D + D * B))%sq.
    { non_commutative_ring. }
    rewrite E1, E2, E3, E4. unfold delta. destruct (Nat.eqb j k), (Nat.eqb i l); non_commutative_ring.
  Qed.
  Lemma lad_nil p d : p < n -> (lad p d * lad p d == 0)%sq.
  Proof.
    intros Hp i j Hi Hj. destruct (mat_carf (K := K) n i j Hi Hj) as [_ Z]. specialize (Z [] (p, d) []). cbn [app] in Z.
    destruct (fterm_two (K := K) n (p, d) (p, d)) as (_ & _ & E). rewrite E in Z by (cbn; auto).
    apply Z. intros f [<-|[<-|[]]]; exact Hp.
  Qed.
  (** the products of excitations that the code leaves out vanish *)
  Lemma mv_same_creator i j l : i < n -> j < n -> l < n -> i <> j -> (mv i j * mv i l == 0)%sq.
  Proof.
    intros Hi Hj Hl N. unfold mv. pose proof (lad_car j i false true Hj Hi) as E1. cbn [negb Bool.eqb] in E1. unfold delta in E1.
    replace (Nat.eqb j i) with false in E1 by (symmetry; apply Nat.eqb_neq; auto). pose proof (lad_nil i true Hi) as E2.
    set (A := lad i true) in *. set (B := lad j false) in *. set (D := lad l false) in *.
    transitivity (A * (B * A + A * B) * D - (A * A) * (B * D))%sq; [non_commutative_ring|]. rewrite E1, E2. non_commutative_ring.
  Qed.
  Lemma mv_same_annihilator i j k : i < n -> j < n -> k < n -> k <> j -> (mv i j * mv k j == 0)%sq.
  Proof.
    intros Hi Hj Hk N. unfold mv. pose proof (lad_car j k false true Hj Hk) as E1. cbn [negb Bool.eqb] in E1. unfold delta in E1.
    replace (Nat.eqb j k) with false in E1 by (symmetry; apply Nat.eqb_neq; auto). pose proof (lad_nil j false Hj) as E2.
    set (A := lad i true) in *. set (B := lad j false) in *. set (C := lad k true) in *.
    transitivity (A * (B * C + C * B) * B - A * C * (B * B))%sq; [non_commutative_ring|]. rewrite E1, E2. non_commutative_ring.
  Qed.
  (** ** Spin *)
  Fixpoint sqsum (l : list T) : T := match l with [] => sq0 (2 ^ n) | x :: l => (x + sqsum l)%sq end.
  Lemma comm_sum X l (f : nat -> T) (g : nat -> T) : (forall p, In p l -> (X * f p - f p * X == g p)%sq) -> (X * sqsum (map f l) - sqsum (map f l) * X == sqsum (map g l))%sq.
  Proof.
    induction l as [|p l IH]; intros H; cbn [map sqsum]; [non_commutative_ring|]. rewrite <- IH by (intros q Hq; apply H; right; exact Hq). rewrite <- (H p) by (left; reflexivity). non_commutative_ring.
  Qed.
  Lemma sqsum_zero l (g : nat -> T) : (forall p, In p l -> (g p == 0)%sq) -> (sqsum (map g l) == 0)%sq.
  Proof. induction l as [|p l IH]; intros H; cbn [map sqsum]; [reflexivity|]. rewrite IH by (intros q Hq; apply H; right; exact Hq). rewrite (H p) by (left; reflexivity). non_commutative_ring. Qed.
  Lemma sqsum_single m q (g : nat -> T) (a : nat) : q < m -> (forall p, p < m -> p <> q -> (g (a + p)%nat == 0)%sq) -> (sqsum (map g (seq a m)) == g (a + q)%nat)%sq.
  Proof.
    revert a q. induction m as [|m IH]; intros a q Hq H; [lia|]. cbn [seq map sqsum]. destruct q as [|q].
    - rewrite (sqsum_zero (seq (S a) m)). 2:{ intros p Hp. apply in_seq in Hp. replace p with (a + (p - a))%nat by lia. apply H; lia. } rewrite Nat.add_0_r. non_commutative_ring.
    - rewrite (IH (S a) q) by (try lia; intros p Hp Np; replace (S a + p) with (a + S p) by lia; apply H; lia). replace (S a + q) with (a + S q) by lia.
      assert (Z : (g a == 0)%sq) by (specialize (H 0); rewrite Nat.add_0_r in H; apply H; lia). rewrite Z. non_commutative_ring.
  Qed.
  Definition sf (v o : nat) : T := (mv (2 * v) (2 * o) + mv (2 * v + 1) (2 * o + 1))%sq.
  Definition up : T := sqsum (map (fun p => mv (2 * p) (2 * p + 1)) (seq 0 (n / 2))).
  Definition down : T := sqsum (map (fun p => mv (2 * p + 1) (2 * p)) (seq 0 (n / 2))).
  Lemma half_lt p : p < n / 2 -> 2 * p + 1 < n.
  Proof. intros H. pose proof (Nat.mul_div_le n 2 ltac:(lia)). lia. Qed.
  Lemma delta_ne p q : p <> q -> delta p q = sq0 (2 ^ n).
  Proof. intros H. unfold delta. replace (Nat.eqb p q) with false by (symmetry; apply Nat.eqb_neq; exact H). reflexivity. Qed.
  Lemma delta_eq p : delta p p = sq1 (2 ^ n).
  Proof. unfold delta. rewrite Nat.eqb_refl. reflexivity. Qed.
  Lemma comm_split (A B S A' B' : T) : (A * S - S * A == A')%sq -> (B * S - S * B == B')%sq -> (A' + B' == 0)%sq -> ((A + B) * S == S * (A + B))%sq.
  Proof.
    intros H1 H2 H3. transitivity (S * (A + B) + ((A * S - S * A) + (B * S - S * B)))%sq; [non_commutative_ring|]. rewrite H1, H2, H3. non_commutative_ring.
  Qed.
  Lemma sf_up v o : v < n / 2 -> o < n / 2 -> (sf v o * up == up * sf v o)%sq.
  Proof.
    intros Hv Ho. pose proof (half_lt v Hv) as Lv. pose proof (half_lt o Ho) as Lo. unfold sf, up.
    eapply comm_split.
    - apply comm_sum. intros p Hp. apply in_seq in Hp. pose proof (half_lt p ltac:(lia)). apply mv_comm; lia.
    - apply comm_sum. intros p Hp. apply in_seq in Hp. pose proof (half_lt p ltac:(lia)). apply mv_comm; lia.
    - rewrite (sqsum_single (n / 2) o), (sqsum_single (n / 2) v); auto; cbn [Nat.add].
      + rewrite !delta_eq, !delta_ne by lia. non_commutative_ring.
      + intros p Hp Np. rewrite !delta_ne by lia. non_commutative_ring.
      + intros p Hp Np. rewrite !delta_ne by lia. non_commutative_ring.
  Qed.
  Lemma sf_down v o : v < n / 2 -> o < n / 2 -> (sf v o * down == down * sf v o)%sq.
  Proof.
    intros Hv Ho. pose proof (half_lt v Hv) as Lv. pose proof (half_lt o Ho) as Lo. unfold sf, down.
    eapply comm_split.
    - apply comm_sum. intros p Hp. apply in_seq in Hp. pose proof (half_lt p ltac:(lia)). apply mv_comm; lia.
    - apply comm_sum. intros p Hp. apply in_seq in Hp. pose proof (half_lt p ltac:(lia)). apply mv_comm; lia.
    - rewrite (sqsum_single (n / 2) v), (sqsum_single (n / 2) o); auto; cbn [Nat.add].
      + rewrite !delta_eq, !delta_ne by lia. non_commutative_ring.
      + intros p Hp Np. rewrite !delta_ne by lia. non_commutative_ring.
      + intros p Hp Np. rewrite !delta_ne by lia. non_commutative_ring.
  Qed.
  (** ** Back to matrices *)
  Lemma exc_sq i j : ent (excitation (K := K) n i j) = mv i j.
  Proof. reflexivity. Qed.
  Lemma spin_free_sq v o : ent (spin_free (K := K) n v o) = sf v o.
  Proof. reflexivity. Qed.
  Lemma raise_sq : ent (raise_spin (K := K) n) = up.
  Proof. unfold raise_spin, up. induction (seq 0 (n / 2)) as [|p l IH]; [reflexivity|]. cbn [map msum fold_right sqsum ent madd]. unfold msum in IH. rewrite IH. reflexivity. Qed.
  Lemma lower_sq : ent (lower_spin (K := K) n) = down.
  Proof. unfold lower_spin, down. induction (seq 0 (n / 2)) as [|p l IH]; [reflexivity|]. cbn [map msum fold_right sqsum ent madd]. unfold msum in IH. rewrite IH. reflexivity. Qed.
End S.
