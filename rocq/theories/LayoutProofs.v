From Coq Require Import ZArith Lia Permutation Bool ZifyNat.
From Verif Require Import Base BaseFacts LayoutModel LayoutSpec.
Open Scope list_scope.
Local Open Scope nat_scope.

Definition sedge (X p x : nat) : edge :=
  let r := if Nat.even p then p + 1 else p in
  let r' := if Nat.even p then p else p + 1 in
  (r * X + x / 2, r' * X + x / 2 + x mod 2).
Definition spat (p x : nat) : Z := mod2 (x / 2 + p / 2 + (if Nat.even p then 0 else 1)).

Lemma seq_snoc a n : seq a (S n) = seq a n ++ [a + n].
Proof. replace (S n) with (n + 1) by lia. now rewrite seq_app. Qed.

Lemma half2 k : (2 * k) / 2 = k. Proof. now rewrite Nat.mul_comm, Nat.div_mul. Qed.
Lemma half21 k : (2 * k + 1) / 2 = k. Proof. rewrite Nat.mul_comm, Nat.div_add_l by lia. cbn. lia. Qed.
Lemma mod20 k : (2 * k) mod 2 = 0. Proof. rewrite Nat.mul_comm. now apply Nat.mod_mul. Qed.
Lemma mod21 k : (2 * k + 1) mod 2 = 1. Proof. rewrite Nat.add_comm, Nat.mul_comm. now rewrite Nat.mod_add. Qed.
Lemma even2 k : Nat.even (2 * k) = true. Proof. apply Nat.even_spec. now exists k. Qed.
Lemma even21 k : Nat.even (2 * k + 1) = false.
Proof. rewrite Nat.even_add, even2. reflexivity. Qed.

Section Rows.
  Variables X Y m : nat.
  Hypothesis HX : 0 < X.
  Variable pat0 : array2.
  Let w k := Nat.min (2 * k) (2 * X - 1).
  Let yi := 2 * m + 1.
  Let has := yi <? Y - 1.
  Definition row_inv (k : nat) (s : row_state) : Prop :=
    rs_up s = map (sedge X (2 * m)) (seq 0 (w k)) /\
    rs_down s = (if has then map (sedge X (2 * m + 1)) (seq 0 (w k)) else []) /\
    rs_px s = w k /\
    forall i j, rs_pattern s i j =
      if Nat.eqb i (2 * m) && (j <? w k) then spat (2 * m) j
      else if has && Nat.eqb i (2 * m + 1) && (j <? w k) then spat (2 * m + 1) j
      else pat0 i j.
  Lemma row_step_inv k s : k < X -> row_inv k s -> row_inv (S k) (row_step X Y m yi (2 * m) s k).
  Proof.
    intros L (U & D & P & A).
    unfold row_step. fold has.
    assert (Epat0 : forall d, d < 2 -> spat (2 * m) (2 * k + d) = mod2 (k + m)).
    { intros d Hd. unfold spat. rewrite even2, half2. f_equal.
      replace ((2 * k + d) / 2) with k; [lia|].
      destruct d as [|[|?]]; [rewrite Nat.add_0_r; now rewrite half2|now rewrite half21|lia]. }
    assert (Epat1 : forall d, d < 2 -> spat (2 * m + 1) (2 * k + d) = mod2 (k + m + 1)).
    { intros d Hd. unfold spat. rewrite even21, half21. f_equal.
      replace ((2 * k + d) / 2) with k; [lia|].
      destruct d as [|[|?]]; [rewrite Nat.add_0_r; now rewrite half2|now rewrite half21|lia]. }
    assert (Eu0 : sedge X (2 * m) (2 * k) = (yi * X + k, yi * X + k - X)).
    { unfold sedge, yi. rewrite even2, half2, mod20. f_equal. nia. }
    assert (Eu1 : sedge X (2 * m) (2 * k + 1) = (yi * X + k, yi * X + k - X + 1)).
    { unfold sedge, yi. rewrite even2, half21, mod21. f_equal. nia. }
    assert (Ed0 : sedge X (2 * m + 1) (2 * k) = (yi * X + k, yi * X + k + X)).
    { unfold sedge, yi. rewrite even21, half2, mod20. f_equal. nia. }
    assert (Ed1 : sedge X (2 * m + 1) (2 * k + 1) = (yi * X + k, yi * X + k + X + 1)).
    { unfold sedge, yi. rewrite even21, half21, mod21. f_equal. nia. }
    assert (Wk : w k = 2 * k) by (unfold w; lia).
    pose proof (Epat0 0 ltac:(lia)) as P00. pose proof (Epat0 1 ltac:(lia)) as P01.
    pose proof (Epat1 0 ltac:(lia)) as P10. pose proof (Epat1 1 ltac:(lia)) as P11.
    rewrite Nat.add_0_r in P00, P10.
    destruct (Nat.eqb_spec k (X - 1)) as [E|E].
    - assert (Wk1 : w (S k) = S (2 * k)) by (unfold w; lia).
      assert (WW : w k + 1 = w (S k)) by lia.
      destruct has eqn:Hh; unfold row_inv; rewrite Hh; cbn [rs_up rs_down rs_px rs_pattern andb];
        rewrite U, D, P, Wk1, seq_snoc, !map_app; cbn [map]; rewrite ?Nat.add_0_l, Wk, Eu0, ?Ed0.
      + repeat split; try lia. intros i j. unfold aset. rewrite A, ?Hh, ?Wk.
        destruct (Nat.eqb_spec (2 * m + 1) i), (Nat.eqb_spec (2 * k) j), (Nat.eqb_spec (2 * m) i), (Nat.eqb_spec i (2 * m)), (Nat.eqb_spec i (2 * m + 1)),
          (Nat.ltb_spec j (2 * k)), (Nat.ltb_spec j (S (2 * k))); cbn [andb]; subst; try lia; try congruence.
      + repeat split; try lia. intros i j. unfold aset. rewrite A, ?Hh, ?Wk.
        destruct (Nat.eqb_spec (2 * k) j), (Nat.eqb_spec (2 * m) i), (Nat.eqb_spec i (2 * m)),
          (Nat.ltb_spec j (2 * k)), (Nat.ltb_spec j (S (2 * k))); cbn [andb]; subst; try lia; try congruence.
    - assert (Wk1 : w (S k) = S (S (2 * k))) by (unfold w; lia).
      destruct has eqn:Hh; unfold row_inv; rewrite Hh; cbn [rs_up rs_down rs_px rs_pattern andb];
        rewrite U, D, P, Wk1, !seq_snoc, !map_app; cbn [map]; rewrite Wk, ?Nat.add_0_l;
         replace (S (2 * k)) with (2 * k + 1) by lia; rewrite Eu0, Eu1, ?Ed0, ?Ed1, <- ?app_assoc.
      + repeat split; try lia. intros i j. unfold aset. rewrite A, ?Hh, ?Wk.
        destruct (Nat.eqb_spec (2 * m + 1) i), (Nat.eqb_spec (2 * k) j), (Nat.eqb_spec (2 * k + 1) j), (Nat.eqb_spec (2 * m) i), (Nat.eqb_spec i (2 * m)), (Nat.eqb_spec i (2 * m + 1)),
          (Nat.ltb_spec j (2 * k)), (Nat.ltb_spec j (S (2 * k + 1))); cbn [andb]; subst; try lia; try congruence.
      + repeat split; try lia. intros i j. unfold aset. rewrite A, ?Hh, ?Wk.
        destruct (Nat.eqb_spec (2 * k) j), (Nat.eqb_spec (2 * k + 1) j), (Nat.eqb_spec (2 * m) i), (Nat.eqb_spec i (2 * m)),
          (Nat.ltb_spec j (2 * k)), (Nat.ltb_spec j (S (2 * k + 1))); cbn [andb]; subst; try lia; try congruence.
  Qed.
  Lemma row_loop k : k <= X ->
    row_inv k (fold_left (row_step X Y m yi (2 * m)) (seq 0 k) {| rs_up := []; rs_down := []; rs_px := 0; rs_pattern := pat0 |}).
  Proof.
    induction k as [|k IH]; intros L.
    - cbn. unfold row_inv, w. cbn [rs_up rs_down rs_px rs_pattern Nat.mul Nat.min seq map].
      repeat split; [now destruct has|]. intros i j. rewrite !andb_false_r. reflexivity.
    - rewrite seq_snoc, fold_left_app. cbn [fold_left plus]. apply row_step_inv; [lia|]. apply IH. lia.
  Qed.
End Rows.

(** ** The outer loop *)
Lemma enumerate_range2 a b : enumerate (range2 a b) = map (fun k => (k, a + 2 * k)) (seq 0 ((b - a + 1) / 2)).
Proof.
  unfold enumerate, range2. rewrite map_length, seq_length.
  assert (G : forall n s, combine (seq s n) (map (fun k => a + 2 * k) (seq s n)) = map (fun k => (k, a + 2 * k)) (seq s n)).
  { induction n; intros s; cbn [seq map combine]; [reflexivity|]. now rewrite IHn. }
  apply G.
Qed.
Definition srow (X Y i : nat) : list edge := if i <? Y - 1 then map (sedge X i) (seq 0 (2 * X - 1)) else [].
Definition rows_inv (X Y k : nat) (s : list (list edge) * array2 * nat) : Prop :=
  let '(conn, pat, py) := s in
  conn = map (srow X Y) (seq 0 (2 * k)) /\ py = 2 * k /\
  forall i j, i < 2 * k -> i < Y - 1 -> j < 2 * X - 1 -> pat i j = spat i j.
Lemma rows_loop X Y k : 0 < X -> k <= Y / 2 ->
  rows_inv X Y k (fold_left (rows_step X Y) (map (fun k => (k, 1 + 2 * k)) (seq 0 k)) ([], (fun _ _ => 0%Z), 0)).
Proof.
  intros HX. induction k as [|k IH]; intros L.
  - cbn. repeat split. intros; lia.
  - rewrite seq_snoc, map_app, fold_left_app. cbn [map fold_left]. rewrite Nat.add_0_l.
    specialize (IH ltac:(lia)).
    destruct (fold_left _ _ _) as [[conn pat] py]. destruct IH as (C & P & A).
    assert (LY : 2 * k + 1 < Y). { pose proof (Nat.mul_div_le Y 2). lia. }
    unfold rows_step. cbn [fst snd]. rewrite P. replace (1 + 2 * k) with (2 * k + 1) by lia.
    pose proof (row_loop X Y k HX pat X (le_n _)) as (RU & RD & RP & RA).
    set (r := fold_left _ _ _) in *.
    replace (Nat.min (2 * X) (2 * X - 1)) with (2 * X - 1) in * by lia.
    cbn [rows_inv]. split; [|split; [lia|]].
    + replace (2 * S k) with (S (S (2 * k))) by lia. rewrite !seq_snoc, !map_app, <- C, <- app_assoc. f_equal. cbn [map app].
      rewrite !Nat.add_0_l. rewrite RU, RD. unfold srow.
      destruct (Nat.ltb_spec (2 * k) (Y - 1)); [|lia]. replace (S (2 * k)) with (2 * k + 1) by lia. reflexivity.
    + intros i j Li LY' Lj. rewrite RA.
      destruct (Nat.eqb_spec i (2 * k)) as [->|N]; [destruct (Nat.ltb_spec j (2 * X - 1)); [reflexivity|lia]|].
      cbn [andb]. destruct (Nat.eqb_spec i (2 * k + 1)) as [->|N'].
      * destruct (Nat.ltb_spec (2 * k + 1) (Y - 1)); [|lia]. destruct (Nat.ltb_spec j (2 * X - 1)); [reflexivity|lia].
      * rewrite andb_false_r. cbn [andb]. apply A; lia.
Qed.

(** ** Picking *)
Definition keys (X Y : nat) : list (nat * nat) := flat_map (fun x => map (fun y => (y, x)) (seq 0 (Y - 1))) (seq 0 (2 * X - 1)).
Lemma keys_In X Y k : In k (keys X Y) <-> fst k < Y - 1 /\ snd k < 2 * X - 1.
Proof.
  unfold keys. rewrite in_flat_map. split.
  - intros (x & Hx & H). apply in_map_iff in H as (y & <- & Hy). rewrite in_seq in *. cbn. lia.
  - intros [H1 H2]. exists (snd k). split; [apply in_seq; lia|]. apply in_map_iff. exists (fst k).
    split; [now destruct k|apply in_seq; lia].
Qed.
Lemma NoDup_flat_map {A B} (f : A -> list B) l :
  NoDup l -> (forall a, In a l -> NoDup (f a)) -> (forall a b x, In a l -> In b l -> In x (f a) -> In x (f b) -> a = b) -> NoDup (flat_map f l).
Proof.
  induction l as [|a l IH]; intros N F D; cbn; [constructor|]. inversion_clear N.
  apply NoDup_app.
  - apply F. now left.
  - apply IH; [assumption| |]; intros; [apply F; now right|eapply D; eauto; now right].
  - intros x Hx Hy. apply in_flat_map in Hy as (b & Hb & Hb').
    assert (a = b) by (eapply D; eauto; [now left|now right]). subst. contradiction.
Qed.
Lemma keys_NoDup X Y : NoDup (keys X Y).
Proof.
  apply NoDup_flat_map; [apply seq_NoDup| |].
  - intros x _. apply FinFun.Injective_map_NoDup; [intros a b E; now inversion E|apply seq_NoDup].
  - intros a b x _ _ Ha Hb. apply in_map_iff in Ha as (? & <- & _). apply in_map_iff in Hb as (? & E & _). congruence.
Qed.
Lemma mapM_ok_map {A B} (f : A -> result B) g l : (forall a, In a l -> f a = Ok (g a)) -> mapM f l = Ok (map g l).
Proof.
  induction l as [|a l IH]; intros H; cbn [mapM map]; [reflexivity|].
  rewrite H by now left. cbn. rewrite IH; [reflexivity|]. intros; apply H; now right.
Qed.
Lemma filter_flat_map {A B} (f : B -> bool) (g : A -> list B) l : filter f (flat_map g l) = flat_map (fun a => filter f (g a)) l.
Proof. induction l; cbn; [reflexivity|]. now rewrite filter_app, IHl. Qed.
Lemma map_flat_map {A B C} (f : B -> C) (g : A -> list B) l : map f (flat_map g l) = flat_map (fun a => map f (g a)) l.
Proof. induction l; cbn; [reflexivity|]. now rewrite map_app, IHl. Qed.
Lemma pick_closed X Y conn mask v :
  (forall i, i < Y - 1 -> nth_error conn i = Some (map (sedge X i) (seq 0 (2 * X - 1)))) ->
  pick X Y conn mask v = Ok (map (fun k => sedge X (fst k) (snd k)) (filter (fun k => Z.eqb (mask (fst k) (snd k)) v) (keys X Y))).
Proof.
  intros HC. unfold pick.
  rewrite (mapM_ok_map _ (fun x => flat_map (fun y => if Z.eqb (mask y x) v then [sedge X y x] else []) (seq 0 (Y - 1)))).
  - cbn [rmap]. f_equal. unfold keys. rewrite filter_flat_map, map_flat_map, <- flat_map_concat_map.
    apply flat_map_ext. intros x. generalize (seq 0 (Y - 1)) as l.
    induction l as [|y l IH]; cbn [map flat_map filter fst snd]; [reflexivity|].
    destruct (Z.eqb (mask y x) v); cbn [map app fst snd]; now rewrite <- IH.
  - intros x Hx. apply in_seq in Hx.
    rewrite (mapM_ok_map _ (fun y => if Z.eqb (mask y x) v then [sedge X y x] else [])).
    + cbn [rmap]. f_equal. now rewrite <- flat_map_concat_map.
    + intros y Hy. apply in_seq in Hy. destruct (Z.eqb (mask y x) v); [|reflexivity].
      rewrite HC by lia. rewrite nth_error_map.
      rewrite (nth_error_nth' _ 0) by (rewrite seq_length; lia). rewrite seq_nth by lia. reflexivity.
Qed.

(** ** The whole construction *)
Definition pat2 : array2 := fun m _ => mod2 m.
Definition sel (pat : array2) (n : nat) (v : Z) (k : nat * nat) : bool := Z.eqb (masked pat n (fst k) (snd k)) v.
Definition layer_of (X Y : nat) (pat : array2) (n : nat) (v : Z) : list edge :=
  map (fun k => sedge X (fst k) (snd k)) (filter (sel pat n v) (keys X Y)).
Definition conn_of (X Y : nat) : list edge := flat_map (fun i => map (sedge X i) (seq 0 (2 * X - 1))) (seq 0 (Y - 1)).

Lemma flat_map_nil {A B} (f : A -> list B) l : (forall a, In a l -> f a = []) -> flat_map f l = [].
Proof. induction l; intros H; cbn; [reflexivity|]. rewrite H by now left. apply IHl. intros; apply H; now right. Qed.
Lemma flat_map_ext_in' {A B} (f g : A -> list B) l : (forall a, In a l -> f a = g a) -> flat_map f l = flat_map g l.
Proof. induction l; intros H; cbn; [reflexivity|]. rewrite H, IHl; [reflexivity| |]; intros; [apply H; now right|now left]. Qed.
Lemma half_bounds Y : 0 < Y -> Y - 1 <= 2 * (Y / 2) <= Y.
Proof. intros. pose proof (Nat.div_mod Y 2 ltac:(lia)). pose proof (Nat.mod_upper_bound Y 2 ltac:(lia)). lia. Qed.

Lemma sycamore_closed X Y : 0 < X -> 0 < Y ->
  sycamore X Y = Ok (conn_of X Y,
    [layer_of X Y spat 0 0; layer_of X Y spat 0 1; layer_of X Y pat2 0 0; layer_of X Y pat2 0 1;
     layer_of X Y spat 1 0; layer_of X Y spat 1 1; layer_of X Y pat2 1 0; layer_of X Y pat2 1 1]).
Proof.
  intros HX HY. unfold sycamore.
  destruct (Nat.eqb_spec X 0); [lia|]. destruct (Nat.eqb_spec Y 0); [lia|]. cbn [orb].
  rewrite enumerate_range2. replace (Y - 1 + 1) with Y by lia.
  pose proof (rows_loop X Y (Y / 2) HX (le_n _)) as H.
  destruct (fold_left _ _ _) as [[conn pat] py]. destruct H as (C & _ & A).
  pose proof (half_bounds Y HY) as HB.
  assert (HC : forall i, i < Y - 1 -> nth_error conn i = Some (map (sedge X i) (seq 0 (2 * X - 1)))).
  { intros i Hi. rewrite C, nth_error_map, (nth_error_nth' _ 0) by (rewrite seq_length; lia). rewrite seq_nth by lia.
    cbn [option_map plus]. unfold srow. destruct (Nat.ltb_spec i (Y - 1)); [reflexivity|lia]. }
  cbn [mapM]. rewrite !(pick_closed X Y conn _ _ HC). cbn [rbind concat app].
  assert (FE : forall n v, filter (fun k => Z.eqb (masked pat n (fst k) (snd k)) v) (keys X Y) = filter (sel spat n v) (keys X Y)).
  { intros n' v. apply filter_ext_in. intros k Hk. apply keys_In in Hk as [K1 K2]. unfold sel, masked.
    destruct (_ =? _)%nat; [reflexivity|]. rewrite A by lia. reflexivity. }
  rewrite !FE. unfold layer_of. f_equal. f_equal.
  rewrite C, <- flat_map_concat_map. unfold conn_of.
  replace (2 * (Y / 2)) with ((Y - 1) + (2 * (Y / 2) - (Y - 1))) by lia.
  rewrite seq_app, flat_map_app, (flat_map_nil _ (seq (0 + _) _)), app_nil_r.
  - apply flat_map_ext_in'. intros i Hi. apply in_seq in Hi. unfold srow. destruct (Nat.ltb_spec i (Y - 1)); [reflexivity|lia].
  - intros i Hi. apply in_seq in Hi. unfold srow. destruct (Nat.ltb_spec i (Y - 1)); [lia|reflexivity].
Qed.

(** ** Edges by row and column *)
Lemma qubit_inj X r c r' c' : c < X -> c' < X -> r * X + c = r' * X + c' -> r = r' /\ c = c'.
Proof.
  intros. assert (r = r') by (destruct (lt_eq_lt_dec r r') as [[?|?]|?]; [nia|assumption|nia]). subst. split; lia.
Qed.
Definition bit (x : nat) := x mod 2.
Lemma split2 x : x = 2 * (x / 2) + x mod 2 /\ x mod 2 < 2.
Proof. split; [apply Nat.div_mod; lia|apply Nat.mod_upper_bound; lia]. Qed.
Definition orow (p : nat) := if Nat.even p then p + 1 else p.
Definition erow (p : nat) := if Nat.even p then p else p + 1.
Lemma sedge_ends X p x : sedge X p x = (orow p * X + x / 2, erow p * X + (x / 2 + x mod 2)).
Proof. unfold sedge, orow, erow. f_equal. lia. Qed.
Lemma rows_parity p : (p = 2 * (p / 2) /\ Nat.even p = true) \/ (p = 2 * (p / 2) + 1 /\ Nat.even p = false).
Proof.
  destruct (split2 p) as [E L].
  destruct (p mod 2) as [|[|?]] eqn:Q; [left|right|lia]; (split; [lia|]).
  - rewrite E, Nat.add_0_r. apply even2.
  - rewrite E. apply even21.
Qed.

Ltac Zify.zify_post_hook ::= Z.div_mod_to_equations.
Definition good (sl : nat * nat -> bool) : Prop :=
  forall p x p' x', sl (p, x) = true -> sl (p', x') = true ->
    (p / 2 = p' / 2 /\ x / 2 = x' / 2) \/ (p / 2 + p mod 2 = p' / 2 + p' mod 2 /\ x / 2 + x mod 2 = x' / 2 + x' mod 2) ->
    p = p' /\ x = x'.
Lemma sel_bit pat n v p x : (0 <= v)%Z -> sel pat n v (p, x) = true -> x mod 2 <> (p + n) mod 2 /\ pat p x = v.
Proof.
  intros V. unfold sel, masked. cbn [fst snd]. destruct (Nat.eqb_spec (x mod 2) ((p + n) mod 2)) as [E|E].
  - intros H. apply Z.eqb_eq in H. lia.
  - intros H. apply Z.eqb_eq in H. now split.
Qed.
Lemma spat_val p x : spat p x = Z.of_nat ((x / 2 + p / 2 + p mod 2) mod 2).
Proof.
  unfold spat, mod2. destruct (rows_parity p) as [[E V]|[E V]]; rewrite V.
  - replace (p mod 2) with 0; [reflexivity|]. lia.
  - replace (p mod 2) with 1; [reflexivity|]. lia.
Qed.
Lemma good_spat n v : (0 <= v)%Z -> good (sel spat n v).
Proof.
  intros V p x p' x' H H' S.
  apply sel_bit in H as [H1 H2]; [|assumption]. apply sel_bit in H' as [H1' H2']; [|assumption].
  rewrite spat_val in H2, H2'. rewrite <- H2' in H2. apply Nat2Z.inj in H2. clear H2' V v.
  pose proof (split2 p). pose proof (split2 p'). pose proof (split2 x). pose proof (split2 x'). lia.
Qed.
Lemma good_pat2 n v : (0 <= v)%Z -> good (sel pat2 n v).
Proof.
  intros V p x p' x' H H' S.
  apply sel_bit in H as [H1 H2]; [|assumption]. apply sel_bit in H' as [H1' H2']; [|assumption].
  unfold pat2, mod2 in H2, H2'. rewrite <- H2' in H2. apply Nat2Z.inj in H2. clear H2' V v.
  pose proof (split2 p). pose proof (split2 p'). pose proof (split2 x). pose proof (split2 x'). lia.
Qed.
Lemma orow_val p : orow p = 2 * (p / 2) + 1.
Proof. unfold orow. destruct (rows_parity p) as [[E V]|[E V]]; rewrite V; lia. Qed.
Lemma erow_val p : erow p = 2 * (p / 2 + p mod 2).
Proof. unfold erow. destruct (rows_parity p) as [[E V]|[E V]]; rewrite V; lia. Qed.
Lemma key_bounds X Y k : In k (keys X Y) -> snd k / 2 < X /\ snd k / 2 + snd k mod 2 < X.
Proof. intros H. apply keys_In in H. lia. Qed.
Lemma good_parallel X Y sl : good sl -> parallel (map (fun k => sedge X (fst k) (snd k)) (filter sl (keys X Y))).
Proof.
  intros G. unfold parallel. rewrite flat_map_concat_map, map_map, <- flat_map_concat_map.
  apply NoDup_flat_map; [apply NoDup_filter, keys_NoDup| |].
  - intros k Hk. apply filter_In in Hk as [Hk _]. apply key_bounds in Hk as [B1 B2].
    rewrite sedge_ends. unfold ends. cbn [fst snd]. constructor; [|constructor; [easy|constructor]].
    intros [E|[]]. symmetry in E. apply qubit_inj in E as [E _]; [|lia|lia]. rewrite orow_val, erow_val in E. lia.
  - intros [p x] [p' x'] q Hk Hk' I I'. apply filter_In in Hk as [Hk S]. apply filter_In in Hk' as [Hk' S'].
    apply key_bounds in Hk. apply key_bounds in Hk'. cbn [fst snd] in *.
    rewrite sedge_ends in I, I'. unfold ends in I, I'. cbn [fst snd In] in I, I'.
    enough (p = p' /\ x = x') as [-> ->] by reflexivity. apply (G _ _ _ _ S S').
    destruct Hk as [B1 B2], Hk' as [B1' B2'].
    destruct I as [I|[I|[]]], I' as [I'|[I'|[]]]; rewrite <- I' in I; apply qubit_inj in I as [E1 E2]; try assumption;
      rewrite ?orow_val, ?erow_val in E1; clear I'; [left; split; lia|exfalso; lia|exfalso; lia|right; split; lia].
Qed.
Lemma sedge_inj X Y k k' : In k (keys X Y) -> In k' (keys X Y) -> sedge X (fst k) (snd k) = sedge X (fst k') (snd k') -> k = k'.
Proof.
  destruct k as [p x], k' as [p' x']. intros H H' E. apply key_bounds in H. apply key_bounds in H'. cbn [fst snd] in *.
  rewrite !sedge_ends in E. apply pair_equal_spec in E as [E1 E2]. apply qubit_inj in E1 as [E1 E1']; [|apply H|apply H']. apply qubit_inj in E2 as [E2 E2']; [|apply H|apply H'].
  rewrite !orow_val in E1. rewrite !erow_val in E2. clear H H'. destruct (split2 p) as [P _], (split2 x) as [Q _], (split2 p') as [P' _], (split2 x') as [Q' _].
  rewrite P, P', Q, Q'. revert E1 E1' E2 E2'. clear.
  generalize (p / 2), (p mod 2), (p' / 2), (p' mod 2), (x / 2), (x mod 2), (x' / 2), (x' mod 2). intros. f_equal; lia.
Qed.

(** ** Every key is selected once *)
Lemma perm_filter {A} (f : A -> bool) l : Permutation (filter f l ++ filter (fun a => negb (f a)) l) l.
Proof.
  induction l as [|a l IH]; cbn; [constructor|]. destruct (f a); cbn; [now constructor|].
  rewrite <- Permutation_middle. now constructor.
Qed.
Lemma perm_filter4 {A} (f1 f2 f3 f4 : A -> bool) l :
  (forall a, In a l -> (if f1 a then 1 else 0) + (if f2 a then 1 else 0) + (if f3 a then 1 else 0) + (if f4 a then 1 else 0) = 1) ->
  Permutation (filter f1 l ++ filter f2 l ++ filter f3 l ++ filter f4 l) l.
Proof.
  induction l as [|a l IH]; intros H; cbn [filter app]; [constructor|].
  specialize (IH (fun b Hb => H b (or_intror Hb))). specialize (H a (or_introl eq_refl)).
  destruct (f1 a), (f2 a), (f3 a), (f4 a); try lia; cbn [app].
  - now constructor.
  - rewrite <- Permutation_middle. now constructor.
  - rewrite (app_assoc (filter f1 l)). rewrite <- Permutation_middle. rewrite <- app_assoc. now constructor.
  - rewrite (app_assoc (filter f1 l)), (app_assoc (_ ++ _)). rewrite <- Permutation_middle. rewrite <- !app_assoc. now constructor.
Qed.
Lemma sel_sum pat k : pat (fst k) (snd k) = 0%Z \/ pat (fst k) (snd k) = 1%Z ->
  (if sel pat 0 0 k then 1 else 0) + (if sel pat 0 1 k then 1 else 0) + (if sel pat 1 0 k then 1 else 0) + (if sel pat 1 1 k then 1 else 0) = 1.
Proof.
  intros H. destruct k as [p x]. unfold sel, masked. cbn [fst snd] in *.
  destruct (Nat.eqb_spec (x mod 2) ((p + 0) mod 2)), (Nat.eqb_spec (x mod 2) ((p + 1) mod 2)); try lia;
    destruct H as [H|H]; rewrite H; reflexivity.
Qed.
Lemma spat_01 p x : spat p x = 0%Z \/ spat p x = 1%Z.
Proof. rewrite spat_val. lia. Qed.
Lemma pat2_01 p x : pat2 p x = 0%Z \/ pat2 p x = 1%Z.
Proof. unfold pat2, mod2. lia. Qed.
Lemma conn_keys X Y : Permutation (conn_of X Y) (map (fun k => sedge X (fst k) (snd k)) (keys X Y)).
Proof.
  replace (conn_of X Y) with (map (fun k => sedge X (fst k) (snd k)) (flat_map (fun i => map (fun x => (i, x)) (seq 0 (2 * X - 1))) (seq 0 (Y - 1)))).
  - apply Permutation_map. apply NoDup_Permutation; [|apply keys_NoDup|].
    + apply NoDup_flat_map; [apply seq_NoDup| |].
      * intros i _. apply FinFun.Injective_map_NoDup; [intros a b E; now inversion E|apply seq_NoDup].
      * intros a b x _ _ Ha Hb. apply in_map_iff in Ha as (? & <- & _). apply in_map_iff in Hb as (? & E & _). congruence.
    + intros [p x]. rewrite keys_In, in_flat_map. cbn [fst snd]. split.
      * intros (i & Hi & H). apply in_map_iff in H as (y & E & Hy). injection E as <- <-. rewrite in_seq in *. lia.
      * intros [H1 H2]. exists p. split; [apply in_seq; lia|]. apply in_map_iff. exists x. split; [reflexivity|apply in_seq; lia].
  - rewrite map_flat_map. unfold conn_of. apply flat_map_ext. intros i. now rewrite map_map.
Qed.
Lemma layers_once X Y pat : (forall p x, pat p x = 0%Z \/ pat p x = 1%Z) ->
  each_once [layer_of X Y pat 0 0; layer_of X Y pat 0 1; layer_of X Y pat 1 0; layer_of X Y pat 1 1] (conn_of X Y).
Proof.
  intros P. unfold each_once, layer_of. cbn [concat]. rewrite app_nil_r, <- !map_app, conn_keys. apply Permutation_map.
  apply perm_filter4. intros k _. apply sel_sum, P.
Qed.
Lemma NoDup_map_inj_in {A B} (f : A -> B) l : (forall a b, In a l -> In b l -> f a = f b -> a = b) -> NoDup l -> NoDup (map f l).
Proof.
  induction l as [|a l IH]; intros H N; cbn; [constructor|]. inversion_clear N. constructor.
  - intros I. apply in_map_iff in I as (b & E & Hb). assert (b = a) by (apply H; [now right|now left|assumption]). now subst.
  - apply IH; [|assumption]. intros; apply H; try now right. assumption.
Qed.
Lemma conn_NoDup X Y : NoDup (conn_of X Y).
Proof.
  eapply Permutation_NoDup; [apply Permutation_sym, conn_keys|]. apply NoDup_map_inj_in; [|apply keys_NoDup].
  intros a b Ha Hb E. eapply sedge_inj; eauto.
Qed.
Lemma conn_In X Y e : In e (conn_of X Y) <-> sycamore_joined X Y e.
Proof.
  transitivity (In e (map (fun k => sedge X (fst k) (snd k)) (keys X Y))).
  { split; apply Permutation_in; [|apply Permutation_sym]; apply conn_keys. }
  rewrite in_map_iff. split.
  - intros ([p x] & <- & H). pose proof (key_bounds _ _ _ H) as [B1 B2]. apply keys_In in H. cbn [fst snd] in *.
    rewrite sedge_ends. exists (orow p), (x / 2), (erow p), (x / 2 + x mod 2). unfold qubit.
    assert (O : Nat.odd (orow p) = true) by (rewrite orow_val; unfold Nat.odd; now rewrite even21).
    rewrite orow_val in *. rewrite erow_val. repeat split; try lia. assumption.
  - intros (r & c & r' & c' & -> & R1 & R2 & C1 & C2 & O & R & C).
    apply Nat.odd_spec in O as [h ->].
    exists (Nat.min (2 * h + 1) r', 2 * c + (c' - c)). split.
    + cbn [fst snd]. rewrite sedge_ends, orow_val, erow_val. unfold qubit.
      replace ((2 * c + (c' - c)) / 2) with c by lia. replace (c + (2 * c + (c' - c)) mod 2) with c' by lia.
      f_equal; f_equal; f_equal; lia.
    + apply keys_In. cbn [fst snd]. lia.
Qed.

(** ** Chains *)
Lemma range2_In a b i : In i (range2 a b) <-> exists k, i = a + 2 * k /\ i < b.
Proof.
  unfold range2. rewrite in_map_iff. split.
  - intros (k & <- & H). apply in_seq in H. exists k. lia.
  - intros (k & -> & H). exists k. split; [reflexivity|]. apply in_seq. lia.
Qed.
Lemma range2_NoDup a b : NoDup (range2 a b).
Proof. apply FinFun.Injective_map_NoDup; [intros x y E; lia|apply seq_NoDup]. Qed.
Lemma chain_parallel a b : parallel (map (fun i => (i, i + 1)) (range2 a b)).
Proof.
  unfold parallel. rewrite flat_map_concat_map, map_map, <- flat_map_concat_map.
  apply NoDup_flat_map; [apply range2_NoDup| |].
  - intros i _. unfold ends. cbn. constructor; [intros [E|[]]; lia|constructor; [easy|constructor]].
  - intros i j q Hi Hj I J. apply range2_In in Hi as (k & -> & _). apply range2_In in Hj as (k' & -> & _).
    unfold ends in I, J. cbn [fst snd In] in I, J. lia.
Qed.
