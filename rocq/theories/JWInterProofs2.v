(** Proofs for C73, continued: two-body terms on four modes, and the whole transform. *)
From Coq Require Import Permutation Sorted Ring.
From Verif Require Import Base BaseFacts MatModel MatFacts LiftSpec LiftProofs OpModel OpSpec OpProofs PauliProofs OpProofs2 ConjProofs
  FermiModel FermiSpec FermiProofs FermiProofs2 FermiProofs3 BKProofs FermiProofs4 FermiProofs6 BackendProofs TensorModel TensorSpec TensorProofs TensorProps DiagSpec DiagProofs JWInterModel JWInterSpec JWInterProofs.
Open Scope list_scope.
Local Open Scope nat_scope.

Section Four.
  Context {K : cring} (im half : K) (Him : kmul im im = kopp k1) (Hhalf : kadd half half = k1) (small is_zero : K -> bool) (n : nat).
  Context (Hz : forall c, is_zero c = true -> c = k0).
  Add Ring Kring_jwi2 : (kth K).
  Open Scope K_scope.
  Notation qmk := (mk_op (qubit_simplify im)).
  Notation qadd := (op_add pauli_eqb small).
  Notation acts := (acts_up_to im small n).
  Notation tact := (tact (K := K) im).
  Lemma distinct4 (p q r s : nat) : NoDup [p; q; r; s] -> p <> q /\ p <> r /\ p <> s /\ q <> r /\ q <> s /\ r <> s.
  Proof. intros N. inversion N as [|? ? X1 N1]; subst. inversion N1 as [|? ? X2 N2]; subst. inversion N2 as [|? ? X3 N3]; subst. cbn in *. intuition congruence. Qed.
  Definition inversions (p q r s : nat) : bool := xorb (s <? r) (xorb (xorb (s <? q) (r <? q)) (xorb (xorb (s <? p) (r <? p)) (q <? p))).
  Lemma inversions_rev p q r s : NoDup [p; q; r; s] -> inversions s r q p = inversions p q r s.
  Proof.
    intros N. apply distinct4 in N. unfold inversions. repeat match goal with |- context [Nat.ltb ?u ?v] => destruct (Nat.ltb_spec u v); try (exfalso; lia) end; reflexivity.
  Qed.
  Lemma flip4_rev p q r s y : NoDup [p; q; r; s] -> flip4 s r q p y = flip4 p q r s y.
  Proof.
    intros N. apply distinct4 in N. destruct N as (N1 & N2 & N3 & N4 & N5 & N6). unfold flip4.
    set (vp := negb (nth p y false)). set (vq := negb (nth q y false)). set (vr := negb (nth r y false)). set (vs := negb (nth s y false)).
    rewrite (setb_comm q p) by auto. rewrite (setb_comm r p), (setb_comm s p) by auto. f_equal.
    rewrite (setb_comm r q), (setb_comm s q) by auto. f_equal. apply setb_comm. auto.
  Qed.
  Lemma sign_rev p q r s y : four_sign s r q p y = four_sign p q r s y.
  Proof. unfold four_sign. destruct (below p y), (below q y), (below r y), (below s y); reflexivity. Qed.
  Lemma ladders4 p q r s x y : NoDup [p; q; r; s] -> (forall z, In z [p; q; r; s] -> (z < n)%nat) -> length x = n -> length y = n ->
    ladders (K := K) n [(p, true); (q, true); (r, false); (s, false)] x y =
      match nth p y false, nth q y false, nth r y false, nth s y false with
      | false, false, true, true => if list_eqb Bool.eqb x (flip4 p q r s y) then sgn (xorb (four_sign p q r s y) (inversions p q r s)) else 0
      | _, _, _, _ => 0
      end.
  Proof.
    intros N B Hx Hy. assert (Bp : (p < n)%nat) by (apply B; cbn; auto). assert (Bq : (q < n)%nat) by (apply B; cbn; auto). assert (Br : (r < n)%nat) by (apply B; cbn; auto). assert (Bs : (s < n)%nat) by (apply B; cbn; auto).
    rewrite lad by (auto; intros f Hf; cbn in Hf; intuition (subst; cbn; auto)). apply distinct4 in N.
    cbn [FermiProofs3.fact]. unfold mcomp, ladder_act. cbn [fst snd negb]. rewrite !nth_setb_other by intuition.
    unfold flip4, four_sign, inversions, below. rewrite !odd_count_setb by (rewrite ?setb_length; lia). rewrite !nth_setb_other by intuition.
    destruct (nth p y false) eqn:Yp, (nth q y false) eqn:Yq, (nth r y false) eqn:Yr, (nth s y false) eqn:Ys; cbn [Bool.eqb negb xorb];
      try (match goal with |- context [list_eqb Bool.eqb ?u ?v] => destruct (list_eqb Bool.eqb u v) end; ring).
    match goal with |- context [list_eqb Bool.eqb ?u ?v] => destruct (list_eqb Bool.eqb u v) end; [|reflexivity].
    rewrite !sgn_xor. destruct (s <? r), (s <? q), (r <? q), (s <? p), (r <? p), (q <? p); rewrite ?sgn_xor; cbn [sgn]; ring.
  Qed.
  Definition four_step (p q r s : nat) (c : K) (o : qop K) (ops : list pauli) : qop K :=
    let coeff := four_coefficient im half ops c in if is_zero coeff then o else qadd o (qmk (four_string p q r s ops) coeff).
  Lemma four_loop p q r s c l : NoDup [p; q; r; s] -> (forall z, In z [p; q; r; s] -> (z < n)%nat) -> Forall (fun t => Forall is_xy t /\ length t = 4%nat) l ->
    forall B o v, acts B o v -> acts (B + length l) (fold_left (four_step p q r s c) l o)
      (fun x y => v x y + fold_right (fun t k => four_coefficient im half t c * tact (four_string p q r s t) x y + k) 0 l).
  Proof.
    intros N Hb. induction 1 as [|t l [Ht Hl] _ IH]; intros B o v H; cbn [fold_left fold_right length].
    - eapply acts_ext; [|eapply acts_le; [|exact H]]; [|lia]. intros x y _ _. cbn beta. ring.
    - assert (G : acts (B + 1) (four_step p q r s c o t) (fun x y => v x y + four_coefficient im half t c * tact (four_string p q r s t) x y)).
      { unfold four_step. destruct (is_zero _) eqn:Z.
        - apply Hz in Z. rewrite Z. eapply acts_ext; [|eapply acts_le; [|exact H]]; [|lia]. intros x y _ _. cbn beta. ring.
        - pose proof (acts_add im small n _ _ _ _ _ _ H (acts_self im small n (qmk (four_string p q r s t) (four_coefficient im half t c)))) as G. rewrite mk_length in G.
          eapply acts_ext; [|exact G]. intros x y Hx Hy. cbn beta. rewrite E_mk; auto. destruct (four_entry im half small n is_zero Hz p q r s x y N Hb Hx Hy) as (w & W & _). apply W; auto. }
      apply IH in G. eapply acts_ext; [|eapply acts_le; [|exact G]]; [|lia]. intros x y _ _. cbn beta. ring.
  Qed.
  Lemma product_ok : Forall (fun t => Forall is_xy t /\ length t = 4%nat) (xy_product 4).
  Proof. cbn [xy_product map app]. repeat first [apply xy_x | apply xy_y | reflexivity | apply conj | constructor]. Qed.
  Lemma four_length p q r s c l : forall o k, (length o <= k)%nat -> (length (fold_left (four_step p q r s c) l o) <= k + length l)%nat.
  Proof.
    induction l as [|t l IH]; intros o k H; cbn [fold_left length]; [lia|]. etransitivity; [apply (IH _ (S k))|lia]. unfold four_step. destruct (is_zero _); [lia|]. apply add_mk_length. exact H.
  Qed.
  Lemma two_body_four_acts p q r s c : NoDup [p; q; r; s] -> (forall z, In z [p; q; r; s] -> (z < n)%nat) ->
    acts 16 (two_body_four im half small is_zero p q r s c)
      (fun x y => c * ladders n [(p, true); (q, true); (r, false); (s, false)] x y + kconj c * ladders n [(s, true); (r, true); (q, false); (p, false)] x y).
  Proof.
    intros N Hb. unfold two_body_four. cbn zeta. set (c' := if xorb _ _ then _ else c).
    pose proof (four_loop p q r s c' (xy_product 4) N Hb product_ok 0 [] _ (acts_nil im small n)) as G.
    eapply acts_ext; [|eapply acts_le; [|exact G]]; [|cbn; lia]. intros x y Hx Hy. cbn beta. clear G.
    destruct (four_entry im half small n is_zero Hz p q r s x y N Hb Hx Hy) as (w & W & Ws).
    assert (N' : NoDup [s; r; q; p]) by (apply NoDup_rev in N; exact N).
    rewrite (ladders4 p q r s) by auto. rewrite (ladders4 s r q p) by (auto; intros z Hz'; apply Hb; cbn in Hz'; cbn; tauto). rewrite (flip4_rev p q r s), (sign_rev p q r s), (inversions_rev p q r s) by auto.
    assert (S : fold_right (fun t k => four_coefficient im half t c' * tact (four_string p q r s t) x y + k) 0 (xy_product 4) =
      if list_eqb Bool.eqb x (flip4 p q r s y) then sum16 im half c' (nth p y false) (nth q y false) (nth r y false) (nth s y false) * sgn w else 0).
    { unfold sum16. pose proof product_ok as Pk. induction Pk as [|t l [Ht Hl] _ IH]; cbn [fold_right]; [destruct (list_eqb _ _ _); ring|]. rewrite IH. destruct (W t Ht Hl) as [_ ->].
      destruct t as [|o1 [|o2 [|o3 [|o4 [|]]]]]; try discriminate. cbn [combine fold_right fst snd]. destruct (list_eqb _ _ _); ring. }
    rewrite S, sum16_value by auto. clear S W.
    destruct (nth p y false) eqn:Yp, (nth q y false) eqn:Yq, (nth r y false) eqn:Yr, (nth s y false) eqn:Ys; cbn [negb] in Ws; try (destruct (list_eqb _ _ _); ring);
      (destruct (list_eqb _ _ _); [|ring]); rewrite Ws by auto; unfold c', inversions; rewrite !sgn_xor;
      assert (Kn : kconj (c * - (1)) = kconj c * - (1)) by (rewrite kconj_mul, kconj_opp, kconj_1; reflexivity).
    all: apply distinct4 in N; clear Ws.
    all: destruct (Nat.ltb_spec q p), (Nat.ltb_spec s r), (s <? q), (r <? q), (s <? p), (r <? p); cbn [xorb negb sgn]; rewrite ?Kn; ring.
  Qed.

  (** ** Two-body terms *)
  Lemma unique4 p q r s : p <> q -> r <> s -> count_unique [p; q; r; s] =
    if Nat.eqb p r then if Nat.eqb q s then 2 else 3 else if Nat.eqb p s then if Nat.eqb q r then 2 else 3 else if Nat.eqb q r then 3 else if Nat.eqb q s then 3 else 4.
  Proof.
    intros D1 D2. unfold count_unique, uniq. cbn [uniq_from memb existsb].
    destruct (Nat.eqb_spec q p), (Nat.eqb_spec r q), (Nat.eqb_spec r p), (Nat.eqb_spec s r), (Nat.eqb_spec s q), (Nat.eqb_spec s p), (Nat.eqb_spec p r), (Nat.eqb_spec q s), (Nat.eqb_spec p s), (Nat.eqb_spec q r); try (exfalso; lia); reflexivity.
  Qed.
  Lemma nodup4 (p q r s : nat) : p <> q -> p <> r -> p <> s -> q <> r -> q <> s -> r <> s -> NoDup [p; q; r; s].
  Proof. intros. repeat constructor; cbn; lia. Qed.
  Lemma ladders_pp p r s x y : (p < n)%nat -> (r < n)%nat -> (s < n)%nat -> length x = n -> length y = n -> ladders (K := K) n [(p, true); (p, true); (r, false); (s, false)] x y = 0.
  Proof. intros. apply (creation_twice n [] p true [(r, false); (s, false)]); auto. intros f Hf; cbn in Hf; intuition (subst; cbn; lia). Qed.
  Lemma ladders_rr p q r x y : (p < n)%nat -> (q < n)%nat -> (r < n)%nat -> length x = n -> length y = n -> ladders (K := K) n [(p, true); (q, true); (r, false); (r, false)] x y = 0.
  Proof. intros. apply (creation_twice n [(p, true); (q, true)] r false []); auto. intros f Hf; cbn in Hf; intuition (subst; cbn; lia). Qed.
  Lemma two_body_acts p q r s c : (p < n)%nat -> (q < n)%nat -> (r < n)%nat -> (s < n)%nat -> acts 16 (jordan_wigner_two_body im half small is_zero p q r s c) (two_body_entry n p q r s c).
  Proof.
    intros Hp Hq Hr Hs. unfold jordan_wigner_two_body.
    destruct (Nat.eqb_spec p q) as [->|D1]; cbn [orb].
    { eapply acts_ext; [|eapply acts_le; [|apply acts_nil]]; [|lia]. intros x y Hx Hy. unfold two_body_entry. rewrite ladders_pp, ladders_rr by auto. destruct (_ || _)%bool; ring. }
    destruct (Nat.eqb_spec r s) as [->|D2].
    { eapply acts_ext; [|eapply acts_le; [|apply acts_nil]]; [|lia]. intros x y Hx Hy. unfold two_body_entry. rewrite ladders_pp, ladders_rr by auto. destruct (_ || _)%bool; ring. }
    rewrite unique4 by auto. unfold two_body_entry.
    destruct (Nat.eqb_spec p r) as [Er|N1], (Nat.eqb_spec q s) as [Es|N2], (Nat.eqb_spec p s) as [Ps|N3], (Nat.eqb_spec q r) as [Qr|N4]; cbn [andb orb Nat.eqb]; try (exfalso; lia).
    all: try (eapply acts_le; [|apply two_body_two_acts; auto]; lia).
    all: try (eapply acts_le; [|apply two_body_three_acts; auto; tauto]; lia).
    apply two_body_four_acts; [apply nodup4; auto|]. intros z Hz'. cbn in Hz'. intuition (subst; auto).
  Qed.
  Lemma two_body_length p q r s c : (length (jordan_wigner_two_body im half small is_zero p q r s c) <= 16)%nat.
  Proof.
    unfold jordan_wigner_two_body. destruct (_ || _)%bool; [cbn; lia|]. destruct (Nat.eqb _ 4).
    { unfold two_body_four. cbn zeta. match goal with |- (length (fold_left _ _ _) <= _)%nat => etransitivity; [apply (four_length p q r s _ (xy_product 4) [] 0); cbn; lia|cbn; lia] end. }
    destruct (Nat.eqb _ 3).
    { unfold two_body_three. destruct (three_modes p q r s c) as [[[a b] m] c']. cbn zeta.
      change (length (fold_left (three_step im half small is_zero a b (qmk [(m, Pz)] 1%K)) (hops im half c') []) <= 16)%nat. unfold hops. cbn [fold_left].
      match goal with |- (length ?z <= _)%nat => enough (length z <= 0 + 2 + 2 + 2 + 2)%nat by lia end.
      do 4 apply (three_step_length im half small is_zero Hz a b m). cbn. lia. }
    destruct (Nat.eqb _ 2); [|cbn; lia]. unfold two_body_two. cbn zeta. etransitivity; [apply sub_mk_length, add_mk_length, add_mk_length, sub_mk_length, le_n|cbn; lia].
  Qed.
  Lemma two_two_acts p q c : p <> q -> (p < n)%nat -> (q < n)%nat -> acts 4 (jordan_wigner_two_body im half small is_zero p q p q c) (fun x y => c * ladders n [(p, true); (q, true); (p, false); (q, false)] x y) /\
    (length (jordan_wigner_two_body im half small is_zero p q p q c) <= 4)%nat.
  Proof.
    intros D Hp Hq. unfold jordan_wigner_two_body. destruct (Nat.eqb_spec p q) as [E|_]; [contradiction|]. cbn [orb]. rewrite unique4 by auto. rewrite !Nat.eqb_refl. cbn [Nat.eqb].
    split; [apply two_body_two_acts; auto|]. unfold two_body_two. cbn zeta. etransitivity; [apply sub_mk_length, add_mk_length, add_mk_length, sub_mk_length, le_n|cbn; lia].
  Qed.
  Lemma one_one_acts p c : (p < n)%nat -> acts 2 (jordan_wigner_one_body im half small p p c) (fun x y => c * ladders n [(p, true); (p, false)] x y) /\
    (length (jordan_wigner_one_body im half small p p c) <= 2)%nat.
  Proof.
    intros Hp. unfold jordan_wigner_one_body. rewrite Nat.eqb_refl. cbn [negb]. split; [|etransitivity; [apply add_mk_length, add_mk_length, le_n|cbn; lia]].
    pose proof (acts_add im small n _ _ _ _ _ _ (acts_add im small n _ _ _ _ _ _ (acts_nil im small n) (acts_self im small n (qmk [] (half * c)))) (acts_self im small n (qmk [(p, Pz)] (- half * c)))) as H.
    rewrite !mk_length in H. eapply acts_ext; [|eapply acts_le; [|exact H]]; [|cbn; lia].
    intros x y Hx Hy. cbn beta. rewrite !E_mk by (auto; intros f Hf; cbn in Hf; intuition (subst; cbn; lia)).
    rewrite (number_entry small), nil_entry, (z_entry _ n) by auto. destruct (list_eqb Bool.eqb x y); [|ring]. destruct (nth p y false); [|ring].
    transitivity ((half + half) * c); [ring|rewrite Hhalf; ring].
  Qed.
End Four.

(** ** Sums over lists *)
Section Sums.
  Context {K : cring}.
  Add Ring Kring_jwi3 : (kth K).
  Open Scope K_scope.
  Definition lsum {X} (f : X -> K) (l : list X) : K := fold_right (fun a k => f a + k) 0 l.
  Lemma lsum_ext {X} (f g : X -> K) l : (forall a, In a l -> f a = g a) -> lsum f l = lsum g l.
  Proof. unfold lsum. induction l as [|a l IH]; intros H; cbn [fold_right]; [reflexivity|]. rewrite IH, (H a) by (intros; auto using in_eq, in_cons). reflexivity. Qed.
  Lemma lsum_0 {X} (f : X -> K) l : (forall a, In a l -> f a = 0) -> lsum f l = 0.
  Proof. unfold lsum. induction l as [|a l IH]; intros H; cbn [fold_right]; [reflexivity|]. rewrite IH, (H a) by (intros; auto using in_eq, in_cons). ring. Qed.
  Lemma lsum_add {X} (f g : X -> K) l : lsum (fun a => f a + g a) l = lsum f l + lsum g l.
  Proof. unfold lsum. induction l as [|a l IH]; cbn [fold_right]; [ring|]. rewrite IH. ring. Qed.
  Lemma lsum_mul {X} c (f : X -> K) l : lsum (fun a => c * f a) l = c * lsum f l.
  Proof. unfold lsum. induction l as [|a l IH]; cbn [fold_right]; [ring|]. rewrite IH. ring. Qed.
  Lemma lsum_conj {X} (f : X -> K) l : kconj (lsum f l) = lsum (fun a => kconj (f a)) l.
  Proof. unfold lsum. induction l as [|a l IH]; cbn [fold_right]; [apply kconj_0|]. rewrite kconj_add, IH. reflexivity. Qed.
  Lemma lsum_app {X} (f : X -> K) l m : lsum f (l ++ m) = lsum f l + lsum f m.
  Proof. unfold lsum. induction l as [|a l IH]; cbn [fold_right app]; [ring|]. rewrite IH. ring. Qed.
  Lemma lsum_map {X Y} (g : Y -> X) (f : X -> K) l : lsum f (map g l) = lsum (fun a => f (g a)) l.
  Proof. unfold lsum. induction l as [|a l IH]; cbn [fold_right map]; [reflexivity|]. rewrite IH. reflexivity. Qed.
  Lemma bigsum_lsum m (f : nat -> K) : bigsum m f = lsum f (seq 0 m).
  Proof. induction m as [|m IH]; [reflexivity|]. rewrite seq_S, lsum_app. cbn [bigsum]. rewrite IH. generalize (lsum f (seq 0 m)). intros z. cbn. ring. Qed.
  Lemma comb_sum {X} (f : X -> X -> K) l : lsum (fun u => lsum (f u) l) l = lsum (fun u => f u u) l + lsum (fun uv => f (fst uv) (snd uv) + f (snd uv) (fst uv)) (combinations2 l).
  Proof.
    induction l as [|a l IH]; [cbn; ring|]. cbn [combinations2]. rewrite lsum_app, lsum_map. cbn [fst snd].
    change (lsum (fun u => lsum (f u) (a :: l)) (a :: l)) with (f a a + lsum (f a) l + lsum (fun u => f u a + lsum (f u) l) l).
    change (lsum (fun u => f u u) (a :: l)) with (f a a + lsum (fun u => f u u) l). rewrite (lsum_add (fun u => f u a)), IH, !lsum_add. ring.
  Qed.
End Sums.
Lemma comb_in {X} (l : list X) u v : In (u, v) (combinations2 l) -> In u l /\ In v l.
Proof.
  induction l as [|a l IH]; cbn [combinations2]; [intros []|]. intros H. apply in_app_or in H as [H|H]; [apply in_map_iff in H as (z & E & Hz); inversion E; subst; split; [left; auto|right; auto]|].
  destruct (IH H). split; right; auto.
Qed.
Lemma comb_lt l u v : StronglySorted lt l -> In (u, v) (combinations2 l) -> u < v.
Proof.
  induction 1 as [|a l S IH F]; cbn [combinations2]; [intros []|]. intros H. apply in_app_or in H as [H|H]; [|auto]. apply in_map_iff in H as (z & E & Hz). inversion E; subst. rewrite Forall_forall in F. auto.
Qed.
Lemma comb_neq {X} (l : list X) u v : NoDup l -> In (u, v) (combinations2 l) -> u <> v.
Proof.
  induction 1 as [|a l Ha N IH]; cbn [combinations2]; [intros []|]. intros H. apply in_app_or in H as [H|H]; [|auto]. apply in_map_iff in H as (z & E & Hz). inversion E; subst. intros ->. contradiction.
Qed.
Lemma comb_NoDup {X} (l : list X) : NoDup l -> NoDup (combinations2 l).
Proof.
  induction 1 as [|a l Ha N IH]; cbn [combinations2]; [constructor|]. apply BaseFacts.NoDup_app; [apply FinFun.Injective_map_NoDup; [intros x y E; inversion E; auto|auto]|exact IH|].
  intros [x y] H1 H2. apply in_map_iff in H1 as (z & E & _). inversion E; subst. apply comb_in in H2. tauto.
Qed.
Lemma comb_length {X} (l : list X) : length (combinations2 l) = pairs (length l).
Proof.
  unfold pairs. induction l as [|a l IH]; [reflexivity|]. cbn [combinations2 length]. rewrite app_length, map_length, IH. set (m := length l). clearbody m.
  replace (S m * (S m - 1)) with (m * (m - 1) + m * 2) by (destruct m; cbn; lia). rewrite Nat.div_add by lia. lia.
Qed.
