(** Proofs about expectation values and parities. *)
From Coq Require Import String Ascii NArith Nnat QArith Qround Qabs Lqa Sorting.Permutation ZifyNat ZifyBool.
From Verif Require Import Base BaseFacts MatModel MatFacts LiftModel Json UtilsModel UtilsSpec UtilsProofs DistModel DistSpec DistProofs MeasModel MeasSpec MeasProofs.
Local Open Scope list_scope.
Local Open Scope nat_scope.

(** *** counters and sums *)
Lemma sum_Z_app a b : sum_Z (a ++ b) = (sum_Z a + sum_Z b)%Z.
Proof. induction a as [|x a IH]; cbn; [reflexivity|]. rewrite IH. lia. Qed.
Section CSum.
  Context {A : Type} (eqb : A -> A -> bool) (Hs : eqb_spec_of eqb) (f : A -> Z).
  Definition csum (d : list (A * nat)) : Z := sum_Z (map (fun kc => Z.of_nat (snd kc) * f (fst kc))%Z d).
  Lemma csum_one d a : csum (count_one eqb d a) = (csum d + f a)%Z.
  Proof.
    unfold count_one. assert (G : forall d v, csum (dset eqb a v d) = (csum d + (Z.of_nat v - Z.of_nat (cget eqb d a)) * f a)%Z).
    { clear d. intros d v. unfold csum. induction d as [|[k n] d IH]; cbn [dset map sum_Z fst snd]; [cbn; lia|].
      rewrite cget_cons. destruct (eqb a k) eqn:E; cbn [map sum_Z fst snd]; [apply Hs in E; subst; lia|]. rewrite IH. lia. }
    rewrite G. unfold cget. destruct (dget eqb a d); lia.
  Qed.
  Lemma csum_counter l : csum (counter eqb l) = sum_Z (map f l).
  Proof.
    unfold counter. assert (G : forall l d, csum (fold_left (count_one eqb) l d) = (csum d + sum_Z (map f l))%Z).
    { induction l0 as [|a l0 IH]; intros d; cbn [fold_left map sum_Z]; [lia|]. rewrite IH, csum_one. lia. }
    rewrite G. reflexivity.
  Qed.
End CSum.

(** *** parity *)
Lemma parity_sign qs r : ((sum_Z (map (fun q => nth q r 0%Z) qs) + 1) mod 2 * 2 - 1 = z_sign qs r)%Z.
Proof.
  unfold z_sign. induction qs as [|q qs IH]; [reflexivity|]. cbn [map sum_Z fold_right]. rewrite <- IH. set (x := nth q r 0%Z). set (s := sum_Z _).
  assert (Hodd : Z.odd x = (x mod 2 =? 1)%Z) by (rewrite Zmod_odd; destruct (Z.odd x); reflexivity). rewrite Hodd.
  pose proof (Z.mod_pos_bound x 2). pose proof (Z.mod_pos_bound s 2).
  assert (E1 : ((s + 1) mod 2 = 1 - s mod 2)%Z).
  { rewrite <- Zplus_mod_idemp_l. assert (C : (s mod 2 = 0 \/ s mod 2 = 1)%Z) by lia. destruct C as [-> | ->]; reflexivity. }
  assert (E2 : ((x + s + 1) mod 2 = if (x mod 2 =? 1) then s mod 2 else 1 - s mod 2)%Z).
  { rewrite <- Z.add_assoc, Z.add_mod, E1 by lia. assert (C : (s mod 2 = 0 \/ s mod 2 = 1)%Z) by lia. assert (C' : (x mod 2 = 0 \/ x mod 2 = 1)%Z) by lia.
    destruct C as [-> | ->], C' as [-> | ->]; reflexivity. }
  rewrite E1, E2. destruct (Z.eqb_spec (x mod 2) 1); lia.
Qed.
Lemma z_sign_pm qs r : (z_sign qs r = 1 \/ z_sign qs r = -1)%Z.
Proof. unfold z_sign. induction qs as [|q qs IH]; [left; reflexivity|]. cbn [map fold_right]. destruct (Z.odd _), IH as [-> | ->]; auto. Qed.
Lemma z_sign_app a b r : z_sign (a ++ b) r = (z_sign a r * z_sign b r)%Z.
Proof. unfold z_sign. rewrite map_app, fold_right_app. induction (map _ a) as [|x l IH]; cbn [fold_right]; [lia|]. rewrite IH. lia. Qed.
Lemma z_sign_perm a b r : Permutation a b -> z_sign a r = z_sign b r.
Proof. unfold z_sign. intros H. induction H; cbn [map fold_right]; try lia. Qed.
Lemma filter_split_perm {A} (p : A -> bool) l : Permutation l (filter p l ++ filter (fun x => negb (p x)) l).
Proof.
  induction l as [|a l IH]; [constructor|]. cbn. destruct (p a); cbn; [constructor; auto|]. apply Permutation_cons_app. exact IH.
Qed.
Lemma z_sign_symdiff a b r : NoDup a -> NoDup b -> z_sign (symmetric_difference a b) r = (z_sign a r * z_sign b r)%Z.
Proof.
  intros Ha Hb. unfold symmetric_difference. rewrite z_sign_app.
  pose proof (filter_split_perm (fun q => memb Nat.eqb q b) a) as Pa. pose proof (filter_split_perm (fun q => memb Nat.eqb q a) b) as Pb.
  rewrite (z_sign_perm _ _ r Pa), (z_sign_perm _ _ r Pb), !z_sign_app.
  assert (E : Permutation (filter (fun q => memb Nat.eqb q b) a) (filter (fun q => memb Nat.eqb q a) b)).
  { apply NoDup_Permutation; [apply NoDup_filter; auto|apply NoDup_filter; auto|]. intros q. rewrite !filter_In, !(memb_In _ Nat.eqb_eq). tauto. }
  rewrite (z_sign_perm _ _ r E). destruct (z_sign_pm (filter (fun q => memb Nat.eqb q a) b) r) as [-> | ->]; lia.
Qed.
Lemma check_parity_vector n rows marked : (forall q, In q marked -> q < n) ->
  check_parity_of_vector n rows marked = Ok (map (fun r => (sum_Z (map (fun q => nth q r 0%Z) marked) + 1) mod 2)%Z rows).
Proof.
  intros H. unfold check_parity_of_vector. destruct marked as [|q qs].
  - f_equal.
  - assert (E : forallb (fun q => q <? n) (q :: qs) = true) by (apply forallb_forall; intros x Hx; apply Nat.ltb_lt, H, Hx). rewrite E. reflexivity.
Qed.

(** *** strings *)
Definition digits_of (s : string) : list Z := map (fun c => (Z.of_N (N_of_ascii c) - 48)%Z) (list_ascii_of_string s).
Lemma digits_of_written t : (forall d, In d t -> (0 <= d <= 9)%Z) -> digits_of (written t) = t.
Proof.
  intros H. pose proof (digits_concat t H) as E. change (String.concat EmptyString (map str_of_int t)) with (written t) in E. unfold digits_of.
  revert E. generalize (list_ascii_of_string (written t)). clear H. revert t. intros t l. revert t. induction l as [|c l IH]; intros t; cbn [mapM].
  - intros [= <-]. reflexivity.
  - destruct (int_of_char c) as [d|] eqn:Ec; cbn [rbind]; [|discriminate]. destruct (mapM int_of_char l) as [t'|] eqn:El; cbn [rbind]; [|discriminate].
    intros [= <-]. cbn [map]. rewrite (IH t' eq_refl). f_equal. unfold int_of_char in Ec. destruct (_ && _)%bool eqn:Eb; [|discriminate]. injection Ec as <-. lia.
Qed.
Lemma written_length t : (forall d, In d t -> (0 <= d <= 9)%Z) -> String.length (written t) = length t.
Proof.
  intros H. rewrite <- (digits_of_written t H) at 2. unfold digits_of. rewrite map_length. generalize (written t). clear. intros s. induction s; cbn; auto.
Qed.
Lemma rows_of_concat n rows : 0 < n -> (forall r, In r rows -> length r = n) -> forall fuel, length (List.concat rows) <= fuel -> rows_of fuel n (List.concat rows) = rows.
Proof.
  intros Hn. induction rows as [|r rows IH]; intros H fuel Hf; [destruct fuel; reflexivity|]. cbn [List.concat] in *. rewrite app_length in Hf.
  assert (Hr : length r = n) by (apply H; left; auto). destruct fuel as [|fuel]; [lia|]. cbn [rows_of].
  destruct (r ++ List.concat rows) as [|x l] eqn:E; [destruct r; [cbn in *; lia|discriminate]|]. rewrite <- E.
  rewrite <- Hr at 1. rewrite firstn_app, Nat.sub_diag, firstn_all, app_nil_r. rewrite <- Hr at 2. rewrite skipn_app, skipn_all, Nat.sub_diag. cbn [app skipn].
  rewrite IH; [reflexivity|intros; apply H; right; auto|lia].
Qed.
Lemma length_concat_uniform {A} n (rows : list (list A)) : (forall r, In r rows -> length r = n) -> length (List.concat rows) = n * length rows.
Proof. induction rows as [|r rows IH]; intros H; cbn; [lia|]. rewrite app_length, IH by (intros; apply H; right; auto). rewrite (H r (or_introl eq_refl)). lia. Qed.

Section Ev.
  Context (m : measurements) (n : nat) (Hne : m <> []) (Hn : 1 <= n) (Hlen : forall t, In t m -> length t = n) (Hdig : digits_only m).
  Let keys := map fst (get_counts m).
  Lemma keys_in s : In s keys -> exists t, In t m /\ s = written t.
  Proof.
    unfold keys. rewrite get_counts_eq. intros H. apply (proj1 (counter_keys _ string_eqb_spec _ _)) in H. apply in_map_iff in H. destruct H as (t & <- & H). eauto.
  Qed.
  Lemma keys_nonempty : keys <> [].
  Proof.
    intros E. assert (Hex : exists t, In t m) by (destruct m as [|t l]; [congruence|exists t; left; reflexivity]). destruct Hex as [t Ht].
    assert (H : In (written t) keys). { unfold keys. rewrite get_counts_eq. apply (counter_keys _ string_eqb_spec). apply in_map, Ht. }
    rewrite E in H. destruct H.
  Qed.
  Lemma vector_spec : convert_bitstrings_to_vector keys = Ok (n, map digits_of keys).
  Proof.
    assert (Hrow : forall r, In r (map digits_of keys) -> length r = n).
    { intros r Hr. apply in_map_iff in Hr. destruct Hr as (s & <- & Hs). destruct (keys_in s Hs) as (t & Ht & ->). rewrite digits_of_written by (intros; eapply Hdig; eauto). auto. }
    unfold convert_bitstrings_to_vector. destruct keys as [|s ks] eqn:E; [exfalso; apply keys_nonempty; exact E|].
    assert (Hs : String.length s = n).
    { destruct (keys_in s) as (t & Ht & ->); [rewrite E; left; auto|]. rewrite written_length by (intros; eapply Hdig; eauto). auto. }
    rewrite Hs. cbv zeta.
    assert (Ef : map (fun c => (Z.of_N (N_of_ascii c) - 48)%Z) (flat_map list_ascii_of_string (s :: ks)) = List.concat (map digits_of (s :: ks))).
    { rewrite flat_map_concat_map, concat_map, map_map. reflexivity. }
    rewrite Ef. destruct (Nat.eqb_spec n 0); [lia|]. rewrite (length_concat_uniform n) by exact Hrow.
    rewrite Nat.mul_comm, Nat.mod_mul by lia. cbn [Nat.eqb negb]. rewrite rows_of_concat; [reflexivity|lia|exact Hrow|].
    rewrite (length_concat_uniform n) by exact Hrow. lia.
  Qed.
  Lemma num_measurements : sum_nat (map snd (get_counts m)) = length m.
  Proof. pose proof (counter_total _ string_eqb_spec (map written m)) as H. unfold total_count in H. rewrite map_length in H. exact H. Qed.
  Lemma freq_spec marked : (forall q, In q marked -> q < n) ->
    exists e, expectation_from_frequencies marked (get_counts m) = Ok e /\ (e == mean (fun o => inject_Z (z_sign marked o)) m)%Q.
  Proof.
    intros Hq. unfold expectation_from_frequencies. fold keys. rewrite vector_spec. cbn [rbind]. rewrite check_parity_vector by exact Hq. cbn [rbind].
    eexists. split; [reflexivity|]. rewrite num_measurements. rewrite !map_map.
    assert (Hnz : ~ (inject_Z (Z.of_nat (length m)) == 0)%Q).
    { intros E. change 0%Q with (inject_Z 0) in E. apply (proj1 (inject_Z_injective _ _)) in E. destruct m; [congruence|cbn in E; lia]. }
    set (g := fun s => z_sign marked (digits_of s)).
    assert (E1 : forall d : list (string * nat), (sum_Q (map (fun cp => inject_Z (Z.of_nat (fst cp)) * inject_Z (snd cp) / inject_Z (Z.of_nat (length m)))
        (combine (map snd d) (map (fun s => (sum_Z (map (fun q => nth q (digits_of s) 0%Z) marked) + 1) mod 2 * 2 - 1)%Z (map fst d)))) ==
        inject_Z (csum g d) / inject_Z (Z.of_nat (length m)))%Q).
    { intros d. unfold csum. induction d as [|[s c] d IH]; [cbn; field; exact Hnz|]. cbn [map combine sum_Q fst snd sum_Z]. rewrite IH, parity_sign.
      fold (g s). rewrite inject_Z_plus, inject_Z_mult. field. exact Hnz. }
    unfold keys. rewrite E1. rewrite get_counts_eq, (csum_counter _ string_eqb_spec). unfold mean. apply Qmult_comp; [|reflexivity].
    rewrite map_map.
    assert (E2 : sum_Z (map (fun x => g (written x)) m) = sum_Z (map (z_sign marked) m)).
    { f_equal. apply map_ext_in. intros t Ht. unfold g. rewrite digits_of_written by (intros; eapply Hdig; eauto). reflexivity. }
    rewrite E2. clear. induction m as [|t l IH]; [reflexivity|]. cbn [map sum_Z fold_right]. rewrite inject_Z_plus, IH. reflexivity.
  Qed.
End Ev.

Lemma mean_comp f g m : (forall o, In o m -> f o == g o)%Q -> (mean f m == mean g m)%Q.
Proof.
  intros H. unfold mean. apply Qmult_comp; [|reflexivity]. induction m as [|t l IH]; [reflexivity|]. cbn [map fold_right].
  rewrite (H t (or_introl eq_refl)), IH; [reflexivity|]. intros; apply H; right; auto.
Qed.
Lemma mean_bound f m : m <> [] -> (forall o, In o m -> -1 <= f o <= 1)%Q -> (-1 <= mean f m <= 1)%Q.
Proof.
  intros Hm H. unfold mean. assert (Hpos : (0 < inject_Z (Z.of_nat (length m)))%Q).
  { change 0%Q with (inject_Z 0). rewrite <- Zlt_Qlt. destruct m; [congruence|cbn [length]; lia]. }
  assert (B : (- inject_Z (Z.of_nat (length m)) <= fold_right Qplus 0 (map f m) <= inject_Z (Z.of_nat (length m)))%Q).
  { clear Hm Hpos. induction m as [|t l IH]; [cbn; split; discriminate|]. cbn [map fold_right length]. rewrite Nat2Z.inj_succ, <- Z.add_1_r, inject_Z_plus. change (inject_Z 1) with 1%Q.
    pose proof (H t (or_introl eq_refl)). destruct IH as [I1 I2]; [intros; apply H; right; auto|]. split; lra. }
  split; [apply Qle_shift_div_l|apply Qle_shift_div_r]; try exact Hpos; lra.
Qed.

(** *** parities *)
Lemma vector_of_spec (l : list outcome) n : l <> [] -> (forall t, In t l -> length t = n) -> vector_of l = Ok (n, l).
Proof.
  intros Hl H. destruct l as [|t l]; [congruence|]. unfold vector_of. rewrite (H t (or_introl eq_refl)).
  assert (E : forallb (fun r => Nat.eqb (length r) n) (t :: l) = true) by (apply forallb_forall; intros r Hr; apply Nat.eqb_eq, H, Hr). rewrite E. reflexivity.
Qed.
Lemma dot_csum (f : outcome -> Z) (d : list (outcome * nat)) : dot (map f (map fst d)) (map snd d) = csum f d.
Proof. unfold dot, csum. induction d as [|[k c] d IH]; [reflexivity|]. cbn [map combine sum_Z fst snd]. rewrite IH. lia. Qed.
Lemma sum_indicator (p : outcome -> bool) m : sum_Z (map (fun o => if p o then 1%Z else 0%Z) m) = Z.of_nat (length (filter p m)).
Proof. induction m as [|o m IH]; [reflexivity|]. cbn [map sum_Z filter]. rewrite IH. destruct (p o); cbn [length]; lia. Qed.
Definition even_on (qs : list nat) (o : outcome) : bool := Z.eqb (z_sign qs o) 1.
Lemma parity_bit qs r : ((sum_Z (map (fun q => nth q r 0%Z) qs) + 1) mod 2 = if even_on qs r then 1 else 0)%Z.
Proof. pose proof (parity_sign qs r) as E. unfold even_on. destruct (z_sign_pm qs r) as [H|H]; rewrite H in *; cbn; lia. Qed.
Section Par.
  Context (m : measurements) (n : nat) (Hne : m <> []) (Hlen : forall t, In t m -> length t = n) (op : ising)
          (Hop : forall t c q, In (t, c) op -> In q t -> q < n).
  Lemma parities_eq : get_parities_from_measurements m op =
    Ok {| par_values := map (fun tc => (Z.of_nat (length (filter (even_on (fst tc)) m)), Z.of_nat (length (filter (fun o => negb (even_on (fst tc) o)) m)))) op;
          par_correlations := Some [map (fun t1 => map (fun t2 =>
             (Z.of_nat (length (filter (fun o => Bool.eqb (even_on (fst t1) o) (even_on (fst t2) o)) m)),
              Z.of_nat (length (filter (fun o => negb (Bool.eqb (even_on (fst t1) o) (even_on (fst t2) o))) m)))) op) op] |}.
  Proof.
    unfold get_parities_from_measurements. cbv zeta.
    assert (Kin : forall t, In t (map fst (counter outcome_eqb m)) <-> In t m) by (intros; apply (counter_keys _ outcome_eqb_spec)).
    rewrite (vector_of_spec _ n).
    2:{ intros E. destruct m as [|t m'] eqn:Em; [congruence|]. assert (H : In t (map fst (counter outcome_eqb (t :: m')))) by (apply Kin; left; auto). rewrite E in H. destruct H. }
    2:{ intros t Ht. apply Hlen, Kin, Ht. }
    cbn [rbind].
    assert (G : forall p : outcome -> bool, dot (map (fun o => if p o then 1%Z else 0%Z) (map fst (counter outcome_eqb m))) (map snd (counter outcome_eqb m)) = Z.of_nat (length (filter p m))).
    { intros p. rewrite dot_csum, (csum_counter _ outcome_eqb_spec), sum_indicator. reflexivity. }
    assert (V : forall tc, In tc op -> check_parity_of_vector n (map fst (counter outcome_eqb m)) (fst tc) =
       Ok (map (fun o => if even_on (fst tc) o then 1%Z else 0%Z) (map fst (counter outcome_eqb m)))).
    { intros [t c] Hin. rewrite check_parity_vector by (intros; eapply Hop; eauto). f_equal. apply map_ext. intros o. apply parity_bit. }
    rewrite (mapM_ok_ext _ (fun tc => (Z.of_nat (length (filter (even_on (fst tc)) m)), Z.of_nat (length (filter (fun o => negb (even_on (fst tc) o)) m))))).
    2:{ intros tc Hin. rewrite (V tc Hin). cbn [rbind]. f_equal. f_equal; [apply G|]. rewrite <- G. f_equal. rewrite !map_map. apply map_ext. intros o. destruct (even_on (fst tc) _); reflexivity. }
    cbn [rbind].
    rewrite (mapM_ok_ext _ (fun t1 => map (fun t2 =>
             (Z.of_nat (length (filter (fun o => Bool.eqb (even_on (fst t1) o) (even_on (fst t2) o)) m)),
              Z.of_nat (length (filter (fun o => negb (Bool.eqb (even_on (fst t1) o) (even_on (fst t2) o))) m)))) op)).
    2:{ intros t1 H1. apply mapM_ok_ext. intros t2 H2. rewrite (V t1 H1), (V t2 H2). cbn [rbind]. f_equal.
        assert (E : map (fun ab => Z.abs (fst ab - snd ab)) (combine (map (fun o => if even_on (fst t1) o then 1%Z else 0%Z) (map fst (counter outcome_eqb m)))
                       (map (fun o => if even_on (fst t2) o then 1%Z else 0%Z) (map fst (counter outcome_eqb m)))) =
                    map (fun o => if negb (Bool.eqb (even_on (fst t1) o) (even_on (fst t2) o)) then 1%Z else 0%Z) (map fst (counter outcome_eqb m))).
        { generalize (map fst (counter outcome_eqb m)). induction l as [|o l IH]; [reflexivity|]. cbn [map combine fst snd]. rewrite IH. f_equal. destruct (even_on (fst t1) o), (even_on (fst t2) o); reflexivity. }
        rewrite E. f_equal; [|apply G]. rewrite <- G. f_equal. rewrite map_map. apply map_ext. intros o. destruct (Bool.eqb _ _); reflexivity. }
    reflexivity.
  Qed.
End Par.
Lemma filter_length_split {A} (p : A -> bool) l : length (filter p l) + length (filter (fun x => negb (p x)) l) = length l.
Proof. induction l as [|a l IH]; [reflexivity|]. cbn. destruct (p a); cbn; lia. Qed.
Lemma sum_sign_even qs m : sum_Z (map (z_sign qs) m) = (2 * Z.of_nat (length (filter (even_on qs) m)) - Z.of_nat (length m))%Z.
Proof.
  induction m as [|o m IH]; [reflexivity|]. cbn [map sum_Z filter length]. rewrite IH. unfold even_on at 2. destruct (z_sign_pm qs o) as [H|H]; rewrite H; cbn [Z.eqb Pos.eqb length]; lia.
Qed.
Lemma mean_sign_even qs m : m <> [] -> (mean (fun o => inject_Z (z_sign qs o)) m == 2 * (inject_Z (Z.of_nat (length (filter (even_on qs) m))) / inject_Z (Z.of_nat (length m))) - 1)%Q.
Proof.
  intros Hm. assert (Hnz : ~ (inject_Z (Z.of_nat (length m)) == 0)%Q).
  { intros E. change 0%Q with (inject_Z 0) in E. apply (proj1 (inject_Z_injective _ _)) in E. destruct m; [congruence|cbn in E; lia]. }
  unfold mean. assert (E : (fold_right Qplus 0 (map (fun o => inject_Z (z_sign qs o)) m) == inject_Z (sum_Z (map (z_sign qs) m)))%Q).
  { clear. induction m as [|t l IH]; [reflexivity|]. cbn [map sum_Z fold_right]. rewrite inject_Z_plus, IH. reflexivity. }
  rewrite E, sum_sign_even. unfold Z.sub. rewrite inject_Z_plus, inject_Z_opp, inject_Z_mult. change (inject_Z 2) with 2%Q. field. exact Hnz.
Qed.
