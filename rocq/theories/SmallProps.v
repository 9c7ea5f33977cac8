(** C65: parity checks, reading a bitstring as a number, symbol maps. *)
From Coq Require Import String ZArith Lia.
From Verif Require Import Base BaseFacts LiftModel MatModel MatFacts UtilsModel DistModel MeasModel.
Open Scope list_scope.
Open Scope Z_scope.

(** number of marked positions (with repetition) that hold a one *)
Fixpoint ones_at (o : list Z) (marked : list nat) : nat :=
  match marked with
  | [] => 0
  | q :: marked' => (if Z.eqb (nth q o 0%Z) 1 then 1 else 0) + ones_at o marked'
  end%nat.

Theorem C65_check_parity : forall o marked, (forall q, In q marked -> (q < length o)%nat) ->
  check_parity o marked = Ok (Nat.even (ones_at o marked)).
Proof.
  intros o marked H. unfold check_parity.
  enough (G : forall r, check_parity_from r o marked = Ok (Bool.eqb r (Nat.even (ones_at o marked))))
    by (rewrite G; destruct (Nat.even _); reflexivity).
  induction marked as [|q m IH]; intros r; cbn [check_parity_from ones_at]; [destruct r; reflexivity|].
  assert (Hq : (q < length o)%nat) by (apply H; left; auto).
  rewrite (nth_error_nth' o 0 Hq), IH by (intros; apply H; right; auto).
  destruct (Z.eqb (nth q o 0) 1); cbn [Nat.add]; [rewrite Nat.even_succ, <- Nat.negb_even|]; destruct r, (Nat.even (ones_at o m)); reflexivity.
Qed.
Theorem C65_check_parity_out_of_range : forall o marked, (exists q, In q marked /\ (length o <= q)%nat) ->
  check_parity o marked = Err IndexError.
Proof.
  intros o marked (q & I & L). unfold check_parity. generalize true. induction marked as [|x m IH]; [destruct I|]. intros r. cbn.
  destruct I as [->|I]; [rewrite (proj2 (nth_error_None o q) L); reflexivity|].
  destruct (nth_error o x); [apply IH; auto|reflexivity].
Qed.
(** The vectorised check agrees with it bitstring by bitstring, for bits: 1 for even parity, 0 for odd. *)
Theorem C65_vectorised : forall n rows marked, (forall r, In r rows -> length r = n /\ forall b, In b r -> b = 0 \/ b = 1) ->
  (forall q, In q marked -> (q < n)%nat) ->
  exists vs, check_parity_of_vector n rows marked = Ok vs /\ length vs = length rows /\
    forall k, (k < length rows)%nat -> check_parity (nth k rows []) marked = Ok (Z.eqb (nth k vs 0) 1) /\ (nth k vs 0 = 0 \/ nth k vs 0 = 1).
Proof.
  intros n rows marked HR HM.
  assert (E : check_parity_of_vector n rows marked = Ok (map (fun r => if Nat.even (ones_at r marked) then 1 else 0) rows)).
  { unfold check_parity_of_vector. destruct marked as [|q0 m0] eqn:Em.
    - reflexivity.
    - rewrite <- Em in *. replace (forallb _ marked) with true by (symmetry; apply forallb_forall; intros q Hq; apply Nat.ltb_lt, HM; auto).
      f_equal. apply map_ext_in. intros r Hr. destruct (HR r Hr) as [L B]. clear Em HR.
      assert (S : sum_Z (map (fun q => nth q r 0) marked) = Z.of_nat (ones_at r marked)).
      { clear q0 m0. induction marked as [|q m IH]; [reflexivity|]. cbn [map ones_at]. 
        assert (Hq : (q < length r)%nat) by (rewrite L; apply HM; left; auto).
        unfold sum_Z in *. cbn [fold_right]. rewrite IH by (intros; apply HM; right; auto).
        destruct (B _ (nth_In r 0 Hq)) as [Q|Q]; rewrite Q; cbn [Z.eqb Pos.eqb]; lia. }
      rewrite S. rewrite <- (Z2Nat.id ((Z.of_nat (ones_at r marked) + 1) mod 2)) by (apply Z.mod_pos_bound; lia).
      destruct (Nat.even (ones_at r marked)) eqn:Ev.
      + apply Nat.even_spec in Ev. destruct Ev as [k Hk]. rewrite Hk. replace (Z.of_nat (2 * k) + 1) with (1 + Z.of_nat k * 2) by lia.
        rewrite Z.mod_add by lia. reflexivity.
      + assert (O : Nat.odd (ones_at r marked) = true) by (rewrite <- Nat.negb_even, Ev; reflexivity).
        apply Nat.odd_spec in O. destruct O as [k Hk]. rewrite Hk. replace (Z.of_nat (2 * k + 1) + 1) with (0 + Z.of_nat (k + 1) * 2) by lia.
        rewrite Z.mod_add by lia. reflexivity. }
  eexists. split; [exact E|]. split; [apply map_length|]. intros k Hk.
  pose proof (nth_In rows [] Hk) as I. destruct (HR _ I) as [L B].
  rewrite (nth_indep _ 0 (if Nat.even (ones_at [] marked) then 1 else 0)) by (rewrite map_length; auto).
  rewrite (map_nth (fun r => if Nat.even (ones_at r marked) then 1 else 0)).
  rewrite C65_check_parity by (intros q Hq; rewrite L; auto). destruct (Nat.even _); auto.
Qed.

(** The first bit is the least significant one: the value is the sum of 2^k over the positions k that hold a one. *)
Fixpoint little_endian (k : nat) (l : list bool) : Z :=
  match l with [] => 0 | b :: l' => (if b then 2 ^ Z.of_nat k else 0) + little_endian (S k) l' end.
Theorem C65_bitstring_to_int : forall l, l <> [] -> convert_bitstring_to_int l = Ok (little_endian 0 l).
Proof.
  intros l N. unfold convert_bitstring_to_int. destruct l as [|b l]; [contradiction|]. f_equal. clear N. revert b.
  assert (G : forall m k, little_endian k m = 2 ^ Z.of_nat k * Z.of_nat (bval (rev m))).
  { induction m as [|b m IH]; intros k; [cbn; lia|]. cbn [rev little_endian]. rewrite IH, bval_app. cbn [length Nat.pow].
    rewrite Nat2Z.inj_succ, Z.pow_succ_r by lia. destruct b; cbn [bval length Nat.pow]; lia. }
  intros b. rewrite G. cbn [Z.of_nat Z.pow]. lia.
Qed.

Theorem C65_symbols_map : forall (V : Type) (symbols : list string) (params : list V), NoDup symbols ->
  (length symbols <> length params -> create_symbols_map symbols params = Err ValueError) /\
  (length symbols = length params -> exists d, create_symbols_map symbols params = Ok d /\ dkeys d = symbols /\
     forall k s v, nth_error symbols k = Some s -> nth_error params k = Some v -> dget String.eqb s d = Some v).
Proof.
  intros V ss ps N. unfold create_symbols_map. split; intros H.
  - apply Nat.eqb_neq in H. rewrite H. reflexivity.
  - rewrite H, Nat.eqb_refl. cbn [negb].
    assert (K : dkeys (combine ss ps) = ss).
    { revert ps H. clear N. induction ss as [|s ss IH]; intros [|p ps] H; cbn in *; try discriminate; auto. f_equal. apply IH. lia. }
    rewrite dict_of_NoDup_id by (try apply string_eqb_spec; rewrite K; auto).
    exists (combine ss ps). split; [reflexivity|]. split; [exact K|]. intros k s v Es Ev.
    apply In_dget; [apply string_eqb_spec|rewrite K; auto|].
    clear K N H. revert k ps Es Ev. induction ss as [|x ss IH]; intros [|k] [|p ps] Es Ev; cbn in *; try discriminate; auto.
    + injection Es as ->. injection Ev as ->. auto.
    + right. eauto.
Qed.
Example C65_example : check_parity [0; 1; 1; 1] [1; 3; 0]%nat = Ok true /\ check_parity [0; 1] [2]%nat = Err IndexError
  /\ convert_bitstring_to_int [false; true; true] = Ok 6
  /\ create_symbols_map ["a"; "b"]%string [5; 7] = Ok [("a"%string, 5); ("b"%string, 7)].
Proof. repeat split. Qed.
Print Assumptions C65_vectorised.
Print Assumptions C65_symbols_map.
