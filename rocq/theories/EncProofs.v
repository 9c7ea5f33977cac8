(** Proofs about encoding and decoding. *)
From Coq Require Import List ZArith QArith String Bool Lia.
From Verif Require Import Base BaseFacts Json UtilsModel UtilsProofs DistModel DistSpec DistProofs DistProps EncModel EncSpec.
Import ListNotations.
Open Scope nat_scope.
Open Scope string_scope.
Open Scope list_scope.

Section Ind.
  Context (P : pv -> Prop) (Hnone : P VNone) (Hbool : forall b, P (VBool b)) (Hnum : forall q, P (VNum q)) (Hstr : forall s, P (VStr s))
    (Hlist : forall l, Forall P l -> P (VList l)) (Htuple : forall l, Forall P l -> P (VTuple l))
    (Hdict : forall d, Forall (fun kv => P (snd kv)) d -> P (VDict d)) (Hopt : forall d, Forall (fun kv => P (snd kv)) d -> P (VOptResult d))
    (Hnamed : forall d, Forall (fun kv => P (snd kv)) d -> P (VNamed d))
    (Hentry : forall n p x a, P n -> P p -> P x -> (forall b, a = Some b -> P b) -> P (VEntry n p x a))
    (Hest : forall e, P (VEst e)) (Hdist : forall d, P (VDist d)) (Harr : forall s r i, P (VArr s r i)) (Hother : P VOther).
  Fixpoint pv_ind' (v : pv) : P v :=
    let fix golist l : Forall P l := match l with [] => Forall_nil P | x :: l' => Forall_cons x (pv_ind' x) (golist l') end in
    let fix godict d : Forall (fun kv : string * pv => P (snd kv)) d :=
      match d with [] => Forall_nil _ | kv :: d' => Forall_cons kv (pv_ind' (snd kv)) (godict d') end in
    match v with
    | VNone => Hnone | VBool b => Hbool b | VNum q => Hnum q | VStr s => Hstr s
    | VList l => Hlist l (golist l) | VTuple l => Htuple l (golist l)
    | VDict d => Hdict d (godict d) | VOptResult d => Hopt d (godict d) | VNamed d => Hnamed d (godict d)
    | VEntry n p x a => Hentry n p x a (pv_ind' n) (pv_ind' p) (pv_ind' x)
                          match a with None => fun b H => match H in _ = y return match y with None => True | Some b => P b end with eq_refl => I end
                                     | Some a' => fun b H => match H in _ = y return match y with None => True | Some b => P b end with eq_refl => pv_ind' a' end end
    | VEst e => Hest e | VDist d => Hdist d | VArr s r i => Harr s r i | VOther => Hother
    end.
End Ind.

Definition onsnd {A B} (f : A -> result B) (kv : string * A) : result (string * B) := let! b := f (snd kv) in Ok (fst kv, b).
Lemma to_json_list l : to_json (VList l) = (let! js := mapM to_json l in Ok (JArr js)).
Proof.
  cbn [to_json]. match goal with |- rbind ?a _ = _ => assert (E : a = mapM to_json l) end; [|rewrite E; reflexivity].
  induction l as [|x l IH]; [reflexivity|]. cbn [mapM]. rewrite IH. reflexivity.
Qed.
Lemma to_json_dict d : to_json (VDict d) = (let! js := mapM (onsnd to_json) d in Ok (JObj js)).
Proof.
  cbn [to_json]. match goal with |- rbind ?a _ = _ => assert (E : a = mapM (onsnd to_json) d) end; [|rewrite E; reflexivity].
  induction d as [|[k x] d IH]; [reflexivity|]. cbn [mapM onsnd fst snd]. rewrite IH. unfold onsnd. cbn [fst snd]. destruct (to_json x); reflexivity.
Qed.
Lemma decode_arr l : decode (JArr l) = (let! vs := mapM decode l in Ok (VList vs)).
Proof.
  cbn [decode]. match goal with |- rbind ?a _ = _ => assert (E : a = mapM decode l) end; [|rewrite E; reflexivity].
  induction l as [|x l IH]; [reflexivity|]. cbn [mapM]. rewrite IH. reflexivity.
Qed.
Lemma decode_obj d : decode (JObj d) = (let! vs := mapM (onsnd decode) d in object_hook (dict_of String.eqb vs)).
Proof.
  cbn [decode]. match goal with |- rbind ?a _ = _ => assert (E : a = mapM (onsnd decode) d) end; [|rewrite E; reflexivity].
  induction d as [|[k x] d IH]; [reflexivity|]. cbn [mapM onsnd fst snd]. rewrite IH. unfold onsnd. cbn [fst snd]. destruct (decode x); reflexivity.
Qed.

(** what is to be shown of one value *)
Definition trips (u w : pv) : Prop := exists j, to_json u = Ok j /\ decode j = Ok w.
Lemma trips_list l l' : Forall2 trips l l' -> trips (VList l) (VList l').
Proof.
  intros H. unfold trips. rewrite to_json_list.
  assert (G : exists js, mapM to_json l = Ok js /\ mapM decode js = Ok l').
  { induction H as [|u w l l' (j & E1 & E2) H (js & E3 & E4)]; [exists []; auto|]. exists (j :: js). cbn [mapM]. rewrite E1, E2. cbn [rbind]. rewrite E3, E4. auto. }
  destruct G as (js & E & E'). exists (JArr js). rewrite E, decode_arr, E'. auto.
Qed.
Definition dtrips (d d' : list (string * pv)) : Prop := Forall2 (fun a b => fst a = fst b /\ trips (snd a) (snd b)) d d'.
Lemma dtrips_keys d d' : dtrips d d' -> map fst d = map fst d'.
Proof. induction 1 as [|a b d d' [E _] H IH]; cbn; congruence. Qed.
Lemma trips_dict d d' w : dtrips d d' -> NoDup (map fst d) -> object_hook d' = Ok w -> trips (VDict d) w.
Proof.
  intros H ND Hw. unfold trips. rewrite to_json_dict.
  assert (G : exists js, mapM (onsnd to_json) d = Ok js /\ mapM (onsnd decode) js = Ok d').
  { clear ND Hw. induction H as [|[k u] [k' w'] l l' [Ek (j & E1 & E2)] H (js & E3 & E4)]; [exists []; auto|]. cbn [fst snd] in *. subst k'.
    exists ((k, j) :: js). cbn [mapM]. unfold onsnd at 1 3. cbn [fst snd]. rewrite E1, E2. cbn [rbind]. rewrite E3, E4. auto. }
  destruct G as (js & E & E'). exists (JObj js). rewrite E, decode_obj, E'. cbn [rbind]. split; [reflexivity|].
  rewrite (dict_of_NoDup_id String.eqb String.eqb_eq); [exact Hw|]. unfold dkeys. rewrite <- (dtrips_keys _ _ H). exact ND.
Qed.
Lemma trips_map f g d : Forall (fun kv => trips (f (snd kv)) (g (snd kv))) d ->
  dtrips (map (fun kv : string * pv => (fst kv, f (snd kv))) d) (map (fun kv => (fst kv, g (snd kv))) d).
Proof. induction 1; constructor; auto. Qed.

(** *** preprocessing twice *)
Lemma dset_map (f : pv -> pv) k v d : map (fun kv : string * pv => (fst kv, f (snd kv))) (dset String.eqb k v d) = dset String.eqb k (f v) (map (fun kv => (fst kv, f (snd kv))) d).
Proof. induction d as [|[k' x] d IH]; [reflexivity|]. cbn [dset map fst snd]. destruct (String.eqb k k'); cbn; [reflexivity|]. rewrite IH. reflexivity. Qed.
Lemma map_idem (f : pv -> pv) (d : list (string * pv)) : Forall (fun kv => f (f (snd kv)) = f (snd kv)) d ->
  map (fun kv => (fst kv, f (snd kv))) (map (fun kv => (fst kv, f (snd kv))) d) = map (fun kv => (fst kv, f (snd kv))) d.
Proof. induction 1 as [|a d E H IH]; cbn [map fst snd]; [reflexivity|]. rewrite E, IH. reflexivity. Qed.
Lemma preprocess_idem v : preprocess_tree (preprocess_tree v) = preprocess_tree v.
Proof.
  induction v using pv_ind'; cbn [preprocess_tree]; try reflexivity.
  - f_equal. rewrite map_map. apply map_ext_in. intros x Hx. apply (proj1 (Forall_forall _ _) H x Hx).
  - f_equal. rewrite map_map. apply map_ext_in. intros x Hx. apply (proj1 (Forall_forall _ _) H x Hx).
  - f_equal. apply map_idem, H.
  - f_equal. rewrite dset_map. cbn [preprocess_tree]. rewrite map_idem by exact H. reflexivity.
  - f_equal. apply map_idem, H.
  - f_equal. unfold entry_dict. rewrite map_app. destruct a as [a|]; cbn [map fst snd option_map app preprocess_tree]; rewrite ?IHv1, ?IHv2, ?IHv3, ?(H a eq_refl); reflexivity.
  - f_equal. unfold ve_dict. destruct (ve_precision e); reflexivity.
  - f_equal. rewrite map_map. apply map_ext. intros []. reflexivity.
Qed.

(** *** arrays *)
Fixpoint pv_nested (shape : list nat) (data : list Q) : pv :=
  match shape with
  | [] => match data with x :: _ => VNum x | [] => VNone end
  | n :: shape' => VList (map (pv_nested shape') (pieces n (prod_nat shape') data))
  end.
Lemma mapM_decode_nested sh ps : (forall p, decode (nested sh p) = Ok (pv_nested sh p)) -> mapM decode (map (nested sh) ps) = Ok (map (pv_nested sh) ps).
Proof. intros H. induction ps as [|p ps IH]; [reflexivity|]. cbn [map mapM]. rewrite H. cbn [rbind]. rewrite IH. reflexivity. Qed.
Lemma decode_nested sh : forall l, decode (nested sh l) = Ok (pv_nested sh l).
Proof.
  induction sh as [|n sh IH]; intros l; [destruct l; reflexivity|]. cbn [nested pv_nested]. rewrite decode_arr, mapM_decode_nested by exact IH. reflexivity.
Qed.
Lemma shape_kept_tail n sh : shape_kept (n :: sh) -> shape_kept sh.
Proof. intros H a b E. apply (H (n :: a) b). rewrite E. reflexivity. Qed.
Lemma infer_nested sh : forall l, length l = prod_nat sh -> shape_kept sh -> infer (pv_nested sh l) = sh.
Proof.
  induction sh as [|n sh IH]; intros l H Hk; cbn [prod_nat] in *.
  - destruct l as [|x [|y l]]; try discriminate. reflexivity.
  - destruct n as [|n]; [rewrite (Hk [] sh eq_refl); reflexivity|]. cbn [pv_nested pieces map infer]. rewrite map_length, pieces_length. f_equal.
    apply IH; [rewrite firstn_length; lia|eapply shape_kept_tail, Hk].
Qed.
Lemma flat_nested sh : forall l, length l = prod_nat sh -> flat sh (pv_nested sh l) = Some l.
Proof.
  induction sh as [|n sh IH]; intros l H; cbn [prod_nat] in H.
  - destruct l as [|x [|y l]]; try discriminate. reflexivity.
  - cbn [pv_nested flat]. rewrite map_length, pieces_length, Nat.eqb_refl. destruct (pieces_all n (prod_nat sh) l H) as [H1 H2].
    rewrite <- H2 at 2. clear H2. induction (pieces n (prod_nat sh) l) as [|p ps IHp]; [reflexivity|].
    cbn [map List.concat]. rewrite (IH p) by (apply H1; left; auto). rewrite IHp by (intros; apply H1; right; auto). reflexivity.
Qed.
Lemma numeric_nested sh l : length l = prod_nat sh -> shape_kept sh -> numeric_array (pv_nested sh l) = Some (sh, l).
Proof. intros H Hn. unfold numeric_array. rewrite infer_nested, flat_nested by auto. reflexivity. Qed.
Lemma shape_eqb_refl (s : list nat) : list_eqb Nat.eqb s s = true.
Proof. induction s as [|a s IH]; cbn; [reflexivity|]. rewrite Nat.eqb_refl. exact IH. Qed.
Lemma trips_array sh re im : length re = prod_nat sh -> shape_kept sh -> (forall i, im = Some i -> length i = prod_nat sh) -> trips (VArr sh re im) (VArr sh re im).
Proof.
  intros H Hn Hi. eexists. split; [reflexivity|]. rewrite decode_obj. unfold array_dict. cbn [mapM]. unfold onsnd at 1. cbn [fst snd]. rewrite decode_nested. cbn [rbind].
  destruct im as [im|]; cbn [mapM rbind].
  - unfold onsnd. cbn [fst snd]. rewrite decode_nested. cbn [rbind]. cbn -[pv_nested decode_array]. unfold decode_array.
    rewrite !numeric_nested by auto. rewrite shape_eqb_refl. reflexivity.
  - cbn -[pv_nested decode_array]. unfold decode_array. rewrite !numeric_nested by auto. reflexivity.
Qed.

(** *** distributions *)
Lemma dist_key_not k s z : denotes (KStr s) z -> preprocess_key (KStr k) = Err ValueError -> s <> k.
Proof. intros H E ->. apply preprocess_denotes in H. congruence. Qed.
Lemma trips_num q : trips (VNum q) (VNum q).
Proof. exists (JNum q). auto. Qed.
Lemma trips_dist d : proper_dist d -> readable d -> trips (VDict (map (fun kv => (fst kv, VNum (snd kv))) (comma_keys d))) (VDist d).
Proof.
  intros HP HR. assert (ND : NoDup (map fst d)) by apply HP. rewrite comma_keys_spec by exact ND.
  set (cd := map (fun kv => (fst kv, VNum (snd kv))) (map (fun kv : outcome * Q => (join_comma (fst kv), snd kv)) d)).
  assert (Hden : forall k v, In (k, v) d -> denotes (KStr (join_comma k)) k).
  { intros k v Hin. apply join_comma_denotes. destruct (HR _ _ Hin) as [Hl|Hl]; [left; exact Hl|right]. intros x Hx. split; [eapply HP; eauto|auto]. }
  assert (HG : forall k, preprocess_key (KStr k) = Err ValueError -> dget String.eqb k cd = None).
  { intros k E. apply (dget_None String.eqb String.eqb_eq). unfold cd, dkeys. rewrite !map_map. cbn [fst]. intros Hin. apply in_map_iff in Hin.
    destruct Hin as ([z v] & <- & Hin). revert E. cbn [fst]. rewrite (preprocess_denotes _ _ (Hden _ _ Hin)). discriminate. }
  apply (trips_dict _ cd).
  - unfold cd. clear. induction (map (fun kv : outcome * Q => (join_comma (fst kv), snd kv)) d) as [|x l IH]; constructor; [split; [reflexivity|apply trips_num]|exact IH].
  - unfold cd. rewrite !map_map. cbn [fst]. rewrite <- (map_map fst join_comma). apply FinFun.Injective_map_NoDup; [intros a b; apply join_comma_inj|exact ND].
  - unfold object_hook, has. rewrite !HG by reflexivity. cbn [andb].
    assert (EN : numerical_values cd = Some (map (fun x => (KStr (join_comma (fst x)), snd x)) d)).
    { unfold cd. clear. induction d as [|[k v] d IH]; [reflexivity|]. cbn [map numerical_values fst snd number_of]. rewrite IH. reflexivity. }
    rewrite EN. clear EN HG. clearbody cd.
    pose proof (preprocess_distinct (map (fun x => (KStr (join_comma (fst x)), fst x, snd x)) d)) as H1.
    pose proof (mk_dist_distinct (map (fun x => (KStr (join_comma (fst x)), fst x, snd x)) d) false) as H2. rewrite !map_map in H1, H2. cbn [fst snd] in H1, H2. cbv zeta in H2.
    assert (Ed : map (fun x : outcome * Q => (fst x, snd x)) d = d) by (rewrite (map_ext _ (fun x => x)); [apply map_id|intros []; reflexivity]).
    assert (Hd' : forall k z v, In (k, z, v) (map (fun x : outcome * Q => (KStr (join_comma (fst x)), fst x, snd x)) d) -> denotes k z).
    { intros k z v Hin. apply in_map_iff in Hin. destruct Hin as ([k' v'] & [= <- <- <-] & Hin). eapply Hden; eauto. }
    unfold dist, outcome in *. rewrite Ed in H2. rewrite H1 by auto. rewrite H2 by auto. cbn [rbind].
    rewrite (proj2 (is_mod_spec d ND) HP). cbn [rbind]. destruct (is_normalized d); reflexivity.
Qed.

(** *** dictionaries *)
Lemma lacks_get k d : lacks k d -> dget String.eqb k d = None.
Proof. intros H. destruct (dget String.eqb k d) eqn:E; [|reflexivity]. apply (dget_In String.eqb String.eqb_eq) in E. elim (H _ E). Qed.
Lemma lacks_map k (f : pv -> pv) d : lacks k d -> lacks k (map (fun kv => (fst kv, f (snd kv))) d).
Proof. intros H v Hin. apply in_map_iff in Hin. destruct Hin as ([k' v'] & [= <- <-] & Hin). exact (H _ Hin). Qed.
Lemma has_both d : lacks "call_number" d \/ lacks "value" d -> has "call_number" d && has "value" d = false.
Proof. unfold has. intros [H|H]; apply lacks_get in H; rewrite H; [reflexivity|]. destruct (dget String.eqb "call_number" d); reflexivity. Qed.
Lemma loaded_number v : number_of (as_loaded v) = None <-> ~ is_number v.
Proof. destruct v; cbn; split; intros; try discriminate; try reflexivity; try tauto; intros []. Qed.
Lemma numerical_none d : (exists k v, In (k, v) d /\ number_of v = None) -> numerical_values d = None.
Proof.
  intros (k & v & Hin & E). induction d as [|[k' v'] d IH]; [destruct Hin|]. cbn [numerical_values]. destruct Hin as [[= -> ->]|Hin]; [rewrite E; reflexivity|].
  rewrite (IH Hin). destruct (number_of v'); reflexivity.
Qed.
Definition loaded_dict (d : list (string * pv)) : list (string * pv) := map (fun kv => (fst kv, as_loaded (snd kv))) d.
Lemma hook_plain d : plain_dict d -> object_hook (loaded_dict d) = Ok (VDict (loaded_dict d)).
Proof.
  intros (H1 & H2 & H3 & H4). unfold object_hook. rewrite (lacks_get "real") by (apply lacks_map, H1).
  rewrite has_both by (destruct H2; [left|right]; apply lacks_map; auto).
  assert (E : decode_schema (loaded_dict d) = Ok (VDict (loaded_dict d))).
  { unfold decode_schema. destruct (dget String.eqb "schema" (loaded_dict d)) as [v|] eqn:E; [|reflexivity].
    apply (dget_In String.eqb String.eqb_eq) in E. apply in_map_iff in E. destruct E as ([k x] & [= -> <-] & Hin). cbn [snd]. specialize (H4 _ Hin).
    destruct x; cbn in *; try tauto. destruct H4 as [Ha Hb]. apply String.eqb_neq in Ha, Hb. unfold ve_schema, opt_schema. rewrite Ha, Hb. reflexivity. }
  destruct H3 as [->|(k & v & Hin & Hn)]; [reflexivity|].
  rewrite numerical_none; [exact E|]. exists k, (as_loaded v). split; [|apply loaded_number, Hn]. apply in_map_iff. exists (k, v). auto.
Qed.
Lemma hook_result d : lacks "real" d -> lacks "call_number" d \/ lacks "value" d -> lacks "schema" d ->
  object_hook (d ++ [("schema", VStr opt_schema)]) = Ok (VOptResult d).
Proof.
  intros H1 H2 H3.
  assert (L : forall k, String.eqb k "schema" = false -> lacks k d -> lacks k (d ++ [("schema", VStr opt_schema)])).
  { intros k Hk H v Hin. apply in_app_or in Hin. destruct Hin as [Hin|[[= <- <-]|[]]]; [exact (H _ Hin)|discriminate]. }
  unfold object_hook. rewrite (lacks_get "real") by (apply L; auto). rewrite has_both by (destruct H2; [left|right]; apply L; auto).
  rewrite numerical_none by (exists "schema", (VStr opt_schema); split; [apply in_or_app; right; left; reflexivity|reflexivity]).
  assert (EW : without "schema" d = d).
  { clear -H3. unfold without. induction d as [|[k v] d IH]; [reflexivity|]. cbn [filter fst]. destruct (String.eqb k "schema") eqn:E.
    - apply String.eqb_eq in E. subst. elim (H3 v). left. reflexivity.
    - cbn [negb]. rewrite IH; [reflexivity|]. intros x Hx. apply (H3 x). right. exact Hx. }
  unfold decode_schema.
  assert (EG : dget String.eqb "schema" (d ++ [("schema", VStr opt_schema)]) = Some (VStr opt_schema)).
  { apply lacks_get in H3. clear -H3. induction d as [|[k v] d IH]; [reflexivity|]. cbn [dget app] in *. destruct (String.eqb "schema" k); [discriminate|auto]. }
  rewrite EG. cbn [String.eqb]. unfold without in *. rewrite filter_app, EW. cbn. rewrite app_nil_r. reflexivity.
Qed.
Lemma dset_lacks k v d : lacks k d -> dset String.eqb k v d = d ++ [(k, v)].
Proof.
  intros H. induction d as [|[k' x] d IH]; [reflexivity|]. cbn [dset app]. destruct (String.eqb k k') eqn:E.
  - apply String.eqb_eq in E. subst. elim (H x). left. reflexivity.
  - rewrite IH; [reflexivity|]. intros y Hy. apply (H y). right. exact Hy.
Qed.
Lemma lacks_notin k d : lacks k d <-> ~ In k (map fst d).
Proof.
  split.
  - intros H Hin. apply in_map_iff in Hin. destruct Hin as ([k' v] & E & Hin). cbn in E. subst. exact (H _ Hin).
  - intros H v Hin. apply H. apply in_map_iff. exists (k, v). auto.
Qed.
Lemma trips_result d d' : dtrips d d' -> NoDup (map fst d) -> lacks "real" d -> lacks "call_number" d \/ lacks "value" d -> lacks "schema" d ->
  trips (VDict (d ++ [("schema", VStr opt_schema)])) (VOptResult d').
Proof.
  intros H ND H1 H2 H3. pose proof (dtrips_keys _ _ H) as EK.
  apply (trips_dict _ (d' ++ [("schema", VStr opt_schema)])).
  - apply Forall2_app; [exact H|]. constructor; [|constructor]. split; [reflexivity|]. exists (JStr opt_schema). auto.
  - rewrite map_app. cbn [map fst]. rewrite lacks_notin in H3. clear -ND H3. induction (map fst d) as [|a l IH]; cbn in *; [constructor; [intros []|constructor]|].
    inversion ND; subst. constructor; [|apply IH; tauto]. rewrite in_app_iff. cbn. intros [?|[?|[]]]; subst; tauto.
  - rewrite !lacks_notin in *. rewrite EK in *. apply hook_result; rewrite !lacks_notin; auto.
Qed.
Lemma hook_entry n p x a : object_hook (entry_dict n p x a) = Ok (VEntry n p x a).
Proof. destruct a; reflexivity. Qed.
Lemma entry_keys n p x a : NoDup (map fst (entry_dict n p x a)).
Proof. destruct a; cbn; repeat constructor; cbn; intuition discriminate. Qed.
Lemma trips_estimate e : trips (VDict (ve_dict e)) (as_loaded (VEst e)).
Proof.
  apply (trips_dict _ (ve_dict e)).
  - unfold ve_dict. repeat constructor; cbn [fst snd]; try (eexists; split; reflexivity). destruct (ve_precision e); eexists; split; reflexivity.
  - cbn. repeat constructor; cbn; intuition discriminate.
  - destruct e as [v [p|]]; reflexivity.
Qed.

Lemma round_trip v : faithful v -> trips (preprocess_tree v) (as_loaded v).
Proof.
  induction v using pv_ind'; intros F; inversion F; subst; cbn [preprocess_tree as_loaded]; try (eexists; split; reflexivity).
  - apply trips_list. clear F. induction l; cbn; constructor; inversion H; inversion H1; subst; auto.
  - apply trips_list. clear F. induction l; cbn; constructor; inversion H; inversion H1; subst; auto.
  - apply (trips_dict _ (loaded_dict d)); [|rewrite map_map; exact H3|apply hook_plain; auto].
    apply trips_map. clear -H H1. induction d; constructor; inversion H; inversion H1; subst; auto.
  - rewrite dset_lacks by (apply lacks_map; auto).
    apply trips_result; try (apply lacks_map; auto); [|rewrite map_map; auto|destruct H3; [left|right]; apply lacks_map; auto].
    apply trips_map. clear -H H1. induction d; constructor; inversion H; inversion H1; subst; auto.
  - apply (trips_dict _ (loaded_dict d)); [|rewrite map_map; exact H3|apply hook_plain; auto].
    apply trips_map. clear -H H1. induction d; constructor; inversion H; inversion H1; subst; auto.
  - apply (trips_dict _ (entry_dict (as_loaded v1) (as_loaded v2) (as_loaded v3) None)); [|apply entry_keys|apply hook_entry].
    repeat constructor; cbn [snd option_map]; auto.
  - apply (trips_dict _ (entry_dict (as_loaded v1) (as_loaded v2) (as_loaded v3) (Some (as_loaded a0)))); [|apply entry_keys|apply hook_entry].
    repeat constructor; cbn [snd option_map]; auto.
  - apply trips_estimate.
  - apply trips_dist; auto.
  - apply trips_array; auto. discriminate.
  - apply trips_array; auto. congruence.
Qed.
Lemma loaded_same v : untupled v -> as_loaded v = v.
Proof.
  assert (HM : forall d : list (string * pv), Forall (fun kv => untupled (snd kv) -> as_loaded (snd kv) = snd kv) d -> Forall (fun kv => untupled (snd kv)) d ->
    map (fun kv => (fst kv, as_loaded (snd kv))) d = d).
  { induction d as [|[k x] d IH]; intros H H'; [reflexivity|]. inversion H; inversion H'; subst. cbn [map fst snd] in *. rewrite IH by auto. f_equal. f_equal. auto. }
  induction v using pv_ind'; intros U; inversion U; subst; cbn [as_loaded] in *; try reflexivity; try contradiction; try tauto.
  - f_equal. clear U. induction l as [|x l IH]; [reflexivity|]. inversion H; inversion H1; subst. cbn. rewrite IH by auto. f_equal. auto.
  - f_equal. auto.
  - f_equal. auto.
  - f_equal; auto.
  - cbn [option_map]. rewrite IHv1, IHv2, IHv3, (H a0) by auto. reflexivity.
  - f_equal. f_equal. destruct p as [[]|]; cbn; tauto || reflexivity.
Qed.

(** *** what can be encoded *)
Lemma mapM_dec {A B} (f : A -> result B) (e : exn) l : (forall a, In a l -> (exists b, f a = Ok b) \/ f a = Err e) ->
  (exists bs, mapM f l = Ok bs) \/ mapM f l = Err e.
Proof.
  induction l as [|a l IH]; intros H; [left; exists []; reflexivity|]. cbn [mapM]. destruct (H a (or_introl eq_refl)) as [[b E]|E]; rewrite E; cbn [rbind]; [|auto].
  destruct IH as [[bs E']|E']; [intros; apply H; right; auto| |]; rewrite E'; cbn; eauto.
Qed.
Lemma mapM_err {A B} (f : A -> result B) (e : exn) l a : (forall a, In a l -> (exists b, f a = Ok b) \/ f a = Err e) -> In a l -> f a = Err e -> mapM f l = Err e.
Proof.
  intros H Hin E. destruct (mapM_dec f e l H) as [[bs E']|E']; [|exact E']. destruct (mapM_Ok_all f l bs a E' Hin) as (b & Eb & _). congruence.
Qed.
Lemma onsnd_dec {A B} (f : A -> result B) e kv : (exists b, f (snd kv) = Ok b) \/ f (snd kv) = Err e -> (exists b, onsnd f kv = Ok b) \/ onsnd f kv = Err e.
Proof. unfold onsnd. intros [[b E]|E]; rewrite E; cbn; eauto. Qed.
Definition enc_dec (v : pv) : Prop := (exists j, to_json v = Ok j) \/ to_json v = Err ValueError.
Lemma list_dec l : Forall enc_dec l -> enc_dec (VList l).
Proof.
  rewrite Forall_forall. intros H. unfold enc_dec. rewrite to_json_list. destruct (mapM_dec to_json ValueError l H) as [[bs E]|E]; rewrite E; cbn; eauto.
Qed.
Lemma dict_dec d : Forall (fun kv => enc_dec (snd kv)) d -> enc_dec (VDict d).
Proof.
  rewrite Forall_forall. intros H. unfold enc_dec. rewrite to_json_dict.
  destruct (mapM_dec (onsnd to_json) ValueError d) as [[bs E]|E]; [|rewrite E; cbn; eauto|rewrite E; cbn; eauto]. intros a Ha. apply onsnd_dec, H, Ha.
Qed.
Lemma in_dset (P : pv -> Prop) k v d : P v -> Forall (fun kv => P (snd kv)) d -> Forall (fun kv : string * pv => P (snd kv)) (dset String.eqb k v d).
Proof. intros Hv. induction 1 as [|[k' x] d Hx H IH]; cbn; [repeat constructor; auto|]. destruct (String.eqb k k'); constructor; auto. Qed.
Lemma Forall_map_snd (P : pv -> Prop) (f : pv -> pv) d : Forall (fun kv => P (f (snd kv))) d -> Forall (fun kv : string * pv => P (snd kv)) (map (fun kv => (fst kv, f (snd kv))) d).
Proof. induction 1; constructor; auto. Qed.
Lemma atom_dec v : match v with VNone | VBool _ | VNum _ | VStr _ => True | _ => False end -> enc_dec v.
Proof. destruct v; intros []; left; eexists; reflexivity. Qed.
Lemma ve_dict_dec e : Forall (fun kv => enc_dec (snd kv)) (ve_dict e).
Proof. unfold ve_dict. repeat apply Forall_cons; try apply Forall_nil; cbn [snd]; try (apply atom_dec; exact I). destruct (ve_precision e); apply atom_dec; exact I. Qed.
Lemma num_dict_dec (l : list (string * Q)) : Forall (fun kv => enc_dec (snd kv)) (map (fun kv => (fst kv, VNum (snd kv))) l).
Proof. induction l; constructor; auto. apply atom_dec. exact I. Qed.
Lemma entry_dec (P : pv -> Prop) n p x a : P n -> P p -> P x -> (forall b, a = Some b -> P b) -> Forall (fun kv => P (snd kv)) (entry_dict n p x a).
Proof. intros. unfold entry_dict. destruct a; cbn [app]; repeat apply Forall_cons; try apply Forall_nil; cbn; auto. Qed.
Lemma dump_dec v : enc_dec (preprocess_tree v).
Proof.
  induction v using pv_ind'; cbn [preprocess_tree]; try (apply atom_dec; exact I).
  - apply list_dec. induction H; constructor; auto.
  - apply list_dec. induction H; constructor; auto.
  - apply dict_dec, Forall_map_snd, H.
  - apply dict_dec, in_dset; [apply atom_dec; exact I|]. apply Forall_map_snd, H.
  - apply dict_dec, Forall_map_snd, H.
  - apply dict_dec, entry_dec; auto. destruct a; intros b [= <-]. auto.
  - apply dict_dec, ve_dict_dec.
  - apply dict_dec, num_dict_dec.
  - left. eexists. reflexivity.
  - right. reflexivity.
Qed.
(** encodable: by the same means *)
Definition enc_ok (v : pv) : Prop := exists j, to_json v = Ok j.
Lemma mapM_ok {A B} (f : A -> result B) l : Forall (fun a => exists b, f a = Ok b) l -> exists bs, mapM f l = Ok bs.
Proof. induction 1 as [|a l [b E] H [bs IH]]; [exists []; reflexivity|]. exists (b :: bs). cbn. rewrite E. cbn. rewrite IH. reflexivity. Qed.
Lemma list_ok l : Forall enc_ok l -> enc_ok (VList l).
Proof. intros H. unfold enc_ok. rewrite to_json_list. destruct (mapM_ok _ _ H) as [bs E]. rewrite E. cbn. eauto. Qed.
Lemma dict_ok d : Forall (fun kv => enc_ok (snd kv)) d -> enc_ok (VDict d).
Proof.
  intros H. unfold enc_ok. rewrite to_json_dict. destruct (mapM_ok (onsnd to_json) d) as [bs E]; [|rewrite E; cbn; eauto].
  induction H as [|kv d [j E] H IH]; constructor; auto. unfold onsnd. rewrite E. cbn. eauto.
Qed.
Lemma atom_ok v : match v with VNone | VBool _ | VNum _ | VStr _ => True | _ => False end -> enc_ok v.
Proof. destruct v; intros []; eexists; reflexivity. Qed.
Lemma dump_ok v : encodable v -> enc_ok (preprocess_tree v).
Proof.
  assert (HF : forall d : list (string * pv), Forall (fun kv => encodable (snd kv) -> enc_ok (preprocess_tree (snd kv))) d -> Forall (fun kv => encodable (snd kv)) d ->
    Forall (fun kv => enc_ok (snd kv)) (map (fun kv => (fst kv, preprocess_tree (snd kv))) d)).
  { induction d; intros H H'; constructor; inversion H; inversion H'; subst; auto. }
  assert (HL : forall l : list pv, Forall (fun v => encodable v -> enc_ok (preprocess_tree v)) l -> Forall encodable l -> Forall enc_ok (map preprocess_tree l)).
  { induction l; intros H H'; constructor; inversion H; inversion H'; subst; auto. }
  induction v using pv_ind'; intros F; inversion F; subst; try contradiction; cbn [preprocess_tree]; try (apply atom_ok; exact I).
  - apply list_ok, HL; auto.
  - apply list_ok, HL; auto.
  - apply dict_ok, HF; auto.
  - apply dict_ok, in_dset; [apply atom_ok; exact I|]. apply HF; auto.
  - apply dict_ok, HF; auto.
  - apply dict_ok, entry_dec; auto. discriminate.
  - apply dict_ok, entry_dec; auto. intros b [= <-]. auto.
  - apply dict_ok. unfold ve_dict. repeat apply Forall_cons; try apply Forall_nil; cbn [snd]; try (apply atom_ok; exact I). destruct (ve_precision e); apply atom_ok; exact I.
  - apply dict_ok. induction (comma_keys d); constructor; auto. apply atom_ok. exact I.
  - eexists. reflexivity.
Qed.
Lemma in_dset_other k0 k v (x : pv) d : In (k, v) d -> k <> k0 -> In (k, v) (dset String.eqb k0 x d).
Proof.
  intros Hin Hn. induction d as [|[k' y] d IH]; [destruct Hin|]. cbn. destruct (String.eqb k0 k') eqn:E.
  - apply String.eqb_eq in E. subst k'. destruct Hin as [[= <- <-]|Hin]; [congruence|right; exact Hin].
  - destruct Hin as [[= <- <-]|Hin]; [left; reflexivity|right; auto].
Qed.
Lemma dict_err d k v : Forall (fun kv => enc_dec (snd kv)) d -> In (k, v) d -> to_json v = Err ValueError -> to_json (VDict d) = Err ValueError.
Proof.
  rewrite Forall_forall. intros H Hin E. rewrite to_json_dict. rewrite (mapM_err (onsnd to_json) ValueError d (k, v)); auto.
  - intros a Ha. apply onsnd_dec, H, Ha.
  - unfold onsnd. cbn. rewrite E. reflexivity.
Qed.
Lemma list_err l v : Forall enc_dec l -> In v l -> to_json v = Err ValueError -> to_json (VList l) = Err ValueError.
Proof. rewrite Forall_forall. intros H Hin E. rewrite to_json_list. rewrite (mapM_err to_json ValueError l v); auto. Qed.
Lemma all_list_dec l : Forall enc_dec (map preprocess_tree l).
Proof. induction l; constructor; auto using dump_dec. Qed.
Lemma all_dict_dec (d : list (string * pv)) : Forall (fun kv => enc_dec (snd kv)) (map (fun kv => (fst kv, preprocess_tree (snd kv))) d).
Proof. induction d; constructor; auto. apply dump_dec. Qed.
Lemma in_map_snd (f : pv -> pv) k v (d : list (string * pv)) : In (k, v) d -> In (k, f v) (map (fun kv => (fst kv, f (snd kv))) d).
Proof. intros H. apply in_map_iff. exists (k, v). auto. Qed.
Lemma dump_err v : has_unknown v -> dump v = Err ValueError.
Proof.
  unfold dump. induction 1; cbn [preprocess_tree].
  - reflexivity.
  - apply (list_err _ (preprocess_tree v)); auto using all_list_dec. apply in_map. auto.
  - apply (list_err _ (preprocess_tree v)); auto using all_list_dec. apply in_map. auto.
  - apply (dict_err _ k (preprocess_tree v)); auto using all_dict_dec, in_map_snd.
  - apply (dict_err _ k (preprocess_tree v)); auto using all_dict_dec, in_map_snd.
  - apply (dict_err _ k (preprocess_tree v)); auto; [apply in_dset; auto using all_dict_dec|].
    + apply atom_dec. exact I.
    + apply in_dset_other; auto using in_map_snd.
  - assert (D : Forall (fun kv => enc_dec (snd kv)) (entry_dict (preprocess_tree n) (preprocess_tree p) (preprocess_tree x) (option_map preprocess_tree a))).
    { apply entry_dec; auto using dump_dec. destruct a; intros b [= <-]. apply dump_dec. }
    destruct H as [ -> |[ -> |[ -> | <- ]]].
    + eapply (dict_err _ "call_number"); [exact D| |exact IHhas_unknown]. left. reflexivity.
    + eapply (dict_err _ "params"); [exact D| |exact IHhas_unknown]. right. left. reflexivity.
    + eapply (dict_err _ "value"); [exact D| |exact IHhas_unknown]. right. right. left. reflexivity.
    + eapply (dict_err _ "artifacts"); [exact D| |exact IHhas_unknown]. right. right. right. left. reflexivity.
Qed.
