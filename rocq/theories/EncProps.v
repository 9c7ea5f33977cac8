(** C61: encoding results of computations as JSON and decoding them. *)
From Coq Require Import List ZArith QArith String Bool Lia.
From Verif Require Import Base BaseFacts Json UtilsModel DistModel DistSpec EncModel EncSpec EncProofs.
Import ListNotations.
Open Scope nat_scope.
Open Scope string_scope.
Open Scope list_scope.

(** Values whose dictionaries are not mistaken for something else are encoded, and decoded as the same value with lists for tuples and
    dictionaries for other namedtuples. *)
Theorem C61_round_trip (v : pv) : faithful v -> exists j, dump v = Ok j /\ decode j = Ok (as_loaded v).
Proof. apply round_trip. Qed.
(** Without these, as exactly the same value. *)
Theorem C61_same (v : pv) : faithful v -> untupled v -> exists j, dump v = Ok j /\ decode j = Ok v.
Proof. intros F U. destruct (round_trip v F) as (j & E & D). rewrite (loaded_same v U) in D. eauto. Qed.
(** Writing to a string and writing to a file are the same. *)
Theorem C61_dumps (v : pv) : dumps v = dump v.
Proof. unfold dumps, dump. rewrite preprocess_idem. reflexivity. Qed.
(** Everything built from known objects can be encoded; anything else is reported. *)
Theorem C61_encodable (v : pv) : encodable v -> exists j, dump v = Ok j.
Proof. apply dump_ok. Qed.
Theorem C61_unknown (v : pv) : has_unknown v -> dump v = Err ValueError.
Proof. apply dump_err. Qed.

(** Saving optimization results, and loading them. The dictionary passed in gets a new key, so saving it again changes nothing any more. *)
Theorem C61_save_load (d : list (string * pv)) : faithful (VOptResult d) ->
  exists j, save_optimization_results d = (d ++ [("schema", VStr "zapata-v1-optimization_result")], Ok j) /\
    load_optimization_results j = Ok (VOptResult (map (fun kv => (fst kv, as_loaded (snd kv))) d)) /\
    save_optimization_results (fst (save_optimization_results d)) = save_optimization_results d.
Proof.
  intros F. destruct (round_trip _ F) as (j & E & D). exists j. unfold save_optimization_results, load_optimization_results. cbn [fst].
  inversion F; subst. rewrite (dset_lacks _ _ d) by auto. split; [|split; [exact D|]].
  - f_equal. unfold dump. rewrite <- E. cbn [preprocess_tree]. rewrite dset_lacks by (apply lacks_map; auto). rewrite map_app. reflexivity.
  - assert (G : dset String.eqb "schema" (VStr opt_schema) (d ++ [("schema", VStr opt_schema)]) = d ++ [("schema", VStr opt_schema)]).
    { clear -H3. apply lacks_notin in H3. induction d as [|[k x] d IH]; [reflexivity|]. cbn [map fst In] in H3. cbn [app]. unfold dset; fold (dset (V := pv) String.eqb "schema" (VStr opt_schema)).
      destruct (String.eqb "schema" k) eqn:E; [apply String.eqb_eq in E; subst; tauto|]. rewrite IH by tauto. reflexivity. }
    rewrite G. reflexivity.
Qed.

(** *** What is not recovered *)
(** A dictionary with a key "real" is never decoded as a dictionary. *)
Theorem C61_real_key_refuted (d : list (string * json Q)) v : NoDup (map fst d) -> In "real" (map fst d) -> decode (JObj d) = Ok v ->
  match v with VArr _ _ _ | VOther => True | _ => False end.
Proof.
  intros ND Hin H. rewrite decode_obj in H. destruct (mapM (onsnd decode) d) as [vs|] eqn:E; [|discriminate]. cbn [rbind] in H.
  assert (EK : map fst vs = map fst d).
  { clear -E. revert vs E. induction d as [|[k j] d IH]; intros vs; cbn [mapM]; [intros [= <-]; reflexivity|]. unfold onsnd at 1. cbn [fst snd].
    destruct (decode j); cbn [rbind]; [|discriminate]. destruct (mapM (onsnd decode) d); cbn [rbind]; [|discriminate]. intros [= <-]. cbn. f_equal. auto. }
  rewrite (dict_of_NoDup_id String.eqb String.eqb_eq) in H by (unfold dkeys; rewrite EK; exact ND).
  unfold object_hook in H. destruct (dget String.eqb "real" vs) as [r|] eqn:G.
  - unfold decode_array in H. destruct (dget String.eqb "imag" vs) as [i|].
    + destruct (numeric_array r) as [[sh l]|]; [|discriminate]. destruct (numeric_array i) as [[sh' l']|]; [|discriminate]. destruct (list_eqb Nat.eqb sh sh'); [|discriminate].
      injection H as <-. exact I.
    + destruct (numeric_array r) as [[sh l]|]; injection H as <-; exact I.
  - apply (dget_None String.eqb String.eqb_eq) in G. unfold dkeys in G. rewrite EK in G. contradiction.
Qed.
(** A non-empty dictionary of numbers is never decoded as a dictionary if its keys are written in digits: *)
Theorem C61_counts_refuted : forall n : nat, exists j,
  dump (VDict [("0", VNum (inject_Z (Z.of_nat n))); ("1", VNum 1)]) = Ok j /\ decode j = Ok (VDist [([0%Z], inject_Z (Z.of_nat n)); ([1%Z], 1%Q)]).
Proof.
  intros n. eexists. split; [reflexivity|]. cbn -[inject_Z mk_dist preprocess is_measurement_outcome_distribution].
  set (q := inject_Z (Z.of_nat n)). assert (Hq : Qle_bool 0 q = true). { apply Qle_bool_iff. unfold q, Qle, inject_Z. cbn. lia. }
  clearbody q. unfold object_hook. cbn [dget String.eqb has andb]. cbn -[mk_dist preprocess is_measurement_outcome_distribution].
  assert (E : preprocess [(KStr "0", q); (KStr "1", 1%Q)] = Ok [([EInt 0], q); ([EInt 1], 1%Q)]) by reflexivity.
  assert (M : is_measurement_outcome_distribution [([EInt 0], q); ([EInt 1], 1%Q)] = true).
  { unfold is_measurement_outcome_distribution, is_non_negative. cbn [forallb snd]. rewrite Hq. reflexivity. }
  unfold mk_dist. rewrite E. cbn [rbind]. rewrite M. cbn [rbind map fst snd elem_int]. destruct (is_normalized _); reflexivity.
Qed.
(** ... and one with other keys makes decoding fail *)
Theorem C61_numbers_refuted (q : Q) : exists j, dump (VDict [("energy", VNum q)]) = Ok j /\ decode j = Err ValueError.
Proof. eexists. split; [reflexivity|]. reflexivity. Qed.
(** as does a dictionary that has the keys of a history entry and another one *)
Theorem C61_entry_like_refuted (n x t : Q) : exists j,
  dump (VDict [("call_number", VNum n); ("value", VNum x); ("time", VNum t)]) = Ok j /\ decode j = Err TypeError.
Proof. eexists. split; reflexivity. Qed.
(** A result's own key "schema" is lost. *)
Theorem C61_own_schema_refuted (s : string) (q : Q) : exists j,
  dump (VOptResult [("schema", VStr s); ("x", VNum q)]) = Ok j /\ decode j = Ok (VOptResult [("x", VNum q)]).
Proof. eexists. split; reflexivity. Qed.
(** A distribution of one variable with a value above 9 becomes another one, with two variables. *)
Theorem C61_large_outcome_refuted : exists j, dump (VDist [([12%Z], 1%Q)]) = Ok j /\ decode j = Ok (VDist [([1%Z; 2%Z], 1%Q)]).
Proof. eexists. split; reflexivity. Qed.
(** The shape of an empty array can be lost. *)
Theorem C61_empty_array_refuted (n : nat) : exists j, dump (VArr [0; n] [] None) = Ok j /\ decode j = Ok (VArr [0] [] None).
Proof. eexists. split; reflexivity. Qed.

(** A recorded optimization: a result with its history, an array and an estimate. *)
Definition example_result : list (string * pv) :=
  [("x", VArr [2] [1 # 2; 3]%Q None); ("fun", VEst {| ve_value := (1 # 4)%Q; ve_precision := Some (NpFloat (1 # 8)%Q) |});
   ("history", VList [VEntry (VNum 0) (VArr [2; 1] [1; 2]%Q (Some [0; 1]%Q)) (VNum 1) None;
                      VEntry (VNum 1) (VTuple [VNum 1; VNone]) (VNum 1) (Some (VDict [("dist", VDist [([1; 12]%Z, 1 # 2); ([0; 3]%Z, 1 # 2)]%Q); ("ok", VBool true)]))]);
   ("nit", VNum 7)].
Example C61_faithful_example : faithful (VOptResult example_result) /\ ~ untupled (VOptResult example_result).
Proof.
  split.
  - assert (L : forall k, ~ In k (map fst example_result) -> lacks k example_result) by (intros; apply lacks_notin; auto).
    apply f_result; try (apply L; cbn; intuition discriminate).
    + repeat apply Forall_cons; try apply Forall_nil; cbn [snd].
      * apply f_array; [reflexivity|]. intros [|a [|b l]] r [=].
      * apply f_estimate.
      * apply f_list. repeat apply Forall_cons; try apply Forall_nil.
        -- apply f_entry; try apply f_num. apply f_complex; [reflexivity|reflexivity|]. intros [|a [|b [|c l]]] r [=].
        -- apply f_entry_artifacts; try apply f_num; [apply f_tuple; repeat constructor|]. apply f_dict.
           ++ repeat apply Forall_cons; try apply Forall_nil; cbn [snd]; [|apply f_bool]. apply f_dist.
              ** split; [discriminate|]. split; [repeat constructor; cbn; intuition discriminate|]. split; [exists 2; cbn; intros k v [[= <- <-]|[[= <- <-]|[]]]; reflexivity|].
                 split; [intros k v z [[= <- <-]|[[= <- <-]|[]]]; cbn; intros; intuition lia|intros k v [[= <- <-]|[[= <- <-]|[]]]; discriminate].
              ** intros k v [[= <- <-]|[[= <- <-]|[]]]; left; discriminate.
           ++ split; [intros v; cbn; intuition discriminate|]. split; [left; intros v; cbn; intuition discriminate|].
              split; [right; exists "dist"; eexists; split; [left; reflexivity|intros []]|]. intros v; cbn; intuition discriminate.
           ++ repeat constructor; cbn; intuition discriminate.
      * apply f_num.
    + left. apply L. cbn. intuition discriminate.
    + cbn. repeat constructor; cbn; intuition discriminate.
  - intros U. inversion U; subst; [contradiction|]. apply Forall_inv_tail, Forall_inv in H0. cbn in H0. inversion H0; subst; contradiction.
Qed.
Example C61_decoded_example :
  exists j, dump (VOptResult example_result) = Ok j /\ decode j =
  Ok (VOptResult [("x", VArr [2] [1 # 2; 3]%Q None); ("fun", VEst {| ve_value := (1 # 4)%Q; ve_precision := Some (PyFloat (1 # 8)%Q) |});
   ("history", VList [VEntry (VNum 0) (VArr [2; 1] [1; 2]%Q (Some [0; 1]%Q)) (VNum 1) None;
                      VEntry (VNum 1) (VList [VNum 1; VNone]) (VNum 1) (Some (VDict [("dist", VDist [([1; 12]%Z, 1 # 2); ([0; 3]%Z, 1 # 2)]%Q); ("ok", VBool true)]))]);
   ("nit", VNum 7)]).
Proof. destruct (C61_round_trip _ (proj1 C61_faithful_example)) as (j & E & D). exists j. split; [exact E|]. rewrite D. reflexivity. Qed.
Example C61_untupled_example : untupled (VEntry (VNum 1) (VArr [1] [1%Q] None) (VEst {| ve_value := 1%Q; ve_precision := None |}) None).
Proof. apply u_entry; try (apply u_atom; exact I). apply u_estimate. exact I. Qed.
Example C61_unknown_example : has_unknown (VDict [("a", VList [VNum 1; VOther])]).
Proof. eapply h_dict; [left; reflexivity|]. eapply h_list; [right; left; reflexivity|constructor]. Qed.
Example C61_encodable_example : encodable (VDict [("real", VNum 1); ("a", VTuple [VStr "x"])]).
Proof. apply e_dict. repeat apply Forall_cons; try apply Forall_nil; cbn; [apply e_atom; exact I|]. apply e_tuple. repeat constructor. Qed.

Print Assumptions C61_round_trip.
Print Assumptions C61_save_load.
Print Assumptions C61_unknown.
