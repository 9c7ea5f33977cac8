From Coq Require Import List ZArith String Bool Lia.
From Verif Require Import Base BaseFacts AugModel AugSpec.
Import ListNotations.
Open Scope string_scope.
Open Scope list_scope.

Section Proofs.
  Context {A R V : Type}.
  Notation node := (node A R). Notation state := (state A R V). Notation behaviour := (behaviour A R V). Notation augmentation := (augmentation A R V).
  Context (body : nat -> behaviour) (code : nat -> behaviour -> behaviour).
  Notation call := (call body code).
  Notation nested := (nested code).

  Lemma augment_snoc (n : node) (augs : list augmentation) a g s : augment_function n (augs ++ [a]) g s =
    let '(m, s1) := augment_function n augs g s in let '(m', s2) := apply_augmentation a m s1 in (Wrap m' m g, s2).
  Proof. unfold augment_function. rewrite fold_left_app. cbn [fold_left]. reflexivity. Qed.
  Lemma augment_cons (n : node) (augs : list augmentation) a g s : augment_function n (a :: augs) g s =
    let '(m', s1) := apply_augmentation a n s in augment_function (Wrap m' n g) augs g s1.
  Proof. unfold augment_function. cbn [fold_left]. destruct (apply_augmentation a n s). reflexivity. Qed.
  Lemma augment_length (augs : list augmentation) : forall (n : node) g s, length (dicts (snd (augment_function n augs g s))) = length (dicts s) + made augs /\ log (snd (augment_function n augs g s)) = log s.
  Proof.
    induction augs as [|a augs IH]; intros n g s; [cbn; auto|]. rewrite augment_cons. destruct a as [d|p l m|]; cbn [apply_augmentation]; (rewrite (proj1 (IH _ _ _)), (proj2 (IH _ _ _)); unfold made; cbn [filter dicts log]; rewrite ?app_length; cbn [length]; split; [lia|auto]).
  Qed.
  Lemma augment_call (augs : list augmentation) : forall (n : node) g s, call (fst (augment_function n augs g s)) = nested (call n) (length (dicts s)) augs.
  Proof.
    induction augs as [|a augs IH]; intros n g s; [reflexivity|]. rewrite augment_cons. destruct a as [d|p l m|]; cbn [apply_augmentation]; rewrite IH; cbn [dicts call AugSpec.nested]; rewrite ?app_length, ?Nat.add_1_r; reflexivity.
  Qed.

  Lemma callable_le (n : node) k : callable n k -> forall k', k <= k' -> callable n k'.
  Proof. induction 1; intros k' L; constructor; auto; lia. Qed.
  Lemma augment_callable (augs : list augmentation) : forall (n : node) g s, callable n (length (dicts s)) -> let '(m, s') := augment_function n augs g s in callable m (length (dicts s')).
  Proof.
    induction augs as [|a augs IH]; intros n g s H; [exact H|]. rewrite augment_cons. destruct a as [d|p l m|]; cbn [apply_augmentation]; apply IH; cbn [dicts]; rewrite ?app_length, ?Nat.add_1_r; constructor; auto.
  Qed.

  (** ** Attributes *)
  Lemma dict_of_update (s : state) i name v j : i < length (dicts s) -> dict_of (update_dict s i name v) j = if Nat.eqb j i then dset String.eqb name v (dict_of s i) else dict_of s j.
  Proof.
    unfold dict_of, update_dict; cbn [dicts]. generalize (dicts s). intros l Hi.
    assert (G : forall l b j, nth j (map (fun ix : nat * attributes A R V => if Nat.eqb (fst ix) i then dset String.eqb name v (snd ix) else snd ix) (combine (seq b (length l)) l)) [] =
      if (Nat.eqb (b + j) i && Nat.ltb j (length l))%bool then dset String.eqb name v (nth j l []) else nth j l []).
    { clear. induction l as [|d l IH]; intros b [|j]; cbn [seq length combine map nth fst snd]; auto.
      - rewrite andb_false_r. auto.
      - rewrite andb_false_r. auto.
      - rewrite Nat.add_0_r, andb_true_r. reflexivity.
      - rewrite IH. replace (S b + j) with (b + S j) by lia. reflexivity. }
    rewrite G. cbn [Nat.add]. destruct (Nat.eqb_spec j i) as [->|]; [|reflexivity]. destruct (Nat.ltb_spec i (length l)); [reflexivity|lia].
  Qed.
  Lemma update_length (s : state) i name v : length (dicts (update_dict s i name v)) = length (dicts s).
  Proof. unfold update_dict; cbn [dicts]. rewrite map_length, combine_length, seq_length. lia. Qed.
  Lemma get_agree (n : node) k : callable n k -> forall name (s t : state), (forall i, i < k -> dget String.eqb name (dict_of s i) = dget String.eqb name (dict_of t i)) -> get n name s = get n name t.
  Proof.
    induction 1 as [i k L|i m k C IH L|i m p k C IH L|i m g k C IH L|i m p g k C IH L|m g k C IH]; intros name s t H; cbn [get].
    - rewrite H by auto. auto.
    - rewrite H by auto. auto.
    - rewrite H by auto. auto.
    - rewrite (H i) by auto. rewrite (IH name s t) by (intros; apply H; lia). auto.
    - rewrite (H i) by auto. rewrite (IH name s t) by (intros; apply H; lia). auto.
    - rewrite (IH name s t) by auto. auto.
  Qed.
  Lemma get_attribute_error (n : node) name (s : state) e : get n name s = Err e -> e = AttributeError.
  Proof.
    revert e. induction n as [i|i m IH|i m IH p|f IHf m IHm g]; intros e; cbn [get]; try (destruct (dget _ _ _); intros H; congruence).
    destruct (String.eqb name "_function"); [discriminate|]. destruct (String.eqb name "_additional_attribute_source"); [discriminate|]. destruct (if String.eqb name "gradient" then g else None); [discriminate|].
    destruct (get f name s) as [v|e'] eqn:E; [discriminate|]. assert (e' = AttributeError) as -> by (apply IHf; auto). apply IHm.
  Qed.
  (** assignment changes one dictionary of the callable *)
  Lemma set_owner (n : node) k : callable n k -> forall name v (s : state), exists i, i < k /\ set n name v s = update_dict s i name v.
  Proof.
    induction 1 as [i k L|i m k C IH L|i m p k C IH L|i m g k C IH L|i m p g k C IH L|m g k C IH]; intros name v s; cbn [set].
    - eauto.
    - eauto.
    - eauto.
    - destruct (has (Closure i m) name s); [eauto|]. destruct (IH name v s) as (j & Hj & E). exists j. split; [lia|auto].
    - destruct (has (Logger i m p) name s); [eauto|]. destruct (IH name v s) as (j & Hj & E). exists j. split; [lia|auto].
    - destruct (has m name s); apply IH.
  Qed.
  Lemma no_override_gradient (name : string) (g : option node) : g = None -> (if String.eqb name "gradient" then g else None) = None.
  Proof. intros ->. destruct (String.eqb name "gradient"); auto. Qed.
  Lemma set_get (n : node) k : callable n k -> forall name v (s : state), k <= length (dicts s) -> ~ internal name -> (name = "gradient"%string -> no_override n) -> get n name (set n name v s) = Ok v.
  Proof.
    induction 1 as [i k L|i m k C IH L|i m p k C IH L|i m g k C IH L|i m p g k C IH L|m g k C IH]; intros name v s HL NI NO; cbn [set];
      try (cbn [get]; rewrite dict_of_update, Nat.eqb_refl, (dget_dset_same String.eqb String.eqb_eq) by lia; reflexivity).
    - assert (G : (if String.eqb name "gradient" then g else None) = None) by (destruct (String.eqb_spec name "gradient"); [apply NO; auto|auto]).
      assert (N1 : String.eqb name "_function" = false) by (apply String.eqb_neq; intros F; apply NI; left; auto).
      assert (N2 : String.eqb name "_additional_attribute_source" = false) by (apply String.eqb_neq; intros F; apply NI; right; auto).
      destruct (has (Closure i m) name s) eqn:Hh; cbn [get]; rewrite N1, N2, G.
      + rewrite dict_of_update, Nat.eqb_refl, (dget_dset_same String.eqb String.eqb_eq) by lia. reflexivity.
      + destruct (set_owner m i C name v s) as (j & Hj & E). rewrite E, dict_of_update by lia. destruct (Nat.eqb_spec i j); [lia|]. unfold has in Hh. cbn [get] in Hh. destruct (dget String.eqb name (dict_of s i)); [discriminate|].
        rewrite <- E. apply IH; auto; [lia|]. intros F. apply NO in F. apply F.
    - assert (G : (if String.eqb name "gradient" then g else None) = None) by (destruct (String.eqb_spec name "gradient"); [apply NO; auto|auto]).
      assert (N1 : String.eqb name "_function" = false) by (apply String.eqb_neq; intros F; apply NI; left; auto).
      assert (N2 : String.eqb name "_additional_attribute_source" = false) by (apply String.eqb_neq; intros F; apply NI; right; auto).
      destruct (has (Logger i m p) name s) eqn:Hh; cbn [get]; rewrite N1, N2, G.
      + rewrite dict_of_update, Nat.eqb_refl, (dget_dset_same String.eqb String.eqb_eq) by lia. reflexivity.
      + destruct (set_owner m i C name v s) as (j & Hj & E). rewrite E, dict_of_update by lia. destruct (Nat.eqb_spec i j); [lia|]. unfold has in Hh. cbn [get] in Hh. destruct (dget String.eqb name (dict_of s i)); [discriminate|].
        rewrite <- E. apply IH; auto; [lia|]. intros F. apply NO in F. apply F.
    - assert (G : (if String.eqb name "gradient" then g else None) = None) by (destruct (String.eqb_spec name "gradient"); [apply NO; auto|auto]).
      assert (N1 : String.eqb name "_function" = false) by (apply String.eqb_neq; intros F; apply NI; left; auto).
      assert (N2 : String.eqb name "_additional_attribute_source" = false) by (apply String.eqb_neq; intros F; apply NI; right; auto).
      assert (K : get m name (set m name v s) = Ok v) by (apply IH; auto; intros F; apply NO in F; apply F).
      destruct (has m name s); cbn [get]; rewrite N1, N2, G, K; reflexivity.
  Qed.
  Lemma get_set_other (n : node) k : callable n k -> forall name other v (s : state), k <= length (dicts s) -> other <> name -> get n other (set n name v s) = get n other s.
  Proof.
    intros C name other v s HL N. destruct (set_owner n k C name v s) as (i & Hi & E). rewrite E. apply (get_agree n k C). intros j Hj. rewrite dict_of_update by lia.
    destruct (Nat.eqb_spec j i) as [->|]; [|auto]. apply (dget_dset_other String.eqb String.eqb_eq). auto.
  Qed.

  (** reading an attribute of an augmented function: its latest definition *)
  Lemma get_step (a : augmentation) (n : node) g (s : state) name : callable n (length (dicts s)) -> ~ internal name -> (if String.eqb name "gradient" then g else None) = None ->
    let '(m, s') := apply_augmentation a n s in
    get (Wrap m n g) name s' = match (if existsb (String.eqb name) (names_of a) then get m name s' else Err AttributeError) with Ok v => Ok v | Err _ => get n name s end.
  Proof.
    intros C NI G. assert (N1 : String.eqb name "_function" = false) by (apply String.eqb_neq; intros F; apply NI; left; auto).
    assert (N2 : String.eqb name "_additional_attribute_source" = false) by (apply String.eqb_neq; intros F; apply NI; right; auto).
    assert (OLD : forall d l, get n name {| dicts := dicts s ++ [d]; log := l |} = get n name s).
    { intros d l. apply (get_agree n (length (dicts s)) C). intros i Hi. unfold dict_of; cbn [dicts]. rewrite app_nth1; auto. }
    assert (NEW : forall d l, dict_of {| dicts := dicts s ++ [d]; log := l |} (length (dicts s)) = d) by (intros d l; unfold dict_of; cbn [dicts]; rewrite app_nth2, Nat.sub_diag by lia; reflexivity).
    assert (ABS : forall d : attributes A R V, existsb (String.eqb name) (map fst d) = false -> dget String.eqb name d = None).
    { intros d Hd. apply (dget_None String.eqb String.eqb_eq). intros F. assert (T : existsb (String.eqb name) (map fst d) = true) by (apply existsb_exists; exists name; split; [auto|apply String.eqb_refl]). congruence. }
    assert (PRE : forall d : attributes A R V, existsb (String.eqb name) (map fst d) = true -> exists v, dget String.eqb name d = Some v).
    { intros d Hd. apply existsb_exists in Hd as (x & Hin & E). apply String.eqb_eq in E. subst x. destruct (dget String.eqb name d) eqn:F; [eauto|]. apply (dget_None String.eqb String.eqb_eq) in F. contradiction. }
    destruct a as [d|p l m|]; cbn [apply_augmentation names_of]; cbn [get]; rewrite N1, N2, G.
    - rewrite NEW, OLD. destruct (existsb (String.eqb name) (map fst d)) eqn:X; [destruct (PRE d X) as (v & ->); auto|rewrite (ABS d X); auto].
    - rewrite NEW, OLD. set (d := [("function", VNode n); ("call_number", VNat 0); ("level", l); ("message", m)]%string) in *. change ["function"; "call_number"; "level"; "message"]%string with (map fst d).
      destruct (existsb (String.eqb name) (map fst d)) eqn:X; [destruct (PRE d X) as (v & ->); auto|rewrite (ABS d X); auto].
    - cbn [existsb]. destruct (get n name s) as [v|e] eqn:F; [auto|]. rewrite (get_attribute_error _ _ _ _ F). auto.
  Qed.
  Lemma get_kept (augs : list augmentation) : forall (n : node) g (s : state) name, callable n (length (dicts s)) -> ~ internal name -> (if String.eqb name "gradient" then g else None) = None ->
    (forall a, In a augs -> ~ In name (names_of a)) -> get (fst (augment_function n augs g s)) name (snd (augment_function n augs g s)) = get n name s.
  Proof.
    induction augs as [|a augs IH] using rev_ind; intros n g s name C NI G H; [reflexivity|]. rewrite augment_snoc. specialize (IH n g s name C NI G (fun a' Ha => H a' (in_or_app _ _ _ (or_introl Ha)))).
    pose proof (augment_callable augs n g s C) as C'. destruct (augment_function n augs g s) as [m s1]. cbn [fst snd] in IH. pose proof (get_step a m g s1 name C' NI G) as GS. destruct (apply_augmentation a m s1) as [m' s2]. cbn [fst snd].
    rewrite GS. destruct (existsb (String.eqb name) (names_of a)) eqn:X; [|exact IH]. exfalso. apply existsb_exists in X as (x & Hin & E). apply String.eqb_eq in E. subst x. apply (H a); [apply in_or_app; right; left; auto|auto].
  Qed.

  (** ** The logger *)
  Lemma same_but_refl i (s : state) : same_but i s s.
  Proof. split; auto. Qed.
  Lemma logger_calls (b : behaviour) i (p : condition A R) decide (level message : option (value A R V)) : independent i b -> (forall v a k, p v a k = Ok (decide v a k)) ->
    forall args k s t, same_but i s t -> i < length (dicts t) -> dget String.eqb "call_number" (dict_of t i) = Some (VNat k) ->
      dget String.eqb "level" (dict_of t i) = level -> dget String.eqb "message" (dict_of t i) = message ->
      let '(rs, s') := calls b args s in let '(rs', t') := calls (logger_call i p b) args t in
      rs' = rs /\ same_but i s' t' /\ dget String.eqb "call_number" (dict_of t' i) = Some (VNat (k + length (successful args rs))) /\
      log t' = log t ++ map (fun x => {| l_level := level; l_message := message; l_number := VNat (fst x); l_value := snd (snd x) |}) (chosen decide k (successful args rs)).
  Proof.
    intros [I1 I2] Hp. induction args as [|a args IH]; intros k s t SB Hi HN HL HM; cbn [calls].
    - cbn. rewrite Nat.add_0_r, app_nil_r. repeat split; auto; apply SB.
    - destruct (I1 a s t SB) as [J1 J2]. destruct (I2 a t) as (D1 & D2 & D3). unfold logger_call at 1. destruct (b false a s) as [r s1]. destruct (b false a t) as [r' t1]. cbn [fst snd] in *. subst r'.
      destruct r as [v|e].
      + rewrite D1, HN, Hp. set (t2 := if decide v a k then _ else _). set (t3 := update_dict t2 i "call_number"%string (VNat (S k))).
        assert (DT2 : dicts t2 = dicts t1) by (unfold t2; destruct (decide v a k); auto).
        assert (Hi2 : i < length (dicts t2)) by (rewrite DT2, D3; auto).
        assert (DI : forall j, dict_of t2 j = dict_of t1 j) by (intros j; unfold dict_of; rewrite DT2; auto).
        assert (HI3 : dict_of t3 i = dset String.eqb "call_number"%string (VNat (S k)) (dict_of t i)) by (unfold t3; rewrite dict_of_update, Nat.eqb_refl by auto; rewrite DI, D1; auto).
        assert (SB3 : same_but i s1 t3).
        { destruct J2 as [K1 K2]. split; [unfold t3; rewrite update_length, DT2; auto|]. intros j Hj. unfold t3. rewrite dict_of_update by auto. destruct (Nat.eqb_spec j i); [contradiction|]. rewrite DI. auto. }
        specialize (IH (S k) s1 t3 SB3). destruct (calls b args s1) as [rs s2]. destruct (calls (logger_call i p b) args t3) as [rs' t4].
        destruct IH as (R1 & R2 & R3 & R4); [unfold t3; rewrite update_length; auto| | | |].
        { rewrite HI3. apply (dget_dset_same String.eqb String.eqb_eq). }
        { rewrite HI3. rewrite (dget_dset_other String.eqb String.eqb_eq) by discriminate. auto. }
        { rewrite HI3. rewrite (dget_dset_other String.eqb String.eqb_eq) by discriminate. auto. }
        subst rs'. cbn [successful combine flat_map app snd fst] in *. fold (successful args rs). split; [auto|]. split; [auto|]. split; [rewrite R3; cbn [length]; do 2 f_equal; lia|].
        rewrite R4. unfold t3 at 1. cbn [update_dict log]. unfold chosen at 2. cbn [length seq combine filter fst snd]. unfold t2. destruct (decide v a k); cbn [log]; rewrite ?D2, ?D1.
        * rewrite HL, HM. rewrite <- app_assoc. cbn [app map fst snd]. reflexivity.
        * reflexivity.
      + specialize (IH k s1 t1 J2). destruct (calls b args s1) as [rs s2]. destruct (calls (logger_call i p b) args t1) as [rs' t4]. destruct IH as (R1 & R2 & R3 & R4); [rewrite D3; auto|rewrite D1; auto|rewrite D1; auto|rewrite D1; auto|].
        subst rs'. cbn [successful combine flat_map app snd fst]. fold (successful args rs). rewrite R4, D2. auto.
  Qed.
End Proofs.
