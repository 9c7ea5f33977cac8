(** Properties of augment_cost_function and function_logger (C57). *)
From Coq Require Import List ZArith String Bool Lia.
From Verif Require Import Base BaseFacts AugModel AugSpec AugProofs.
Import ListNotations.
Open Scope string_scope.
Open Scope list_scope.

Section Props.
  Context {A R V : Type}.
  Notation node := (node A R). Notation state := (state A R V). Notation behaviour := (behaviour A R V). Notation augmentation := (augmentation A R V).
  Context (body : nat -> behaviour) (code : nat -> behaviour -> behaviour).
  Notation call := (call body code).
  Notation nested := (nested code).

  Lemma cost_cases (n : node) augs gaugs (s : state) :
    (exists g, get n "gradient" s = Ok (VNode g) /\ augment_cost_function n augs gaugs s = augment_function n augs (Some (fst (augment_function g gaugs None s))) (snd (augment_function g gaugs None s))) \/
    ((forall g, get n "gradient" s <> Ok (VNode g)) /\ augment_cost_function n augs gaugs s = augment_function n augs None s).
  Proof.
    unfold augment_cost_function. destruct (get n "gradient" s) as [[g|k|v]|e].
    - left. exists g. destruct (augment_function g gaugs None s). auto.
    - right. split; [discriminate|auto].
    - right. split; [discriminate|auto].
    - right. split; [discriminate|auto].
  Qed.

  (** A call of the augmented function is a call of the augmentations around the function, the last one outermost; the objects
      made for the function come after those made for its gradient. *)
  Theorem C57_calls (n : node) augs gaugs (s : state) : exists k, k <= made gaugs /\
    forall stores a t, call (fst (augment_cost_function n augs gaugs s)) stores a t = nested (call n) (length (dicts s) + k) augs stores a t.
  Proof.
    destruct (cost_cases n augs gaugs s) as [(g & _ & ->)|(_ & ->)].
    - exists (made gaugs). split; [auto|]. intros. rewrite augment_call, (proj1 (augment_length gaugs g None s)). reflexivity.
    - exists 0. split; [lia|]. intros. rewrite augment_call, Nat.add_0_r. reflexivity.
  Qed.
  (** Its gradient is the augmented gradient. *)
  Theorem C57_gradient (n g : node) augs gaugs (s : state) : augs <> [] -> get n "gradient" s = Ok (VNode g) ->
    exists g', let '(n', s') := augment_cost_function n augs gaugs s in
      get n' "gradient" s' = Ok (VNode g') /\ forall stores a t, call g' stores a t = nested (call g) (length (dicts s)) gaugs stores a t.
  Proof.
    intros H E. destruct (cost_cases n augs gaugs s) as [(g0 & E0 & ->)|(N & _)]; [|exfalso; eapply N; eauto]. rewrite E in E0. injection E0 as <-.
    set (gs := augment_function g gaugs None s). exists (fst gs). destruct (exists_last H) as (pre & a & ->). rewrite augment_snoc. destruct (augment_function n pre (Some (fst gs)) (snd gs)) as [m s1]. destruct (apply_augmentation a m s1) as [m' s2].
    split; [reflexivity|]. intros. unfold gs. rewrite augment_call. reflexivity.
  Qed.
  (** All attributes of the function are there, except those that an augmentation defines anew. *)
  Theorem C57_attributes_kept (n : node) augs gaugs (s : state) name : callable n (length (dicts s)) -> (forall g, get n "gradient" s = Ok (VNode g) -> callable g (length (dicts s))) ->
    ~ internal name -> name <> "gradient" -> (forall a, In a augs -> ~ In name (names_of a)) ->
    let '(n', s') := augment_cost_function n augs gaugs s in get n' name s' = get n name s.
  Proof.
    intros C CG NI NG H. assert (G : forall g : option node, (if String.eqb name "gradient" then g else None) = None) by (intros g; destruct (String.eqb_spec name "gradient"); [contradiction|auto]).
    destruct (cost_cases n augs gaugs s) as [(g & E & ->)|(_ & ->)].
    - destruct (augment_length gaugs g None s) as [L _].
      assert (C' : callable n (length (dicts (snd (augment_function g gaugs None s))))) by (eapply callable_le; [exact C|lia]).
      pose proof (get_kept augs n (Some (fst (augment_function g gaugs None s))) (snd (augment_function g gaugs None s)) name C' NI (G _) H) as K.
      destruct (augment_function n augs _ _) as [n' s']. cbn [fst snd] in K. rewrite K. clear -C CG E.
      assert (P : forall augs (m : node) g (s : state) i, i < length (dicts s) -> dict_of (snd (augment_function m augs g s)) i = dict_of s i).
      { clear. induction augs as [|a augs IH]; intros m g s i Hi; [reflexivity|]. rewrite augment_cons. destruct a as [d|p l q|]; cbn [apply_augmentation]; rewrite IH by (cbn [dicts]; rewrite ?app_length; lia); unfold dict_of; cbn [dicts]; rewrite ?app_nth1 by auto; reflexivity. }
      apply (get_agree n (length (dicts s)) C). intros i Hi. rewrite P by auto. reflexivity.
    - pose proof (get_kept augs n None s name C NI (G _) H) as K. destruct (augment_function n augs None s). exact K.
  Qed.
  (** The latest definition of an attribute counts. *)
  Theorem C57_attributes_added (n : node) pre d post (s : state) name v : callable n (length (dicts s)) -> ~ internal name -> dget String.eqb name d = Some v ->
    (forall a, In a post -> ~ In name (names_of a)) -> let '(n', s') := augment_function n (pre ++ MakeClosure d :: post) None s in get n' name s' = Ok v.
  Proof.
    intros C NI E H. assert (G : (if String.eqb name "gradient" then (None : option node) else None) = None) by (destruct (String.eqb name "gradient"); auto).
    assert (EQ : augment_function n (pre ++ MakeClosure d :: post) None s = let '(m, s1) := augment_function n (pre ++ [MakeClosure d]) None s in augment_function m post None s1).
    { unfold augment_function. rewrite !fold_left_app. cbn [fold_left]. destruct (fold_left _ pre (n, s)). reflexivity. }
    rewrite EQ. rewrite augment_snoc. pose proof (augment_callable pre n None s C) as C1. pose proof (augment_callable (pre ++ [MakeClosure d]) n None s C) as C2. rewrite augment_snoc in C2.
    destruct (augment_function n pre None s) as [m s1]. pose proof (get_step (MakeClosure d) m None s1 name C1 NI G) as GS. cbn [apply_augmentation names_of] in *.
    set (s2 := {| dicts := dicts s1 ++ [d]; log := log s1 |}) in *. pose proof (get_kept post (Wrap (Closure (length (dicts s1)) m) m None) None s2 name C2 NI G H) as K.
    match goal with |- let '(_, _) := ?X in _ => change X with (augment_function (Wrap (Closure (length (dicts s1)) m) m None) post None s2) end. destruct (augment_function _ post None s2) as [n' s']. cbn [fst snd] in K. rewrite K. etransitivity; [exact GS|].
    assert (X : existsb (String.eqb name) (map fst d) = true) by (apply existsb_exists; exists name; split; [apply (dget_In String.eqb String.eqb_eq) in E; apply (in_map fst) in E; exact E|apply String.eqb_refl]).
    rewrite X. cbn [get]. unfold s2, dict_of; cbn [dicts]. rewrite app_nth2, Nat.sub_diag by lia. cbn [nth]. rewrite E. reflexivity.
  Qed.
  (** Assigned attributes are read back, and no others change. *)
  Theorem C57_assignment (n : node) augs (s : state) name v : callable n (length (dicts s)) -> no_override n -> ~ internal name ->
    let '(n', s') := augment_function n augs None s in
    get n' name (set n' name v s') = Ok v /\ forall other, other <> name -> get n' other (set n' name v s') = get n' other s'.
  Proof.
    intros C NO NI. pose proof (augment_callable augs n None s C) as C'.
    assert (NO' : no_override (fst (augment_function n augs None s))).
    { clear C C' NI. revert n s NO. induction augs as [|a augs IH]; intros n s NO; [exact NO|]. rewrite augment_cons. destruct a as [d|p l m|]; cbn [apply_augmentation]; apply IH; cbn; auto. }
    destruct (augment_function n augs None s) as [n' s']. cbn [fst] in NO'. split; [apply (set_get n' _ C'); auto|]. intros other N. apply (get_set_other n' _ C'); auto.
  Qed.

  (** A logger returns what the function returns, and logs the successful calls that satisfy the condition, numbered from 0, with level, message and value. *)
  Theorem C57_logger (n : node) p decide level message (s : state) args : (forall v a k, p v a k = Ok (decide v a k)) -> independent (length (dicts s)) (call n) ->
    let '(m, s1) := augment_function n [MakeLogger p level message] None s in
    let '(rs, _) := calls (call n) args s1 in let '(rs', s') := calls (call m) args s1 in
    rs' = rs /\ get m "call_number" s' = Ok (VNat (length (successful args rs))) /\
    log s' = log s ++ map (fun x => {| l_level := Some level; l_message := Some message; l_number := VNat (fst x); l_value := snd (snd x) |}) (chosen decide 0 (successful args rs)).
  Proof.
    intros Hp HI. rewrite augment_cons. cbn [apply_augmentation augment_function fold_left]. set (i := length (dicts s)) in *. set (s1 := {| dicts := _; log := _ |}).
    assert (D : dict_of s1 i = [("function", VNode n); ("call_number", VNat 0); ("level", level); ("message", message)]) by (unfold dict_of, s1; cbn [dicts]; unfold i; rewrite app_nth2, Nat.sub_diag by lia; reflexivity).
    pose proof (logger_calls (call n) i p decide (Some level) (Some message) HI Hp args 0 s1 s1 (same_but_refl i s1)) as L.
    cbn [AugModel.call]. destruct (calls (call n) args s1) as [rs s2]. destruct (calls (logger_call i p (call n)) args s1) as [rs' s3].
    destruct L as (L1 & L2 & L3 & L4); [unfold s1; cbn [dicts]; rewrite app_length; cbn; lia|rewrite D; reflexivity|rewrite D; reflexivity|rewrite D; reflexivity|].
    split; [auto|]. split; [|exact L4]. cbn [get]. rewrite L3. reflexivity.
  Qed.

  (** ** What does not hold *)
  (** Without augmentations of the function itself, those of the gradient are not applied. *)
  Theorem C57_only_gradient_refuted (n g : node) gaugs (s : state) : get n "gradient" s = Ok (VNode g) ->
    fst (augment_cost_function n [] gaugs s) = n /\ (callable n (length (dicts s)) -> get n "gradient" (snd (augment_cost_function n [] gaugs s)) = Ok (VNode g)).
  Proof.
    intros E. destruct (cost_cases n [] gaugs s) as [(g0 & E0 & ->)|(N & _)]; [|exfalso; eapply N; eauto]. rewrite E in E0. injection E0 as <-. split; [reflexivity|]. intros C. cbn [augment_function fold_left snd].
    rewrite <- E. apply (get_agree n (length (dicts s)) C). intros i Hi.
    assert (P : forall augs (m : node) g (s : state) i, i < length (dicts s) -> dict_of (snd (augment_function m augs g s)) i = dict_of s i).
    { clear. induction augs as [|a augs IH]; intros m g s i Hi; [reflexivity|]. rewrite augment_cons. destruct a as [d|p l q|]; cbn [apply_augmentation]; rewrite IH by (cbn [dicts]; rewrite ?app_length; lia); unfold dict_of; cbn [dicts]; rewrite ?app_nth1 by auto; reflexivity. }
    rewrite P by auto. reflexivity.
  Qed.
  (** Assigning the gradient of an augmented function that has one has no visible effect. *)
  Theorem C57_assign_gradient_refuted (f source g : node) v (s : state) : get (Wrap f source (Some g)) "gradient" (set (Wrap f source (Some g)) "gradient" v s) = Ok (VNode g).
  Proof. reflexivity. Qed.
  (** A function with a logger cannot be called with store_artifact, whatever the function inside accepts. *)
  Theorem C57_logger_artifacts_refuted (n : node) augs p level message g (s t : state) a :
    call (fst (augment_function n (augs ++ [MakeLogger p level message]) g s)) true a t = (Err TypeError, t).
  Proof. rewrite augment_snoc. destruct (augment_function n augs g s) as [m s1]. reflexivity. Qed.
End Props.

(** ** Concrete cases: functions of integers; function 0 is 10 x and fails for 3, its gradient (object 1) is 10 *)
Section Examples.
  Open Scope Z_scope.
  Notation state := (state Z Z Z).
  Definition xbody (i : nat) : behaviour Z Z Z := fun stores a s => ((if Z.eqb a 3 then Err ValueError else Ok (match i with O => 10 * a | _ => 10 end)), s).
  (** closures add 1 to the value, and double the argument *)
  Definition xcode (i : nat) (b : behaviour Z Z Z) : behaviour Z Z Z := fun stores a s => let '(r, s') := b stores (2 * a) s in (match r with Ok v => Ok (v + 1) | Err e => Err e end, s').
  Definition xs : state := {| dicts := [[("gradient", VNode (Fun 1)); ("n_qubits", VOther 4)]; []]; log := [] |}.
  Definition odd_calls : condition Z Z := fun v a k => Ok (Nat.odd k).
  Definition xaugs : list (augmentation Z Z Z) := [MakeLogger odd_calls (VOther 20) (VOther 0); MakeClosure [("name", VOther 7)]; Same].
  Definition xaug := augment_cost_function (Fun 0) xaugs [MakeClosure []] xs.
  Example xcallable : callable (Fun 0 : node Z Z) (length (dicts xs)).
  Proof. constructor. cbn. lia. Qed.
  Example xindependent : independent 2 (AugModel.call xbody xcode (Fun 0)).
  Proof. split; intros; cbn; auto. Qed.
  Example augmented_calls : let '(f, s) := xaug in
    let '(rs, s') := calls (AugModel.call xbody xcode f) [1; 2; 3; 4; 5] s in
    rs = [Ok 21; Ok 41; Ok 61; Ok 81; Ok 101] /\ map (fun l => (l_number l, l_value l)) (log s') = [(VNat 1, 40); (VNat 3, 80)] /\
    get f "n_qubits" s' = Ok (VOther 4) /\ get f "name" s' = Ok (VOther 7) /\ get f "call_number" s' = Ok (VNat 5) /\ get f "zzz" s' = Err AttributeError /\
    match get f "gradient" s' with Ok (VNode g) => fst (AugModel.call xbody xcode g false 4 s') = Ok 11 | _ => False end /\
    get (Fun 0) "n_qubits" (AugModel.set f "n_qubits" (VOther 5) s') = Ok (VOther 5).
  Proof. vm_compute. repeat split. Qed.
  Example logger_case := C57_logger xbody xcode (Fun 0) odd_calls (fun v a k => Nat.odd k) (VOther 20) (VOther 0) xs [1; 3; 5] (fun _ _ _ => eq_refl) xindependent.
  Example kept_case := C57_attributes_kept (Fun 0) xaugs [MakeClosure []] xs "n_qubits" xcallable.
End Examples.

Print Assumptions C57_calls.
Print Assumptions C57_logger.
Print Assumptions C57_attributes_kept.
