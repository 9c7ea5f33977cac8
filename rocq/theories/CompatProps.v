(** C89: functions made compatible with old types. *)
From Coq Require Import String Lia.
From Verif Require Import Base BaseFacts CompatModel CompatSpec.
Open Scope list_scope.

Section Ind.
  Context {T : Type} (P : value T -> Prop) (Ho : forall o, P (Obj o)) (Hi : forall ty items, Forall P items -> P (Items ty items)).
  Fixpoint value_induction (v : value T) : P v :=
    match v with
    | Obj o => Ho o
    | Items ty items => Hi ty items ((fix go (l : list (value T)) : Forall P l := match l with [] => Forall_nil P | x :: l' => Forall_cons x (value_induction x) (go l') end) items)
    end.
End Ind.

Section C89.
  Context {T W : Type} (old : value T -> bool) (translate : value T -> W -> W * outcome (value T)) (warn : string -> W -> W * outcome unit).
  Notation step msg types := (translate_if_needed old translate warn msg types).
  Notation decorated := (compatible_with_old_type old translate warn).
  Notation all_old types := (all_old old types).
  Notation handle msg o := (or_failed (pbind (if_message warn msg) (fun _ => translate o))).

  Lemma items_pmap {A B} (f : A -> W -> W * outcome B) l : (fix go (l : list A) : W -> W * outcome (list B) :=
    match l with [] => pret [] | o :: l' => pbind (f o) (fun b => pbind (go l') (fun bs => pret (b :: bs))) end) l = pmap f l.
  Proof. induction l as [|x l IH]; [reflexivity|]. cbn [pmap]. rewrite <- IH. reflexivity. Qed.
  Lemma old_items types l : (fix go (l : list (value T)) := match l with [] => [] | x :: l' => old_objects old types x ++ go l' end) l = flat_map (old_objects old types) l.
  Proof. induction l as [|x l IH]; [reflexivity|]. cbn [flat_map]. rewrite <- IH. reflexivity. Qed.
  Lemma nat_eqb_ok : forall a b, Nat.eqb a b = true <-> a = b.
  Proof. intros. apply Nat.eqb_eq. Qed.

  (** ** All translations succeed *)
  Section Good.
    Context (msg : option string) (types : list nat) (new : value T -> value T) (after : value T -> W -> W).
    Definition good (o : value T) : Prop := forall w, handle msg o w = (after o w, Ret (new o)).
    Lemma list_good : forall l, Forall (fun v => (forall o, In o (old_objects old types v) -> good o) ->
        exists v', replaced old types new v v' /\ forall w, step msg types v w = (fold_left (fun w o => after o w) (old_objects old types v) w, Ret v')) l ->
      (forall o, In o (flat_map (old_objects old types) l) -> good o) ->
      exists l', Forall2 (replaced old types new) l l' /\ forall w, pmap (step msg types) l w = (fold_left (fun w o => after o w) (flat_map (old_objects old types) l) w, Ret l').
    Proof.
      induction l as [|v l IH]; intros F G; [exists []; split; [constructor|reflexivity]|]. inversion F as [|? ? F1 F2]; subst. cbn [flat_map] in *.
      destruct F1 as (v' & R & E); [intros o Ho; apply G, in_or_app; now left|]. destruct (IH F2) as (l' & Rl & El); [intros o Ho; apply G, in_or_app; now right|].
      exists (v' :: l'). split; [constructor; assumption|]. intros w. cbn [pmap]. unfold pbind at 1. rewrite E. unfold pbind at 1. rewrite El. rewrite fold_left_app. reflexivity.
    Qed.
    Lemma value_good v : (forall o, In o (old_objects old types v) -> good o) ->
      exists v', replaced old types new v v' /\ forall w, step msg types v w = (fold_left (fun w o => after o w) (old_objects old types v) w, Ret v').
    Proof.
      induction v as [o|ty items IH] using value_induction; intros G.
      - cbn [old_objects translate_if_needed] in *. destruct (old (Obj o)) eqn:E.
        + exists (new (Obj o)). split; [now constructor|]. intros w. apply G. now left.
        + exists (Obj o). split; [now constructor|]. reflexivity.
      - cbn [old_objects translate_if_needed] in *. destruct (old (Items ty items)) eqn:E.
        + exists (new (Items ty items)). split; [now constructor|]. intros w. apply G. now left.
        + destruct (memb Nat.eqb ty types) eqn:M.
          * apply (memb_In _ nat_eqb_ok) in M. rewrite old_items in *. destruct (list_good items IH G) as (l' & R & El). exists (Items ty l'). split; [now constructor|].
            intros w. rewrite items_pmap. unfold pbind. rewrite El. reflexivity.
          * exists (Items ty items). split; [|reflexivity]. apply kept_items; [exact E|]. intros H. apply (memb_In _ nat_eqb_ok) in H. congruence.
    Qed.
    Lemma args_good l : (forall o, In o (flat_map (old_objects old types) l) -> good o) ->
      exists l', Forall2 (replaced old types new) l l' /\ forall w, pmap (step msg types) l w = (fold_left (fun w o => after o w) (flat_map (old_objects old types) l) w, Ret l').
    Proof. intros G. apply list_good; [|exact G]. clear. induction l as [|v l IH]; constructor; [apply value_good|exact IH]. Qed.
    Lemma kwargs_good (l : list (string * value T)) : (forall o, In o (flat_map (old_objects old types) (map snd l)) -> good o) ->
      exists l', Forall2 (fun kv kv' => fst kv = fst kv' /\ replaced old types new (snd kv) (snd kv')) l l' /\
        forall w, pmap (fun kv => pbind (step msg types (snd kv)) (fun v => pret (fst kv, v))) l w = (fold_left (fun w o => after o w) (flat_map (old_objects old types) (map snd l)) w, Ret l').
    Proof.
      induction l as [|[k v] l IH]; intros G; [exists []; split; [constructor|reflexivity]|]. cbn [map flat_map snd] in *.
      destruct (value_good v) as (v' & R & E); [intros o Ho; apply G, in_or_app; now left|]. destruct IH as (l' & Rl & El); [intros o Ho; apply G, in_or_app; now right|].
      exists ((k, v') :: l'). split; [constructor; [split; [reflexivity|exact R]|exact Rl]|]. intros w. cbn [pmap fst snd]. unfold pbind at 1 2. rewrite E. cbn [pret]. unfold pbind at 1. rewrite El. rewrite fold_left_app. reflexivity.
    Qed.
  End Good.

  (** Every old object of the arguments is translated, from left to right, and the function gets the arguments with all of them replaced: the old objects
      themselves and those in sequences of the listed types, at any depth. *)
  Theorem C89_translated msg fallback types text (wrapped : func T W) args kwargs w (log : W -> W) (new : value T -> value T) (work : value T -> W -> W) :
    let types' := match types with Some l => l | None => [] end in
    (forall m w, msg = Some m -> m <> ""%string -> warn m w = (log w, Ret tt)) -> (msg = None \/ msg = Some ""%string -> forall w, log w = w) ->
    (forall o w, old o = true -> (exists v, In v (args ++ map snd kwargs) /\ lies_in old types' o v) -> translate o w = (work o w, Ret (new o))) ->
    exists args' kwargs', Forall2 (replaced old types' new) args args' /\ Forall2 (fun kv kv' => fst kv = fst kv' /\ replaced old types' new (snd kv) (snd kv')) kwargs kwargs' /\
      let w' := fold_left (fun w o => work o (log w)) (all_old types' args kwargs) w in
      (snd (wrapped args' kwargs' w') <> Failed -> decorated msg fallback types text wrapped args kwargs w = wrapped args' kwargs' w').
  Proof.
    intros types' Hw Hl Ht.
    assert (In_lies : forall v o, In o (old_objects old types' v) -> old o = true /\ lies_in old types' o v).
    { clear. intros v. induction v as [x|ty items IH] using value_induction; intros o Ho; cbn [old_objects] in Ho.
      - destruct (old (Obj x)) eqn:E; [destruct Ho as [<-|[]]; split; [exact E|now constructor]|destruct Ho].
      - destruct (old (Items ty items)) eqn:E; [destruct Ho as [<-|[]]; split; [exact E|now constructor]|]. destruct (memb Nat.eqb ty types') eqn:M; [|destruct Ho].
        apply (memb_In _ nat_eqb_ok) in M. rewrite old_items in Ho. apply in_flat_map in Ho as (v & Hv & Ho). rewrite Forall_forall in IH. destruct (IH v Hv o Ho) as [Q1 Q2]. split; [exact Q1|]. econstructor; eauto. }
    assert (G : forall o, In o (all_old types' args kwargs) -> good msg new (fun o w => work o (log w)) o).
    { intros o Ho w0. unfold all_old in Ho. apply in_flat_map in Ho as (v & Hv & Ho). destruct (In_lies v o Ho) as [Q1 Q2].
      assert (Em : if_message warn msg w0 = (log w0, Ret tt)).
      { unfold if_message. destruct msg as [m|]; [|rewrite Hl by (now left); reflexivity]. destruct (String.eqb m "") eqn:E; [|apply Hw; [reflexivity|apply String.eqb_neq; exact E]].
        apply String.eqb_eq in E. subst. rewrite Hl by (now right). reflexivity. }
      unfold or_failed, pbind. rewrite Em. rewrite Ht by (try exact Q1; exists v; split; assumption). reflexivity. }
    unfold all_old in *. rewrite flat_map_app in *.
    destruct (args_good msg types' new (fun o w => work o (log w)) args) as (args' & Ra & Ea); [intros o Ho; apply G, in_or_app; now left|].
    destruct (kwargs_good msg types' new (fun o w => work o (log w)) kwargs) as (kwargs' & Rk & Ek); [intros o Ho; apply G, in_or_app; now right|].
    exists args', kwargs'. split; [exact Ra|]. split; [exact Rk|]. cbv zeta. intros Hf. unfold compatible_with_old_type. fold types'. unfold pbind at 1. rewrite Ea. unfold pbind at 1. rewrite Ek. rewrite fold_left_app in *. set (w' := fold_left _ _ (fold_left _ _ w)) in *.
    destruct (wrapped args' kwargs' w') as [w2 [a| |e]]; [reflexivity|exfalso; apply Hf; reflexivity|reflexivity].
  Qed.
  (** Without old objects the function runs as it is. *)
  Lemma no_old_replaced types new v : (forall o, ~ lies_in old types o v) -> forall v', replaced old types new v v' -> v' = v.
  Proof.
    induction v as [x|ty items IH] using value_induction; intros N v' R.
    - inversion R; subst; [exfalso; eapply N; constructor; eassumption|reflexivity].
    - inversion R as [o Ho E|ty' it it' Ho Hin F E|? ? Ho Hn E|]; subst; [exfalso; eapply N; constructor; eassumption| |reflexivity]. f_equal.
      assert (N' : forall v, In v items -> forall o, ~ lies_in old types o v) by (intros v Hv o L; apply (N o); econstructor; eauto). clear R N Ho Hin.
      induction F as [|a b l l' Rab F IHF]; [reflexivity|]. inversion IH as [|? ? I1 I2]; subst. f_equal; [apply I1; [apply N'; now left|exact Rab]|]. apply IHF; [exact I2|]. intros v Hv. apply N'. now right.
  Qed.
  Lemma no_old_objects types v : (forall o, ~ lies_in old types o v) -> old_objects old types v = [].
  Proof.
    induction v as [x|ty items IH] using value_induction; intros N; cbn [old_objects].
    - destruct (old (Obj x)) eqn:E; [exfalso; apply (N (Obj x)); now constructor|reflexivity].
    - destruct (old (Items ty items)) eqn:E; [exfalso; apply (N (Items ty items)); now constructor|]. destruct (memb Nat.eqb ty types) eqn:M; [|reflexivity]. apply (memb_In _ nat_eqb_ok) in M. rewrite old_items.
      assert (Q : forall v, In v items -> forall o, ~ lies_in old types o v) by (intros v Hv o L; apply (N o); econstructor; eauto). clear N E.
      induction IH as [|b l B1 B2 IHB]; [reflexivity|]. cbn [flat_map]. rewrite B1 by (apply Q; now left). cbn [app]. apply IHB. intros v Hv. apply Q. now right.
  Qed.
  Lemma no_old_lists types l : (forall v o, In v l -> ~ lies_in old types o v) -> flat_map (old_objects old types) l = [].
  Proof.
    induction l as [|a l IHl]; intros N; [reflexivity|]. cbn [flat_map]. rewrite no_old_objects by (intros o; apply N; now left). cbn [app]. apply IHl. intros v o Hv. apply N. now right.
  Qed.
  Lemma no_old_args msg types l w : (forall v o, In v l -> ~ lies_in old types o v) -> pmap (step msg types) l w = (w, Ret l).
  Proof.
    intros N. pose proof (no_old_lists types l N) as Z. destruct (args_good msg types (fun v => v) (fun _ w => w) l) as (l' & R & E); [rewrite Z; intros o []|]. rewrite Z in E. rewrite E. cbn [fold_left]. do 2 f_equal.
    clear - R N. induction R as [|a b l l' R F IH]; [reflexivity|]. f_equal; [eapply no_old_replaced; [|exact R]; intros o; apply N; now left|apply IH; intros v o Hv; apply N; now right].
  Qed.
  Lemma no_old_kwargs msg types (l : list (string * value T)) w : (forall v o, In v (map snd l) -> ~ lies_in old types o v) ->
    pmap (fun kv => pbind (step msg types (snd kv)) (fun v => pret (fst kv, v))) l w = (w, Ret l).
  Proof.
    intros N. pose proof (no_old_lists types _ N) as Z. destruct (kwargs_good msg types (fun v => v) (fun _ w => w) l) as (l' & R & E); [rewrite Z; intros o []|]. rewrite Z in E. rewrite E. cbn [fold_left]. do 2 f_equal.
    clear - R N. induction R as [|[k a] [k' b] l l' [R1 R2] F IH]; [reflexivity|]. cbn [fst snd] in *. subst k'. f_equal; [f_equal; eapply no_old_replaced; [|exact R2]; intros o; apply N; now left|apply IH; intros v o Hv; apply N; now right].
  Qed.
  Theorem C89_transparent msg fallback types text (wrapped : func T W) args kwargs w :
    (forall v o, In v (args ++ map snd kwargs) -> ~ lies_in old (match types with Some l => l | None => [] end) o v) ->
    snd (wrapped args kwargs w) <> Failed -> decorated msg fallback types text wrapped args kwargs w = wrapped args kwargs w.
  Proof.
    intros N Hf. unfold compatible_with_old_type. unfold pbind at 1. rewrite no_old_args by (intros v o Hv; apply N, in_or_app; now left). unfold pbind at 1. rewrite no_old_kwargs by (intros v o Hv; apply N, in_or_app; now right).
    destruct (wrapped args kwargs w) as [w2 [a| |e]]; [reflexivity|exfalso; apply Hf; reflexivity|reflexivity].
  Qed.

  (** ** A translation fails *)
  Section Bad.
    Context (msg : option string) (types : list nat) (new : value T -> value T) (after : value T -> W -> W).
    Notation good := (good msg new after).
    Notation run l w := (fold_left (fun w o => after o w) l w).
    (** a list of arguments of which the old objects are pre ++ o :: post *)
    Lemma split_app {A} (l1 l2 pre : list A) o post : l1 ++ l2 = pre ++ o :: post ->
      (exists post1, l1 = pre ++ o :: post1) \/ (exists pre2, pre = l1 ++ pre2 /\ l2 = pre2 ++ o :: post).
    Proof.
      revert pre. induction l1 as [|x l1 IH]; intros pre E; [right; exists pre; split; [reflexivity|exact E]|]. destruct pre as [|y pre]; cbn [app] in E; injection E as -> E.
      - left. exists l1. reflexivity.
      - destruct (IH pre E) as [[post1 ->]|(pre2 & -> & E2)]; [left; exists post1; reflexivity|right; exists pre2; split; [reflexivity|exact E2]].
    Qed.
    Section One.
      Context (o : value T) (w2 : W) (bad : forall A, outcome A) (Hbad : (forall A, bad A = Failed) \/ exists e, forall A, bad A = Raised e).
      Lemma bind_bad {A B} (m : W -> W * outcome A) (f : A -> W -> W * outcome B) w : m w = (w2, bad A) -> pbind m f w = (w2, bad B).
      Proof. intros E. unfold pbind. rewrite E. destruct Hbad as [H|[e H]]; rewrite !H; reflexivity. Qed.
      Definition stops v := forall pre post w, old_objects old types v = pre ++ o :: post -> Forall good pre -> handle msg o (run pre w) = (w2, bad _) -> step msg types v w = (w2, bad _).
      Lemma list_stops {X Y} (f : X -> W -> W * outcome Y) (olds : X -> list (value T)) : forall l,
        (forall x, In x l -> (forall p, In p (olds x) -> good p) -> exists y, forall w, f x w = (run (olds x) w, Ret y)) ->
        Forall (fun x => forall pre post w, olds x = pre ++ o :: post -> Forall good pre -> handle msg o (run pre w) = (w2, bad _) -> f x w = (w2, bad _)) l ->
        forall pre post w, flat_map olds l = pre ++ o :: post -> Forall good pre -> handle msg o (run pre w) = (w2, bad _) -> pmap f l w = (w2, bad _).
      Proof.
        induction l as [|x l IH]; intros Hg F pre post w E G H; [destruct pre; discriminate|]. inversion F as [|? ? F1 F2]; subst. cbn [flat_map] in E. cbn [pmap].
        apply split_app in E as [[post1 E]|(pre2 & -> & E)].
        - apply bind_bad. eapply F1; eauto.
        - rewrite Forall_app in G. destruct G as [G1 G2]. rewrite fold_left_app in H. destruct (Hg x (or_introl eq_refl)) as [y Ey]; [rewrite Forall_forall in G1; exact G1|].
          unfold pbind at 1. rewrite Ey. apply bind_bad. eapply IH; eauto. intros z Hz. apply Hg. now right.
      Qed.
      Lemma value_stops v : stops v.
      Proof.
        induction v as [x|ty items IH] using value_induction; intros pre post w E G H.
        - cbn [old_objects translate_if_needed] in *. destruct (old (Obj x)); [|destruct pre; discriminate]. destruct pre as [|p pre]; [|destruct pre; discriminate]. injection E as <- <-. exact H.
        - cbn [old_objects translate_if_needed] in *. destruct (old (Items ty items)).
          + destruct pre as [|p pre]; [|destruct pre; discriminate]. injection E as <- <-. exact H.
          + destruct (memb Nat.eqb ty types); [|destruct pre; discriminate]. rewrite old_items in E. rewrite items_pmap. apply bind_bad.
            eapply (list_stops (step msg types) (old_objects old types)); eauto. intros y _ Gy. destruct (value_good msg types new after y Gy) as (v' & _ & Ev). exists v'. exact Ev.
      Qed.
      Lemma attempt_stops wrapped args kwargs pre post w : all_old types args kwargs = pre ++ o :: post -> Forall good pre -> handle msg o (run pre w) = (w2, bad _) ->
        pbind (pmap (step msg types) args) (fun new_args => pbind (pmap (fun kv => pbind (step msg types (snd kv)) (fun v => pret (fst kv, v))) kwargs) (fun new_kwargs => wrapped new_args new_kwargs)) w = (w2, bad (value T)).
      Proof.
        intros E G H. unfold all_old in E. rewrite flat_map_app in E. apply split_app in E as [[post1 E]|(pre2 & -> & E)].
        - apply bind_bad. eapply (list_stops (step msg types) (old_objects old types)); eauto.
          + intros y _ Gy. destruct (value_good msg types new after y Gy) as (v' & _ & Ev). exists v'. exact Ev.
          + apply Forall_forall. intros v _. exact (value_stops v).
        - rewrite Forall_app in G. destruct G as [G1 G2]. rewrite fold_left_app in H. destruct (args_good msg types new after args) as (args' & _ & Ea); [rewrite Forall_forall in G1; exact G1|].
          unfold pbind at 1. rewrite Ea. apply bind_bad.
          assert (E' : flat_map (fun kv : string * value T => old_objects old types (snd kv)) kwargs = pre2 ++ o :: post) by (rewrite <- E; clear; induction kwargs as [|kv l IH]; [reflexivity|]; cbn; rewrite IH; reflexivity).
          eapply (list_stops (fun kv => pbind (step msg types (snd kv)) (fun v => pret (fst kv, v))) (fun kv => old_objects old types (snd kv))); eauto.
          + intros [k y] _ Gy. destruct (value_good msg types new after y Gy) as (v' & _ & Ev). exists (k, v'). intros w0. unfold pbind. cbn [fst snd]. rewrite Ev. reflexivity.
          + apply Forall_forall. intros kv _ pre' post' w' E0 G0 H0. apply bind_bad. eapply value_stops; eauto.
      Qed.
    End One.
  End Bad.
  (** The first translation that fails, with any exception but SystemExit, ends the attempt: the function itself is not called.  With a fallback a warning is
      given and the fallback gets the original arguments; without one TranslationFailed is raised. *)
  Theorem C89_failed msg fallback types text (wrapped : func T W) args kwargs w (log : W -> W) (new : value T -> value T) (work : value T -> W -> W) pre o post w2 r :
    let types' := match types with Some l => l | None => [] end in
    (forall w, if_message warn msg w = (log w, Ret tt)) ->
    all_old types' args kwargs = pre ++ o :: post -> Forall (fun p => forall w, translate p w = (work p w, Ret (new p))) pre ->
    translate o (log (fold_left (fun w o => work o (log w)) pre w)) = (w2, r) -> (r = Failed \/ exists e, r = Raised e /\ e <> SystemExit) ->
    decorated msg fallback types text wrapped args kwargs w =
      match fallback with None => (w2, Failed) | Some f => match warn text w2 with (w3, Ret _) => f args kwargs w3 | (w3, Failed) => (w3, Failed) | (w3, Raised e) => (w3, Raised e) end end.
  Proof.
    intros types' Hl E G Ho Hr. unfold compatible_with_old_type. fold types'.
    rewrite (attempt_stops msg types' new (fun o w => work o (log w)) o w2 (fun A => Failed) (or_introl (fun A => eq_refl)) wrapped args kwargs pre post w E).
    - destruct fallback as [f|]; [|reflexivity]. unfold pbind. destruct (warn text w2) as [w3 [u| |e]]; reflexivity.
    - eapply Forall_impl; [|exact G]. intros p Hp w0. unfold or_failed, pbind. rewrite Hl, Hp. reflexivity.
    - unfold or_failed, pbind. rewrite Hl, Ho. destruct Hr as [->|(e & -> & Ne)]; [reflexivity|]. destruct e; try reflexivity. contradiction.
  Qed.
  (** SystemExit is passed on. *)
  Theorem C89_exit msg fallback types text (wrapped : func T W) args kwargs w (log : W -> W) (new : value T -> value T) (work : value T -> W -> W) pre o post w2 :
    let types' := match types with Some l => l | None => [] end in
    (forall w, if_message warn msg w = (log w, Ret tt)) ->
    all_old types' args kwargs = pre ++ o :: post -> Forall (fun p => forall w, translate p w = (work p w, Ret (new p))) pre ->
    translate o (log (fold_left (fun w o => work o (log w)) pre w)) = (w2, Raised SystemExit) ->
    decorated msg fallback types text wrapped args kwargs w = (w2, Raised SystemExit).
  Proof.
    intros types' Hl E G Ho. unfold compatible_with_old_type. fold types'.
    rewrite (attempt_stops msg types' new (fun o w => work o (log w)) o w2 (fun A => Raised SystemExit) (or_intror (ex_intro _ SystemExit (fun A => eq_refl))) wrapped args kwargs pre post w E); [reflexivity| |].
    - eapply Forall_impl; [|exact G]. intros p Hp w0. unfold or_failed, pbind. rewrite Hl, Hp. reflexivity.
    - unfold or_failed, pbind. rewrite Hl, Ho. reflexivity.
  Qed.
  (** Nothing distinguishes a failed translation from a TranslationFailed of the function itself, which has already acted: the fallback runs after it. *)
  Theorem C89_inner_failure_refuted msg f types text (wrapped : func T W) args kwargs w w2 w3 :
    (forall v o, In v (args ++ map snd kwargs) -> ~ lies_in old (match types with Some l => l | None => [] end) o v) ->
    wrapped args kwargs w = (w2, Failed) -> warn text w2 = (w3, Ret tt) -> decorated msg (Some f) types text wrapped args kwargs w = f args kwargs w3.
  Proof.
    intros N Hf Hw. unfold compatible_with_old_type. unfold pbind at 1. rewrite no_old_args by (intros v o Hv; apply N, in_or_app; now left). unfold pbind at 1. rewrite no_old_kwargs by (intros v o Hv; apply N, in_or_app; now right).
    rewrite Hf. unfold pbind. rewrite Hw. reflexivity.
  Qed.
  (** Where warnings are errors, the deprecation warning itself makes every translation fail. *)
  Theorem C89_warning_error_refuted m types text (wrapped : func T W) args kwargs w o post w2 e :
    let types' := match types with Some l => l | None => [] end in
    m <> ""%string -> all_old types' args kwargs = o :: post -> warn m w = (w2, Raised e) -> e <> SystemExit ->
    decorated (Some m) None types text wrapped args kwargs w = (w2, Failed).
  Proof.
    intros types' Nm E Hw Ne. unfold compatible_with_old_type. fold types'.
    rewrite (attempt_stops (Some m) types' (fun v => v) (fun _ w => w) o w2 (fun A => Failed) (or_introl (fun A => eq_refl)) wrapped args kwargs [] post w E (Forall_nil _)); [reflexivity|].
    cbn [fold_left]. unfold or_failed, pbind, if_message. apply String.eqb_neq in Nm. rewrite Nm, Hw. destruct e; try reflexivity. contradiction.
  Qed.
  (** The specification's two views of the old objects agree. *)
  Theorem C89_old_objects types o v : In o (old_objects old types v) <-> lies_in old types o v.
  Proof.
    split.
    - revert o. induction v as [x|ty items IH] using value_induction; intros o Ho; cbn [old_objects] in Ho.
      + destruct (old (Obj x)) eqn:E; [destruct Ho as [<-|[]]; now constructor|destruct Ho].
      + destruct (old (Items ty items)) eqn:E; [destruct Ho as [<-|[]]; now constructor|]. destruct (memb Nat.eqb ty types) eqn:M; [|destruct Ho].
        apply (memb_In _ nat_eqb_ok) in M. rewrite old_items in Ho. apply in_flat_map in Ho as (v & Hv & Ho). rewrite Forall_forall in IH. econstructor; eauto.
    - induction 1 as [H|ty items v E Hin Hv L IH]; [destruct o; cbn [old_objects]; rewrite H; now left|]. cbn [old_objects]. rewrite E, (proj2 (memb_In _ nat_eqb_ok ty types) Hin), old_items. apply in_flat_map. exists v. split; assumption.
  Qed.
End C89.

(** ** Examples: numbers of which those above 9 are old, and translated to their last digit; the world is the list of what happened *)
Module Example89.
  Definition old (v : value nat) := match v with Obj n => Nat.leb 10 n | _ => false end.
  Definition translate (v : value nat) (w : list string) : list string * outcome (value nat) :=
    match v with Obj 13 => ("bad"%string :: w, Raised ValueError) | Obj n => ("t"%string :: w, Ret (Obj (Nat.modulo n 10))) | v => (w, Ret v) end.
  Definition warn (m : string) (w : list string) : list string * outcome unit := (m :: w, Ret tt).
  Definition wrapped : func nat (list string) := fun args kwargs w => ("run"%string :: w, Ret (Items 7 (args ++ map snd kwargs))).
  Definition fallback : func nat (list string) := fun args kwargs w => ("fallback"%string :: w, Ret (Items 8 args)).
  Definition call := compatible_with_old_type old translate warn (Some "old"%string) (Some fallback) (Some [0]) "failed".
  (** 21 and 35, the second in a list, and 42 under a keyword are replaced; the tuple with 50 is not looked at *)
  Example translated : call wrapped [Obj 21; Items 0 [Obj 3; Obj 35]; Items 1 [Obj 50]] [("k"%string, Obj 42)] [] =
    (["run"; "t"; "old"; "t"; "old"; "t"; "old"]%string, Ret (Items 7 [Obj 1; Items 0 [Obj 3; Obj 5]; Items 1 [Obj 50]; Obj 2])).
  Proof. reflexivity. Qed.
  Example translated_hypotheses : forall o w, old o = true -> (exists v, In v [Obj 21; Items 0 [Obj 3; Obj 35]; Items 1 [Obj 50]; Obj 42] /\ lies_in old [0] o v) ->
    translate o w = ("t"%string :: w, Ret (match o with Obj n => Obj (Nat.modulo n 10) | v => v end)).
  Proof.
    intros o w H (v & Hv & L). apply (C89_old_objects old [0]) in L. cbn in Hv. destruct Hv as [<-|[<-|[<-|[<-|[]]]]]; cbn in L; repeat (destruct L as [<-|L]; [reflexivity|]); destruct L.
  Qed.
  Example failed : call wrapped [Obj 21; Items 0 [Obj 13]] [] [] = (["fallback"; "failed"; "bad"; "old"; "t"; "old"]%string, Ret (Items 8 [Obj 21; Items 0 [Obj 13]])).
  Proof. reflexivity. Qed.
  Example failed_hypotheses : all_old old [0] [Obj 21; Items 0 [Obj 13]] [] = [Obj 21] ++ Obj 13 :: [].
  Proof. reflexivity. Qed.
  Example transparent : call wrapped [Obj 2; Items 1 [Obj 50]] [] [] = wrapped [Obj 2; Items 1 [Obj 50]] [] [].
  Proof. reflexivity. Qed.
  Example inner : call (fun _ _ w => ("half done"%string :: w, Failed)) [Obj 2] [] [] = (["fallback"; "failed"; "half done"]%string, Ret (Items 8 [Obj 2])).
  Proof. reflexivity. Qed.
  Example warning_error : compatible_with_old_type old translate (fun _ w => (w, Raised GenericException)) (Some "old"%string) None None "failed" wrapped [Obj 21] [] [] = ([], Failed).
  Proof. reflexivity. Qed.
End Example89.

Print Assumptions C89_translated.
Print Assumptions C89_transparent.
Print Assumptions C89_failed.
Print Assumptions C89_exit.
Print Assumptions C89_inner_failure_refuted.
Print Assumptions C89_warning_error_refuted.
Print Assumptions C89_old_objects.
