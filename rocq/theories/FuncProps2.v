(** C102, part 2: attributes that are set on a pair, and concrete cases; stated over FuncModel.v and FuncSpec.v. *)
From Coq Require Import String List Bool Arith Lia.
From Verif Require Import Base BaseFacts FuncModel FuncSpec FuncProofs FuncProps.
Import ListNotations.
Open Scope list_scope.
Open Scope string_scope.
Open Scope list_scope.

Section C102b.
  Context {V : Type}.
  Implicit Types (h : heap V) (v x s : value V).

  Lemma in_dset (name nm : string) v x (d : list (string * value V)) : In (nm, x) (dset String.eqb name v d) -> x = v \/ In (nm, x) d.
  Proof.
    induction d as [|[k y] d IH]; cbn; [intros [E|[]]; left; congruence|]. destruct (String.eqb _ _); cbn; intros [E|H]; [left; congruence|auto|auto|]. destruct (IH H); auto.
  Qed.
  Lemma with_cell_nth h b c l : b < length h -> nth_error (with_cell h b c) l = if Nat.eqb l b then Some c else nth_error h l.
  Proof.
    unfold with_cell. revert b l. induction h as [|a h IH]; intros b l H; [cbn in H; lia|]. destruct b as [|b].
    - destruct l; reflexivity.
    - destruct l as [|l]; [reflexivity|]. cbn [firstn skipn app nth_error Nat.eqb]. apply IH. cbn in H. lia.
  Qed.
  (** the object that is reached from [l] through the function fields of pairs *)
  Inductive base_of h : nat -> nat -> Prop :=
  | base_here l c : nth_error h l = Some c -> (forall st f g, what c <> Pair st f g) -> base_of h l l
  | base_in l c st f g b : nth_error h l = Some c -> what c = Pair st f g -> base_of h f b -> base_of h l b.
  Lemma base_set h l b c name v : base_of h l b -> nth_error h b = Some c -> forall k, l < k -> proper h ->
    setattr_within k h l name v = match what c with Builtin _ => Err AttributeError | _ => Ok (with_cell h b {| what := what c; attributes := dset String.eqb name v (attributes c) |}) end.
  Proof.
    intros B Eb k. revert k. induction B as [l c' E N|l c' st f g b E W B IH]; intros k Hk P; (destruct k as [|k]; [lia|]); cbn [setattr_within]; rewrite E.
    - rewrite E in Eb. injection Eb as ->. destruct (what c) eqn:W; try reflexivity. now exfalso; eapply N.
    - rewrite W. apply IH; [exact Eb| |exact P]. destruct P as (P & _). destruct (P l c' _ _ _ E W). lia.
  Qed.
  Lemma base_get h l b c name : base_of h l b -> nth_error h b = Some c -> free_name name -> forall k, l < k -> proper h ->
    getattr_within k h l name = match dget String.eqb name (attributes c) with Some v => Ok v | None => Err AttributeError end.
  Proof.
    intros B Eb (N1 & N2 & N3) k. revert k. induction B as [l c' E N|l c' st f g b E W B IH]; intros k Hk P; (destruct k as [|k]; [lia|]); cbn [getattr_within]; rewrite E.
    - rewrite E in Eb. injection Eb as ->. destruct (what c) eqn:W; try reflexivity. now exfalso; eapply N.
    - rewrite W. apply String.eqb_neq in N1, N2. rewrite N1, N2, (not_tuple name N3). apply IH; [exact Eb| |exact P]. destruct P as (P & _). destruct (P l c' _ _ _ E W). lia.
  Qed.
  Lemma base_exists h : proper h -> forall l, l < length h -> exists b c, base_of h l b /\ nth_error h b = Some c.
  Proof.
    intros (P & _). induction l as [l IH] using lt_wf_ind. intros L. destruct (nth_error h l) as [c|] eqn:E; [|apply nth_error_None in E; lia].
    assert (D : (exists st f g, what c = Pair st f g) \/ forall st f g, what c <> Pair st f g) by (destruct (what c); try (right; congruence); left; eauto).
    destruct D as [(st & f & g & W)|N]; [|exists l, c; split; [now apply (base_here h l c)|exact E]].
    destruct (P l c st f g E W) as (Hf & _). destruct (IH f Hf) as (b & cb & B & Eb); [lia|]. exists b, cb. split; [now apply (base_in h l c st f g)|exact Eb].
  Qed.
  (** memories that differ in the attribute [name] of one object only *)
  Section Changed.
    Variables (h : heap V) (b : nat) (c : cell V) (name : string) (v : value V).
    Hypothesis (Eb : nth_error h b = Some c).
    Let h1 := with_cell h b {| what := what c; attributes := dset String.eqb name v (attributes c) |}.
    Lemma changed_nth l : nth_error h1 l = if Nat.eqb l b then Some {| what := what c; attributes := dset String.eqb name v (attributes c) |} else nth_error h l.
    Proof. apply with_cell_nth. apply nth_error_Some. congruence. Qed.
    Lemma changed_get : forall k l other, other <> name -> getattr_within k h1 l other = getattr_within k h l other.
    Proof.
      induction k as [|k IH]; intros l other N; [reflexivity|]. cbn [getattr_within]. rewrite changed_nth. destruct (Nat.eqb_spec l b) as [->|Hl].
      - rewrite Eb. cbn [what attributes]. destruct (what c); rewrite ?(dget_dset_other _ String.eqb_eq) by congruence; try reflexivity. rewrite IH by exact N. reflexivity.
      - destruct (nth_error h l) as [c'|]; [|reflexivity]. destruct (what c'); try reflexivity. rewrite IH by exact N. reflexivity.
    Qed.
    Lemma changed_call : forall k l pos kw, call_within k h1 l pos kw = call_within k h l pos kw.
    Proof.
      induction k as [|k IH]; intros l pos kw; [reflexivity|]. cbn [call_within]. rewrite changed_nth. destruct (Nat.eqb_spec l b) as [->|Hl].
      - rewrite Eb. cbn [what]. destruct (what c); try reflexivity. destruct (bind _ pos kw); [|reflexivity]. cbn [rbind]. apply IH.
      - destruct (nth_error h l) as [c'|]; [|reflexivity]. destruct (what c'); try reflexivity. destruct (bind _ pos kw); [|reflexivity]. cbn [rbind]. apply IH.
    Qed.
    Lemma changed_base l b' : base_of h l b' -> base_of h1 l b'.
    Proof.
      induction 1 as [l c' E N|l c' st f g b' E W B IH].
      - destruct (Nat.eqb_spec l b) as [->|Hl].
        + apply (base_here h1 b {| what := what c; attributes := dset String.eqb name v (attributes c) |}); [rewrite changed_nth, Nat.eqb_refl; reflexivity|]. cbn. rewrite Eb in E. injection E as ->. exact N.
        + apply (base_here h1 l c'); [|exact N]. rewrite changed_nth. apply Nat.eqb_neq in Hl. now rewrite Hl.
      - destruct (Nat.eqb_spec l b) as [->|Hl].
        + rewrite Eb in E. injection E as <-. eapply (base_in h1 b); [rewrite changed_nth, Nat.eqb_refl; reflexivity|exact W|exact IH].
        + eapply (base_in h1 l); [|exact W|exact IH]. rewrite changed_nth. apply Nat.eqb_neq in Hl. rewrite Hl. exact E.
    Qed.
    Lemma changed_proper : proper h -> (forall l', v = Object l' -> l' < length h) -> proper h1.
    Proof.
      assert (Len : length h1 = length h).
      { unfold h1, with_cell. rewrite app_length. cbn [length]. rewrite firstn_length, skipn_length. assert (b < length h) by (apply nth_error_Some; congruence). lia. }
      intros (P & Q) Hv. split.
      - intros l c' st f g E W. rewrite changed_nth in E. destruct (Nat.eqb_spec l b) as [->|Hl]; [injection E as <-; cbn in W; now apply (P b c st)|now apply (P l c' st)].
      - intros l c' nm l' E Hin. rewrite Len. rewrite changed_nth in E. destruct (Nat.eqb_spec l b) as [->|Hl]; [|now apply (Q l c' nm l')].
        injection E as <-. cbn in Hin. apply in_dset in Hin. destruct Hin as [Hin|Hin]; [apply Hv; congruence|now apply (Q b c nm l')].
    Qed.
  End Changed.

  (** Setting an attribute on a pair sets it on its function (for a pair of a pair, on the innermost function); nothing else changes, and no call. *)
  Theorem C102_set h l name v h1 : proper h -> l < length h -> (forall l', v = Object l' -> l' < length h) -> setattr h l name v = Ok h1 ->
    proper h1 /\ length h1 = length h /\ (free_name name -> forall l', (exists b, base_of h l b /\ base_of h l' b) -> getattr h1 l' name = Ok v) /\
    (forall l' other, other <> name -> getattr h1 l' other = getattr h l' other) /\ (forall l' pos kw, call h1 l' pos kw = call h l' pos kw).
  Proof.
    intros P L Hv E. destruct (base_exists h P l L) as (b & c & B & Eb). unfold setattr in E. rewrite (base_set h l b c name v B Eb) in E by (auto with arith).
    assert (D : h1 = with_cell h b {| what := what c; attributes := dset String.eqb name v (attributes c) |}) by (destruct (what c); congruence). clear E. subst h1.
    split; [now apply changed_proper|]. split.
    { unfold with_cell. rewrite app_length. cbn [length]. rewrite firstn_length, skipn_length. assert (b < length h) by (apply nth_error_Some; congruence). lia. }
    split; [|split; [intros; now apply changed_get|intros; now apply changed_call]].
    intros F l' (b' & B1 & B2). assert (b' = b).
    { clear - B B1. revert b' B1. induction B as [l c E N|l c st f g b E W B IH]; intros b' B1; inversion B1; subst.
      - reflexivity.
      - rewrite E in H. injection H as <-. exfalso; eapply N; eassumption.
      - rewrite E in H. injection H as <-. exfalso; eapply H0; eassumption.
      - rewrite E in H. injection H as <-. rewrite W in H0. injection H0 as <- <- <-. now apply IH. }
    subst b'. unfold getattr.
    rewrite (base_get _ l' b {| what := what c; attributes := dset String.eqb name v (attributes c) |} name); [cbn; now rewrite (dget_dset_same _ String.eqb_eq)| | |exact F|auto with arith|now apply changed_proper].
    - now apply changed_base.
    - rewrite changed_nth by exact Eb. now rewrite Nat.eqb_refl.
  Qed.
  (** A function that takes no attributes: nothing happens. *)
  Theorem C102_set_refused h f g h' w c ps name v : proper h -> f < length h -> g < length h -> function_with_gradient h f g = Ok (h', w) -> nth_error h f = Some c -> what c = Builtin ps ->
    setattr h' w name v = Err AttributeError.
  Proof.
    intros P Hf Hg E Ef W. destruct (C102_attributes h f g h' w P Hf Hg E) as (P' & _). unfold function_with_gradient in E. destruct (has_store_artifact_param h f) as [st|e]; [|discriminate]. injection E as <- <-.
    unfold setattr. rewrite (base_set _ (length h) f c name v); [now rewrite W| | |lia|exact P'].
    - eapply base_in; [apply new_cell|reflexivity|]. apply (base_here _ f c); [now rewrite nth_error_app1|congruence].
    - now rewrite nth_error_app1.
  Qed.
  (** The gradient of a pair cannot be replaced: the assignment succeeds, but only the function gets an attribute; the pair keeps its gradient. *)
  Theorem C102_set_gradient_refuted h f g h' w ps attrs v : proper h -> f < length h -> g < length h -> (forall l, v = Object l -> l < length h') -> v <> Object g ->
    nth_error h f = Some {| what := Function ps; attributes := attrs |} -> function_with_gradient h f g = Ok (h', w) ->
    exists h1, setattr h' w "gradient" v = Ok h1 /\ getattr h1 w "gradient" = Ok (Object g) /\ getattr h1 f "gradient" = Ok v.
  Proof.
    intros P Hf Hg Hv N Ef E. destruct (C102_attributes h f g h' w P Hf Hg E) as (P' & _). unfold function_with_gradient in E. destruct (has_store_artifact_param h f) as [st|e]; [|discriminate]. injection E as <- <-.
    set (c := {| what := Function ps; attributes := attrs |}) in *. set (h' := h ++ [{| what := Pair st f g; attributes := [] |}]) in *.
    assert (Ef' : nth_error h' f = Some c) by (unfold h'; now rewrite nth_error_app1).
    assert (Ew : nth_error h' (length h) = Some {| what := Pair st f g; attributes := [] |}) by apply new_cell.
    assert (B : base_of h' (length h) f) by (eapply base_in; [exact Ew|reflexivity|]; apply (base_here _ f c); [exact Ef'|discriminate]).
    exists (with_cell h' f {| what := what c; attributes := dset String.eqb "gradient" v (attributes c) |}). split; [|split].
    - unfold setattr. rewrite (base_set h' (length h) f c "gradient" v B Ef') by (auto with arith). reflexivity.
    - unfold getattr. cbn [getattr_within]. rewrite changed_nth by exact Ef'. destruct (Nat.eqb_spec (length h) f); [lia|]. rewrite Ew. reflexivity.
    - unfold getattr. cbn [getattr_within]. rewrite changed_nth by exact Ef'. rewrite Nat.eqb_refl. cbn [what c attributes]. now rewrite (dget_dset_same _ String.eqb_eq).
  Qed.
End C102b.

(** ** Concrete case: 0 is a plain function, 1 its gradient, 2 a function that stores artifacts, 3 a decorator's wrapper around it, 4 an ufunc, 5 a wrapper of itself *)
Definition ex_param (n : string) : param nat := {| p_name := n; p_kind := Pos; p_default := None |}.
Definition ex_store : param nat := {| p_name := "store_artifact"; p_kind := Pos; p_default := Some PyNone |}.
Definition ex_any : list (param nat) := [{| p_name := "args"; p_kind := VarPos; p_default := None |}; {| p_name := "kwargs"; p_kind := VarKeyword; p_default := None |}].
Definition ex_heap : heap nat := [
  {| what := Function [ex_param "params"]; attributes := [("offset", Data 7)] |}; {| what := Function [ex_param "params"]; attributes := [] |};
  {| what := Instance [ex_param "params"; ex_store]; attributes := [] |}; {| what := Function ex_any; attributes := [("__wrapped__", Object 2)] |};
  {| what := Builtin [ex_param "x"]; attributes := [] |}; {| what := Function ex_any; attributes := [("__wrapped__", Object 5)] |} ].
Definition paired (f g : nat) : heap nat := match function_with_gradient ex_heap f g with Ok (h, _) => h | Err _ => [] end.
Example C102_case : proper ex_heap /\ map (has_store_artifact_param ex_heap) [0; 1; 2; 3; 4; 5] = [Ok false; Ok false; Ok true; Ok true; Ok false; Ok false] /\
  called_with ex_heap 2 [ex_param "params"; ex_store] /\ usual [ex_param "params"; ex_store] /\
  map (fun f => recorder_kind (paired f 1) 6) [0; 2; 3; 4; 5] = [Ok (false, true); Ok (true, true); Ok (true, true); Ok (false, true); Ok (false, true)] /\
  getattr (paired 0 1) 6 "offset" = Ok (Data 7) /\ free_name "offset" /\ call (paired 2 1) 6 [Data 3] [] = Ok (2, {| named := [("params", Data 3); ("store_artifact", PyNone)]; rest := []; keywords := [] |}) /\
  call (paired 3 1) 6 [Data 3] [("store_artifact", Data 4)] = Ok (3, {| named := []; rest := [Data 3; Data 4]; keywords := [] |}).
Proof.
  split; [split|].
  - intros l c st f g E W. do 6 (destruct l as [|l]; [injection E as <-; discriminate|]). destruct l; discriminate.
  - intros l c name l' E Hin. do 6 (destruct l as [|l]; [injection E as <-; cbn in Hin; intuition; try discriminate; match goal with H : (_, _) = (_, _) |- _ => injection H as _ <- end; cbn; lia|]). destruct l; discriminate.
  - split; [reflexivity|]. split; [eexists; split; [reflexivity|right; left; reflexivity]|]. split; [exists (ex_param "params"); repeat split; discriminate|]. split; [reflexivity|]. split; [reflexivity|].
    split; [|split; reflexivity]. split; [discriminate|]. split; [discriminate|]. cbn. intuition discriminate.
Qed.

Print Assumptions C102_set.
Print Assumptions C102_set_gradient_refuted.
