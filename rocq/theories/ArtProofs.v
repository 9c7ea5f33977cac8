(** Facts about files in which results are kept. *)
From Coq Require Import String Ascii ZArith List Lia Decimal DecimalString.
From Verif Require Import Base BaseFacts Json CostModel UtilsModel OpModel ConvModel ArtModel ArtSpec.
From Verif Require DistProofs.
Import ListNotations.
Open Scope list_scope.
Local Open Scope nat_scope.

Lemma name_eqb : eqb_spec_of String.eqb.
Proof. intros a b. apply String.eqb_eq. Qed.

Section Files.
  Context {K : Type}.
  Implicit Types fs : files K.
  Lemma write_only p (made : result (json K)) fs : only (name_of p) fs (fst (write_document p made fs)).
  Proof. intros n N. unfold write_document. destruct made; cbn [fst]; rewrite ?(dget_dset_other _ name_eqb) by congruence; reflexivity. Qed.
  Lemma write_same p (j : json K) fs : dget String.eqb (name_of p) (fst (write_document p (Ok j) fs)) = Some (Doc j).
  Proof. unfold write_document. cbn [fst]. apply (dget_dset_same _ name_eqb). Qed.
  Lemma read_refers any how fs name src j : refers any fs name src -> dget String.eqb name fs = Some (Doc j) -> how <> OpenOnly -> (any = true -> how = EnsureOpen) -> read how fs src = Ok j.
  Proof.
    intros R E H1 H2. destruct R as [|A|c C].
    - destruct how; cbn; unfold read_file; rewrite E; reflexivity.
    - rewrite (H2 A). cbn. unfold read_file. rewrite E. reflexivity.
    - rewrite C in E. injection E as ->. destruct how; try reflexivity. congruence.
  Qed.
  Lemma kept_intro {A} any how (from : jdict K -> result A) d x (good : A -> Prop) : from d = Ok x -> good x -> how <> OpenOnly -> (any = true -> how = EnsureOpen) ->
    kept_in_file any (fun p => write_document p (Ok (JObj d))) (load how from) good.
  Proof.
    intros E G H1 H2 p fs. exists (fst (write_document p (Ok (JObj d)) fs)). split; [reflexivity|]. split; [apply write_only|]. exists x. split; [exact G|].
    intros src R. unfold load. rewrite (read_refers any how _ _ _ (JObj d) R (write_same p (JObj d) fs) H1 H2). cbn [rbind as_object]. rewrite E. reflexivity.
  Qed.

  (** ** json.dumps *)
  Fixpoint dumps_list (l : list (pyobj K)) : result (list (json K)) := match l with [] => Ok [] | x :: l' => let! j := dumps x in let! js := dumps_list l' in Ok (j :: js) end.
  Fixpoint dumps_dict (d : list (string * pyobj K)) : result (jdict K) := match d with [] => Ok [] | (k, x) :: d' => let! j := dumps x in let! js := dumps_dict d' in Ok ((k, j) :: js) end.
  Lemma dumps_PList l : dumps (PList l) = let! js := dumps_list l in Ok (JArr js).
  Proof. reflexivity. Qed.
  Lemma dumps_PTuple l : dumps (PTuple l) = let! js := dumps_list l in Ok (JArr js).
  Proof. reflexivity. Qed.
  Lemma dumps_PDict d : dumps (PDict d) = let! js := dumps_dict d in Ok (JObj js).
  Proof. reflexivity. Qed.
  Fixpoint dumps_object (j : json K) : dumps (object_of j) = Ok j.
  Proof.
    destruct j as [|b|x|s|l|d]; try reflexivity; cbn [object_of].
    - rewrite dumps_PList. assert (E : dumps_list (map object_of l) = Ok l).
      { induction l as [|a l IH]; [reflexivity|]. cbn [map dumps_list]. rewrite dumps_object. cbn [rbind]. rewrite IH. reflexivity. }
      rewrite E. reflexivity.
    - rewrite dumps_PDict. assert (E : dumps_dict (map (fun kv => (fst kv, object_of (snd kv))) d) = Ok d).
      { induction d as [|[k a] d IH]; [reflexivity|]. cbn [map dumps_dict fst snd]. rewrite dumps_object. cbn [rbind]. rewrite IH. reflexivity. }
      rewrite E. reflexivity.
  Qed.
  Lemma dumps_dict_get d js : dumps_dict d = Ok js -> forall k, match dget String.eqb k d, dget String.eqb k js with Some v, Some j => dumps v = Ok j | None, None => True | _, _ => False end.
  Proof.
    revert js. induction d as [|[k v] d IH]; intros js E; cbn [dumps_dict] in E; [injection E as <-; intros k; cbn; exact I|].
    destruct (dumps v) as [j|] eqn:V; [|discriminate]. cbn [rbind] in E. destruct (dumps_dict d) as [js'|] eqn:D; [|discriminate]. injection E as <-. intros k'. cbn [dget].
    destruct (String.eqb k' k) eqn:N; [exact V|]. apply IH. reflexivity.
  Qed.
  Lemma dumps_dict_ok d : (forall k v, In (k, v) d -> exists j, dumps v = Ok j) -> exists js, dumps_dict d = Ok js.
  Proof.
    induction d as [|[k v] d IH]; intros H; [eexists; reflexivity|]. cbn [dumps_dict]. destruct (H k v (or_introl eq_refl)) as (j & ->). cbn [rbind].
    destruct IH as (js & ->); [intros; apply (H k0); right; assumption|]. eexists. reflexivity.
  Qed.
  Lemma dumps_list_ok l : (forall v, In v l -> exists j, dumps v = Ok j) -> exists js, dumps_list l = Ok js.
  Proof.
    induction l as [|v l IH]; intros H; [eexists; reflexivity|]. cbn [dumps_list]. destruct (H v (or_introl eq_refl)) as (j & ->). cbn [rbind].
    destruct IH as (js & ->); [intros; apply H; right; assumption|]. eexists. reflexivity.
  Qed.
  Lemma dumps_list_nth l js : dumps_list l = Ok js -> forall i v, nth_error l i = Some v -> exists j, nth_error js i = Some j /\ dumps v = Ok j.
  Proof.
    revert js. induction l as [|a l IH]; intros js E i v H; [destruct i; discriminate|]. cbn [dumps_list] in E.
    destruct (dumps a) as [j|] eqn:V; [|discriminate]. cbn [rbind] in E. destruct (dumps_list l) as [js'|] eqn:D; [|discriminate]. injection E as <-.
    destruct i as [|i]; cbn in *; [injection H as <-; eauto|eauto].
  Qed.
End Files.

(** ** Pauli strings *)
Lemma append_assoc' a b c : ((a ++ b) ++ c)%string = (a ++ (b ++ c))%string.
Proof. induction a as [|x a IH]; cbn; [reflexivity|]. now rewrite IH. Qed.
Lemma append_nil' a : (a ++ "")%string = a.
Proof. induction a as [|x a IH]; cbn; [reflexivity|]. now rewrite IH. Qed.
Definition factor_string (f : factor pauli) : string := (pauli_name (snd f) ++ str_of_int (Z.of_nat (fst f)))%string.
Fixpoint term_string (t : term pauli) : string := match t with [] => ""%string | f :: t' => (factor_string f ++ term_string t')%string end.
Lemma term_string_fold t : forall s, fold_left (fun s (f : factor pauli) => (s ++ pauli_name (snd f) ++ str_of_int (Z.of_nat (fst f)))%string) t s = (s ++ term_string t)%string.
Proof.
  induction t as [|f t IH]; intros s; cbn [fold_left term_string]; [now rewrite append_nil'|]. rewrite IH. unfold factor_string. rewrite !append_assoc'. reflexivity.
Qed.
Definition digit (c : ascii) : Prop := (48 <= N_of_ascii c <= 57)%N.
Fixpoint all_digits (s : string) : Prop := match s with EmptyString => True | String c s' => digit c /\ all_digits s' end.
Lemma uint_digits u : all_digits (NilEmpty.string_of_uint u).
Proof. induction u; cbn [NilEmpty.string_of_uint all_digits]; try (split; [unfold digit; cbn; lia|assumption]); exact I. Qed.
Lemma nat_digits n : all_digits (str_of_int (Z.of_nat n)).
Proof.
  unfold str_of_int. destruct (Z.to_int (Z.of_nat n)) as [u|u] eqn:E.
  - cbn. unfold NilZero.string_of_uint. destruct u; try apply (uint_digits (_ _)). cbn. split; [unfold digit; cbn; lia|exact I].
  - destruct n; cbn in E; discriminate.
Qed.
Lemma split_digits a b r s : all_digits a -> all_digits b -> match r with EmptyString => True | String c _ => ~ digit c end -> match s with EmptyString => True | String c _ => ~ digit c end ->
  (a ++ r)%string = (b ++ s)%string -> a = b /\ r = s.
Proof.
  revert b. induction a as [|x a IH]; intros b Ha Hb Hr Hs E; destruct b as [|y b]; cbn in E.
  - auto.
  - subst r. cbn in Hr. destruct Hb. contradiction.
  - subst s. cbn in Hs. destruct Ha. contradiction.
  - injection E as -> E. destruct Ha as [_ Ha], Hb as [_ Hb]. destruct (IH b Ha Hb Hr Hs E) as [-> ->]. auto.
Qed.
Lemma term_string_head t : match term_string t with EmptyString => True | String c _ => ~ digit c end.
Proof. destruct t as [|[q p] t]; [exact I|]. cbn. destruct p; cbn; unfold digit; cbn; lia. Qed.
Lemma str_of_nat_inj m n : str_of_int (Z.of_nat m) = str_of_int (Z.of_nat n) -> m = n.
Proof. intros E. pose proof (DistProofs.int_of_str (Z.of_nat m)) as A. rewrite E, DistProofs.int_of_str in A. injection A. lia. Qed.
Lemma term_string_inj t : forall u, term_string t = term_string u -> t = u.
Proof.
  induction t as [|[q p] t IH]; intros [|[q' p'] u] E; [reflexivity| | |].
  - exfalso. destruct p'; cbn in E; discriminate.
  - exfalso. destruct p; cbn in E; discriminate.
  - cbn [term_string] in E. unfold factor_string in E. cbn [fst snd] in E.
    assert (P : p = p' /\ (str_of_int (Z.of_nat q) ++ term_string t)%string = (str_of_int (Z.of_nat q') ++ term_string u)%string).
    { destruct p, p'; cbn in E; try discriminate; injection E as E; auto. }
    destruct P as [<- P]. destruct (split_digits _ _ _ _ (nat_digits q) (nat_digits q') (term_string_head t) (term_string_head u) P) as [A B].
    apply str_of_nat_inj in A. apply IH in B. congruence.
Qed.
