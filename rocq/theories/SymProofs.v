From Coq Require Import String Ascii ZArith QArith Lia Bool.
From Verif Require Import Base BaseFacts SymModel SymSpec.
Open Scope list_scope.
Local Open Scope string_scope.
Local Open Scope nat_scope.
Local Open Scope list_scope.

Fixpoint sx_ind' (P : sx -> Prop)
  (H1 : forall q, P (SNative q)) (H2 : forall s, P (SSym s)) (H3 : forall z, P (SInt z)) (H4 : forall q, P (SFloat q))
  (H5 : forall q, P (SRational q)) (H6 : P SImagUnit) (H7 : forall l, Forall P l -> P (SAdd l)) (H8 : forall l, Forall P l -> P (SMul l))
  (H9 : forall b e, P b -> P e -> P (SPow b e)) (H10 : forall f l, Forall P l -> P (SFun f l)) (H11 : forall n, P (SOther n)) (e : sx) : P e :=
  let rec := sx_ind' P H1 H2 H3 H4 H5 H6 H7 H8 H9 H10 H11 in
  let fix go l : Forall P l := match l with [] => Forall_nil P | a :: l' => Forall_cons a (rec a) (go l') end in
  match e with
  | SNative q => H1 q | SSym s => H2 s | SInt z => H3 z | SFloat q => H4 q | SRational q => H5 q | SImagUnit => H6
  | SAdd l => H7 l (go l) | SMul l => H8 l (go l) | SPow b x => H9 b x (rec b) (rec x) | SFun f l => H10 f l (go l) | SOther n => H11 n
  end.

Lemma all_Forall (P : sx -> Prop) l : (fix go l := match l with [] => True | a :: l' => P a /\ go l' end) l <-> Forall P l.
Proof. induction l as [|a l IH]; split; intros H; [constructor|exact I|destruct H; constructor; tauto|inversion H; tauto]. Qed.
Lemma map_result_mapM {A B} (f : A -> result B) l : map_result f l = mapM f l.
Proof. induction l as [|a l IH]; cbn; [reflexivity|]. destruct (f a); cbn; [|reflexivity]. fold (map_result f l). now rewrite IH. Qed.

Lemma fold_left_monoid {A} (op : A -> A -> A) (z : A) :
  (forall a b c, op a (op b c) = op (op a b) c) -> (forall a, op a z = a) ->
  forall l a, fold_left op l a = op a (fold_right op z l).
Proof. intros As Z l. induction l as [|b l IH]; intros a; cbn; [now rewrite Z|]. now rewrite IH, As. Qed.
Lemma reduction_value {A} (op : A -> A -> A) (z : A) :
  (forall a b c, op a (op b c) = op (op a b) c) -> (forall a, op a z = a) ->
  forall l v, reduction op l = Ok v -> v = fold_right op z l.
Proof. intros As Z [|a l] v; cbn; [discriminate|]. intros [= <-]. now apply fold_left_monoid. Qed.

Section Proofs.
  Context (A : arith) (env : string -> A) (to_float : Q -> Q) (negate : sx -> sx).
  Hypothesis NEG : negation_of_products A env to_float negate.
  Notation from := (expression_from_sympy negate to_float).
  Notation tr := (translate_expression (arithmetic_dialect A env)).
  Notation val := (value A env).

  Lemma tr_call f args : tr (TCall f args) =
    match dget String.eqb f (known_functions (arithmetic_dialect A env)) with
    | None => Err ValueError | Some g => let! vs := mapM tr args in g vs end.
  Proof. cbn [translate_expression]. now rewrite map_result_mapM. Qed.
  Lemma num_is_value q e : num_is q e = true -> val e = vnum A q.
  Proof. destruct e; cbn; try discriminate; intros H; apply Qeq_bool_iff in H; now apply vnum_eq. Qed.

  Definition sound (e : sx) (t : tree) : Prop := forall v, tr t = Ok v -> v = val e.
  Lemma args_sound (n : nat) (l : list sx) ts vs :
    (forall e t, from n e = Ok t -> plain to_float e -> sound e t) ->
    mapM (from n) l = Ok ts -> Forall (plain to_float) l -> mapM tr ts = Ok vs -> vs = map val l.
  Proof.
    intros IH. revert ts vs. induction l as [|a l IHl]; intros ts vs; cbn [mapM].
    - intros [= <-] _. cbn. now intros [= <-].
    - destruct (from n a) as [t|] eqn:E; cbn [rbind]; [|discriminate].
      destruct (mapM (from n) l) as [ts'|] eqn:E'; cbn [rbind]; [|discriminate]. intros [= <-] P. inversion_clear P.
      cbn [mapM]. destruct (tr t) as [v|] eqn:Ev; cbn [rbind]; [|discriminate].
      destruct (mapM tr ts') as [vs'|] eqn:Evs; cbn [rbind]; [|discriminate]. intros [= <-].
      cbn [map]. f_equal; [|now apply (IHl ts')]. eapply IH; eauto.
  Qed.
  (* the translated call of a reduced operation *)
  Lemma add_sound n l ts : (forall e t, from n e = Ok t -> plain to_float e -> sound e t) ->
    mapM (from n) l = Ok ts -> Forall (plain to_float) l -> sound (SAdd l) (TCall "add" ts).
  Proof.
    intros IH M P v. rewrite tr_call. cbn -[mapM]. destruct (mapM tr ts) as [vs|] eqn:E; cbn [rbind]; [|discriminate].
    rewrite (args_sound _ _ _ _ IH M P E). apply reduction_value; [apply vadd_assoc|apply vadd_0].
  Qed.
  Lemma mul_sound n l ts : (forall e t, from n e = Ok t -> plain to_float e -> sound e t) ->
    mapM (from n) l = Ok ts -> Forall (plain to_float) l -> sound (SMul l) (TCall "mul" ts).
  Proof.
    intros IH M P v. rewrite tr_call. cbn -[mapM]. destruct (mapM tr ts) as [vs|] eqn:E; cbn [rbind]; [|discriminate].
    rewrite (args_sound _ _ _ _ IH M P E). apply reduction_value; [apply vmul_assoc|apply vmul_1].
  Qed.
  Lemma binary_call f g x y v : dget String.eqb f (known_functions (arithmetic_dialect A env)) = Some (binary g) ->
    tr (TCall f [x; y]) = Ok v -> exists a b, tr x = Ok a /\ tr y = Ok b /\ v = g a b.
  Proof.
    intros D. rewrite tr_call, D. cbn [mapM]. destruct (tr x) as [a|]; cbn [rbind]; [|discriminate].
    destruct (tr y) as [b|]; cbn [rbind]; [|discriminate]. cbn [binary]. intros [= <-]. eauto.
  Qed.
  Lemma sub_sound x a y b l f v : sound a x -> sound (negate (SMul (f :: l))) y -> b = SMul (f :: l) -> num_is (-1) f = true ->
    tr (TCall "sub" [x; y]) = Ok v -> v = val (SAdd [a; b]).
  Proof.
    intros S1 S2 -> N T. apply (binary_call "sub" (vsub A)) in T as (u & w & T1 & T2 & ->); [|reflexivity].
    rewrite (S1 _ T1), (S2 _ T2), vsub_def, (negate_value _ _ _ _ NEG _ _ N).
    cbn [value map fold_right]. now rewrite vadd_0.
  Qed.
  Lemma div_sound x a y b ex v : sound a x -> sound b y -> num_is (-1) ex = true ->
    tr (TCall "div" [x; y]) = Ok v -> v = val (SMul [a; SPow b ex]).
  Proof.
    intros S1 S2 N T. apply (binary_call "div" (vdiv A)) in T as (u & w & T1 & T2 & ->); [|reflexivity].
    rewrite (S1 _ T1), (S2 _ T2), vdiv_def. cbn [value map fold_right]. now rewrite vmul_1, (num_is_value _ _ N).
  Qed.

  Lemma from_sound n : forall e t, from n e = Ok t -> plain to_float e -> sound e t.
  Proof.
    induction n as [|n IH]; [discriminate|]. intros e t. destruct e as [q|s|z|q|q| |args|args|b ex|f args|k]; cbn [expression_from_sympy].
    - intros [= <-] _ v [= <-]. reflexivity.
    - intros [= <-] _ v [= <-]. reflexivity.
    - intros [= <-] _ v [= <-]. reflexivity.
    - cbn. intros [= <-] P v [= <-]. now apply vnum_eq.
    - cbn. intros [= <-] P v [= <-]. now apply vnum_eq.
    - intros [= <-] _ v [= <-]. reflexivity.
    - (* addition *)
      intros F P. cbn [plain] in P. apply all_Forall in P.
      assert (G : rmap (TCall "add") (mapM (from n) args) = Ok t -> sound (SAdd args) t).
      { destruct (mapM (from n) args) as [ts|] eqn:M; cbn [rmap]; [|discriminate]. intros [= <-]. now apply (add_sound n). }
      destruct args as [|a [|b [|c l]]]; try (now apply G).
      destruct (is_addition_of_negation [a; b]) eqn:N; [|now apply G]. clear G.
      destruct b as [| | | | | | |fs| | |]; try discriminate. destruct fs as [|f fs]; [discriminate|]. cbn [is_addition_of_negation] in N.
      destruct (from n a) as [x|] eqn:Ex; cbn [rbind] in F; [|discriminate].
      destruct (from n (negate _)) as [y|] eqn:Ey; cbn [rbind] in F; [|discriminate]. injection F as <-.
      inversion P as [|? ? P1 P2]; subst. inversion P2 as [|? ? P3 _]; subst.
      intros v. eapply sub_sound; eauto. eapply IH; eauto. apply (negate_plain _ _ _ _ NEG); assumption.
    - (* multiplication *)
      intros F P. cbn [plain] in P. apply all_Forall in P.
      assert (G : rmap (TCall "mul") (mapM (from n) args) = Ok t -> sound (SMul args) t).
      { destruct (mapM (from n) args) as [ts|] eqn:M; cbn [rmap]; [|discriminate]. intros [= <-]. now apply (mul_sound n). }
      destruct args as [|a [|b [|c l]]]; try (now apply G); [|now (destruct b; apply G)].
      destruct b as [| | | | | | | |b ex| |]; try (now apply G).
      destruct (is_multiplication_by_reciprocal [a; SPow b ex]) eqn:N; [|now apply G]. clear G. cbn in N.
      destruct (from n a) as [x|] eqn:Ex; cbn [rbind] in F; [|discriminate].
      destruct (from n b) as [y|] eqn:Ey; cbn [rbind] in F; [|discriminate]. injection F as <-.
      inversion P as [|? ? P1 P2]; subst. inversion P2 as [|? ? P3 _]; subst; destruct P3 as [P3 _].
      intros v. eapply div_sound; eauto.
    - (* power *)
      cbn [plain]. intros F [P1 P2]. destruct (num_is (-1) ex) eqn:N.
      + destruct (from n b) as [y|] eqn:Ey; cbn [rbind] in F; [|discriminate]. injection F as <-.
        intros v T. apply (binary_call "div" (vdiv A)) in T as (u & w & T1 & T2 & ->); [|reflexivity].
        injection T1 as <-. rewrite (IH _ _ Ey P1 _ T2), vdiv_def, vmul_1l. cbn [value]. now rewrite (num_is_value _ _ N).
      + destruct (num_is (1 # 2) ex) eqn:N'.
        * destruct (from n b) as [y|] eqn:Ey; cbn [rbind] in F; [|discriminate]. injection F as <-.
          intros v. rewrite tr_call. cbn -[mapM]. cbn [mapM]. destruct (tr y) as [u|] eqn:T; cbn [rbind]; [|discriminate].
          cbn [unary]. intros [= <-]. rewrite (IH _ _ Ey P1 _ T), vsqrt_def. now rewrite (num_is_value _ _ N').
        * destruct (mapM (from n) [b; ex]) as [ts|] eqn:M; cbn [rmap] in F; [|discriminate]. injection F as <-.
          intros v. rewrite tr_call. cbn -[mapM]. destruct (mapM tr ts) as [vs|] eqn:E; cbn [rbind]; [|discriminate].
          rewrite (args_sound n _ _ _ IH M ltac:(repeat constructor; assumption) E). cbn [map binary]. now intros [= <-].
    - (* function *)
      cbn [plain]. intros F [N P]. apply all_Forall in P.
      destruct (mapM (from n) args) as [ts|] eqn:M; cbn [rmap] in F; [|discriminate]. injection F as <-.
      intros v. rewrite tr_call. cbn [known_functions arithmetic_dialect arithmetic_functions dget].
      cbn [operation_names In] in N.
      assert (U : forall g, (let! vs := mapM tr ts in unary (fun x => vfun A g [x]) vs) = Ok v -> g = f -> v = val (SFun f args)).
      { intros g. destruct (mapM tr ts) as [vs|] eqn:E; cbn [rbind]; [|discriminate].
        rewrite (args_sound n _ _ _ IH M P E). cbn [value]. destruct (map val args) as [|a [|]]; cbn [unary]; try discriminate. intros [= <-] ->. reflexivity. }
      repeat match goal with |- context [String.eqb f ?x] => destruct (String.eqb_spec f x); [subst f; try (exfalso; tauto); intros H; now apply (U _ H)|] end.
      discriminate.
    - discriminate.
  Qed.

  Lemma size_in l a : In a l -> size a <= fold_right (fun a n => size a + n) 0 l.
  Proof. induction l as [|b l IH]; cbn; [easy|]. intros [->|H]; [lia|]. specialize (IH H). lia. Qed.
  Definition done (n : nat) (e : sx) : Prop := exists t v, from n e = Ok t /\ tr t = Ok v.
  Lemma args_done n l : (forall e, In e l -> done n e) ->
    exists ts vs, mapM (from n) l = Ok ts /\ mapM tr ts = Ok vs /\ length vs = length l.
  Proof.
    induction l as [|a l IH]; intros H; [now exists [], []|].
    destruct (H a (or_introl eq_refl)) as (t & v & E1 & E2).
    destruct IH as (ts & vs & M1 & M2 & L); [intros; apply H; now right|].
    exists (t :: ts), (v :: vs). cbn [mapM length]. rewrite E1, M1. cbn [rbind mapM]. rewrite E2, M2. cbn [rbind]. repeat split. now rewrite L.
  Qed.
  Lemma from_done n : forall e, supported to_float e -> size e <= n -> done n e.
  Proof.
    induction n as [|n IH]; intros e S L; [destruct e; cbn in L; lia|].
    destruct e as [q|s|z|q|q| |args|args|b ex|f args|k]; unfold done; cbn [expression_from_sympy]; try contradiction; try (now do 2 eexists).
    - cbn [supported] in S. destruct S as [N S]. apply all_Forall in S. cbn [size] in L. rewrite Forall_forall in S.
      assert (G : exists t v, rmap (TCall "add") (mapM (from n) args) = Ok t /\ tr t = Ok v).
      { destruct (args_done n args) as (ts & vs & M1 & M2 & Lv).
        { intros a Ha. pose proof (size_in _ _ Ha). apply IH; [now apply S|lia]. }
        rewrite M1. cbn [rmap]. exists (TCall "add" ts). rewrite tr_call, M2. cbn [rbind].
        destruct vs as [|v vs]; [destruct args; [contradiction|discriminate]|]. eexists. split; reflexivity. }
      destruct args as [|a [|b [|c l]]]; try exact G.
      destruct (is_addition_of_negation [a; b]) eqn:Ng; [|exact G].
      destruct b as [| | | | | | |fs| | |]; try discriminate. destruct fs as [|f fs]; [discriminate|]. cbn [is_addition_of_negation] in Ng.
      pose proof (negate_size _ _ _ _ NEG f fs Ng). cbn [fold_right] in L.
      destruct (IH a) as (x & u & F1 & T1); [apply S; now left|lia|].
      destruct (IH (negate (SMul (f :: fs)))) as (y & w & F2 & T2); [apply (negate_supported _ _ _ _ NEG); [assumption|apply S; right; now left]|lia|].
      rewrite F1, F2. cbn [rbind]. do 2 eexists. split; [reflexivity|]. rewrite tr_call. cbn [mapM]. rewrite T1, T2. reflexivity.
    - cbn [supported] in S. destruct S as [N S]. apply all_Forall in S. cbn [size] in L. rewrite Forall_forall in S.
      assert (G : exists t v, rmap (TCall "mul") (mapM (from n) args) = Ok t /\ tr t = Ok v).
      { destruct (args_done n args) as (ts & vs & M1 & M2 & Lv).
        { intros a Ha. pose proof (size_in _ _ Ha). apply IH; [now apply S|lia]. }
        rewrite M1. cbn [rmap]. exists (TCall "mul" ts). rewrite tr_call, M2. cbn [rbind].
        destruct vs as [|v vs]; [destruct args; [contradiction|discriminate]|]. eexists. split; reflexivity. }
      destruct args as [|a [|b [|c l]]]; try exact G; [|destruct b; exact G].
      destruct b as [| | | | | | | |b ex| |]; try exact G.
      destruct (is_multiplication_by_reciprocal [a; SPow b ex]) eqn:Ng; [|exact G].
      cbn [fold_right size] in L. destruct (S (SPow b ex) ltac:(right; now left)) as [Sb _].
      destruct (IH a) as (x & u & F1 & T1); [apply S; now left|lia|].
      destruct (IH b) as (y & w & F2 & T2); [assumption|lia|].
      rewrite F1, F2. cbn [rbind]. do 2 eexists. split; [reflexivity|]. rewrite tr_call. cbn [mapM]. rewrite T1, T2. reflexivity.
    - cbn [supported] in S. destruct S as [Sb Se]. cbn [size] in L.
      destruct (IH b) as (x & u & F1 & T1); [assumption|lia|]. destruct (IH ex) as (y & w & F2 & T2); [assumption|lia|].
      cbn [mapM]. rewrite F1, F2. destruct (num_is (-1) ex); [|destruct (num_is (1 # 2) ex)]; cbn [rbind rmap];
        do 2 eexists; (split; [reflexivity|]); rewrite tr_call; cbn [mapM]; rewrite ?T1, ?T2; reflexivity.
    - cbn [supported] in S. destruct S as (K & a & -> & S & _). cbn [size fold_right] in L.
      destruct (IH a) as (x & u & F1 & T1); [assumption|lia|].
      cbn [mapM]. rewrite F1. cbn [rbind rmap].
      exists (TCall f [x]). rewrite tr_call. cbn [mapM]. rewrite T1. cbn [rbind].
      destruct K as [<-|[<-|[<-|[<-|[]]]]]; (eexists; split; reflexivity).
  Qed.
  Lemma supported_plain e : supported to_float e -> plain to_float e.
  Proof.
    induction e as [| | | | | |l F|l F| |f l F|] using sx_ind'; cbn [supported plain]; try tauto.
    - intros [_ H]. apply all_Forall in H. apply all_Forall. rewrite Forall_forall in *. auto.
    - intros [_ H]. apply all_Forall in H. apply all_Forall. rewrite Forall_forall in *. auto.
    - intros (K & a & -> & H). split; [|split; [inversion F; destruct H; auto|exact I]].
      destruct K as [<-|[<-|[<-|[<-|[]]]]]; cbn; intuition discriminate.
  Qed.
End Proofs.

(** ** Sympy's negation: the factor -1 disappears *)
Definition drop_minus (e : sx) : sx :=
  match e with
  | SMul [f] => SInt 1
  | SMul [f; a] => a
  | SMul (f :: l) => SMul l
  | _ => SMul [SInt (-1); e]
  end.
Lemma drop_minus_ok A env to_float : negation_of_products A env to_float drop_minus.
Proof.
  split.
  - intros f [|a [|b l]] N; cbn [drop_minus value map fold_right]; rewrite (num_is_value A env _ _ N); [reflexivity|now rewrite vmul_1|reflexivity].
  - intros f [|a [|b l]] _; cbn; tauto.
  - intros f [|a [|b l]] _; cbn; try tauto. intuition discriminate.
  - intros f [|a [|b l]] _; cbn [drop_minus size fold_right]; try lia.
Qed.

(** ** Keys *)
Lemma string_compare_refl s : String.compare s s = Eq.
Proof. induction s as [|c s IH]; cbn; [reflexivity|]. unfold Ascii.compare. now rewrite N.compare_refl, IH. Qed.
Lemma string_compare_eq s : forall t, String.compare s t = Eq -> s = t.
Proof.
  induction s as [|c s IH]; intros [|d t]; cbn; try discriminate; [reflexivity|].
  destruct (Ascii.compare c d) eqn:E; try discriminate. apply ascii_compare_eq in E as ->. intros H. now rewrite (IH t).
Qed.
Lemma string_ltb_spec s t : String.ltb s t = true <-> String.compare s t = Lt.
Proof. unfold String.ltb. destruct (String.compare s t); intuition discriminate. Qed.
Lemma string_ltb_irrefl s : String.ltb s s = false.
Proof. unfold String.ltb. now rewrite string_compare_refl. Qed.
Lemma string_ltb_cons a s b t : String.ltb (String a s) (String b t) = match Ascii.compare a b with Lt => true | Gt => false | Eq => String.ltb s t end.
Proof. unfold String.ltb. cbn. destruct (Ascii.compare a b); reflexivity. Qed.
Lemma string_ltb_trans a : forall b c, String.ltb a b = true -> String.ltb b c = true -> String.ltb a c = true.
Proof.
  induction a as [|x a IH]; intros b c.
  - destruct b, c; try discriminate; reflexivity.
  - destruct b as [|y b]; [discriminate|]. destruct c as [|z c]; [discriminate|].
    rewrite !string_ltb_cons, !ascii_compare_spec.
    destruct (N.compare_spec (N_of_ascii x) (N_of_ascii y)) as [E|E|E];
      destruct (N.compare_spec (N_of_ascii y) (N_of_ascii z)) as [F|F|F];
      destruct (N.compare_spec (N_of_ascii x) (N_of_ascii z)) as [G|G|G]; try lia; try discriminate; eauto.
Qed.
Lemma string_ltb_total a : forall b, a <> b -> String.ltb a b = false -> String.ltb b a = true.
Proof.
  induction a as [|x a IH]; intros [|y b] N; try (reflexivity || discriminate || congruence).
  rewrite !string_ltb_cons, !ascii_compare_spec. rewrite (N.compare_antisym (N_of_ascii x) (N_of_ascii y)).
  destruct (N.compare_spec (N_of_ascii x) (N_of_ascii y)) as [E|E|E]; cbn [CompOpp]; try easy.
  intros H. apply IH; [|assumption]. intros ->. apply N. f_equal. rewrite <- (ascii_N_embedding x), <- (ascii_N_embedding y). now rewrite E.
Qed.

(* alternating keys: texts at even positions *)
Inductive alternates : bool -> list key_part -> Prop :=
| alt_end b : alternates b []
| alt_text s l : alternates false l -> alternates true (KText s :: l)
| alt_int n l : alternates true l -> alternates false (KInt n :: l).
Lemma alternates_lt b k k' : alternates b k -> alternates b k' -> exists r, key_lt k k' = Ok r.
Proof.
  intros H. revert k'. induction H; intros k' H'; [destruct k'; cbn; eauto| |];
    (inversion H'; subst; cbn [key_lt part_eqb]; [eauto|]).
  - destruct (String.eqb s s0); eauto.
  - destruct (N.eqb n n0); eauto.
Qed.
Lemma part_eqb_eq a b : part_eqb a b = true <-> a = b.
Proof.
  destruct a, b; cbn; rewrite ?String.eqb_eq, ?N.eqb_eq; split; congruence || discriminate.
Qed.
Lemma key_lt_irrefl k : key_lt k k = Ok false.
Proof. induction k as [|a k IH]; cbn; [reflexivity|]. now rewrite (proj2 (part_eqb_eq a a) eq_refl). Qed.
Lemma key_lt_trans b k1 : forall k2 k3, alternates b k1 -> alternates b k2 -> alternates b k3 ->
  key_lt k1 k2 = Ok true -> key_lt k2 k3 = Ok true -> key_lt k1 k3 = Ok true.
Proof.
  revert b. induction k1 as [|a1 k1 IH]; intros b [|a2 k2] [|a3 k3] A1 A2 A3; cbn [key_lt]; try discriminate; [reflexivity|].
  inversion A1; subst; inversion A2; subst; inversion A3; subst; cbn [part_eqb].
  - destruct (String.eqb_spec s s0), (String.eqb_spec s0 s1), (String.eqb_spec s s1); subst; try congruence.
    + now apply (IH false).
    + intros [= L1] [= L2]. exfalso. pose proof (string_ltb_trans _ _ _ L1 L2) as T. rewrite string_ltb_irrefl in T. discriminate.
    + intros [= L1] [= L2]. f_equal. eapply string_ltb_trans; eauto.
  - destruct (N.eqb_spec n n0), (N.eqb_spec n0 n1), (N.eqb_spec n n1); subst; try congruence.
    + now apply (IH true).
    + intros [= L1] [= L2]. apply N.ltb_lt in L1, L2. lia.
    + intros [= L1] [= L2]. f_equal. apply N.ltb_lt in L1, L2. apply N.ltb_lt. lia.
Qed.
Lemma key_lt_total b k1 : forall k2, alternates b k1 -> alternates b k2 -> k1 <> k2 -> key_lt k1 k2 = Ok false -> key_lt k2 k1 = Ok true.
Proof.
  revert b. induction k1 as [|a1 k1 IH]; intros b [|a2 k2] A1 A2 N; cbn [key_lt]; try (congruence || reflexivity).
  inversion A1; subst; inversion A2; subst; cbn [part_eqb].
  - rewrite (String.eqb_sym s0 s). destruct (String.eqb_spec s s0) as [->|Ns].
    + apply (IH false); congruence.
    + intros [= H]. f_equal. now apply string_ltb_total.
  - rewrite (N.eqb_sym n0 n). destruct (N.eqb_spec n n0) as [->|Ns].
    + apply (IH true); congruence.
    + intros [= H]. f_equal. apply N.ltb_ge in H. apply N.ltb_lt. lia.
Qed.

Lemma groups_alternate s : forall d cur, alternates (negb d) (natural_groups s d cur).
Proof.
  induction s as [|c s IH]; intros d cur; cbn [natural_groups].
  - destruct d; repeat constructor.
  - destruct (is_digit c), d; cbn [negb]; repeat constructor; apply (IH false) || apply (IH true).
Qed.
Lemma natural_key_alternates s : alternates true (natural_key s).
Proof. apply (groups_alternate _ false). Qed.
(* the last group is a text *)
Lemma groups_last s : forall d cur, exists l t, natural_groups s d cur = l ++ [KText t].
Proof.
  induction s as [|c s IH]; intros d cur; cbn [natural_groups].
  - destruct d; [now exists [KInt (int_of_digits cur)], EmptyString|now exists [], (string_of_list_ascii cur)].
  - destruct (is_digit c), d.
    + apply IH.
    + destruct (IH true [c]) as (l & t & ->). now exists (KText (string_of_list_ascii cur) :: l), t.
    + destruct (IH false [c]) as (l & t & ->). now exists (KInt (int_of_digits cur) :: l), t.
    + apply IH.
Qed.
Definition is_text (p : key_part) : bool := match p with KText _ => true | _ => false end.
Lemma alternates_app b l p q : alternates b (l ++ [p]) -> is_text q = negb (is_text p) -> alternates b (l ++ [p; q]).
Proof.
  revert b. induction l as [|a l IH]; intros b; cbn [app].
  - intros H E. inversion H; subst; destruct q; try discriminate; repeat constructor.
  - intros H E. inversion H; subst; constructor; now apply IH.
Qed.
Lemma alternates_rev b l : alternates b l -> forall c, (match rev l with [] => True | p :: _ => is_text p = c end) -> alternates c (rev l).
Proof.
  intros H. induction H as [|s l H IH|n l H IH]; intros c E.
  - constructor.
  - cbn [rev] in *. destruct (rev l) as [|p r] eqn:R.
    + cbn in E. subst. repeat constructor.
    + specialize (IH c E). apply (f_equal (@rev _)) in R. rewrite rev_involutive in R. cbn [rev] in R. subst l.
      clear E. destruct r as [|x r] using rev_ind.
      * cbn [rev app] in H. destruct p; inversion H; subst; inversion IH; subst; repeat constructor.
      * clear IHr. rewrite rev_app_distr in H. cbn [rev app] in H.
        replace ((p :: r ++ [x]) ++ [KText s]) with ((p :: r) ++ [x; KText s]) by (cbn [app]; now rewrite <- app_assoc).
        apply alternates_app; [exact IH|]. inversion H; reflexivity.
  - cbn [rev] in *. destruct (rev l) as [|p r] eqn:R.
    + cbn in E. subst. repeat constructor.
    + specialize (IH c E). apply (f_equal (@rev _)) in R. rewrite rev_involutive in R. cbn [rev] in R. subst l.
      clear E. destruct r as [|x r] using rev_ind.
      * cbn [rev app] in H. destruct p; inversion H; subst; inversion IH; subst; repeat constructor.
      * clear IHr. rewrite rev_app_distr in H. cbn [rev app] in H.
        replace ((p :: r ++ [x]) ++ [KInt n]) with ((p :: r) ++ [x; KInt n]) by (cbn [app]; now rewrite <- app_assoc).
        apply alternates_app; [exact IH|]. inversion H; reflexivity.
Qed.
Lemma revlex_alternates s : alternates true (natural_key_revlex s).
Proof.
  unfold natural_key_revlex. eapply alternates_rev; [apply natural_key_alternates|].
  destruct (groups_last (list_ascii_of_string s) false []) as (l & t & E). unfold natural_key. rewrite E, rev_app_distr. reflexivity.
Qed.

(** ** Names of the form stem + numeral *)
Lemma groups_text s : forall cur r, (forall c, In c s -> is_digit c = false) -> natural_groups (s ++ r) false cur = natural_groups r false (cur ++ s).
Proof.
  induction s as [|c s IH]; intros cur r H; cbn [app natural_groups]; [now rewrite app_nil_r|].
  rewrite H by now left. rewrite IH by (intros; apply H; now right). now rewrite <- app_assoc.
Qed.
Lemma groups_digits s : forall cur, (forall c, In c s -> is_digit c = true) -> natural_groups s true cur = [KInt (int_of_digits (cur ++ s)); KText EmptyString].
Proof.
  induction s as [|c s IH]; intros cur H; cbn [natural_groups]; [now rewrite app_nil_r|].
  rewrite H by now left. rewrite IH by (intros; apply H; now right). now rewrite <- app_assoc.
Qed.
Lemma int_of_digits_value l : int_of_digits l = decimal_value l.
Proof.
  unfold int_of_digits.
  assert (G : forall l a, fold_left (fun acc c => 10 * acc + digit_value c)%N l a = (a * 10 ^ N.of_nat (length l) + decimal_value l)%N).
  { clear. induction l as [|c l IH]; intros a; cbn [fold_left decimal_value length].
    - cbn. lia.
    - rewrite IH. rewrite Nnat.Nat2N.inj_succ, N.pow_succ_r'. unfold digit_value. change (N_of_ascii "0") with 48%N. nia. }
  rewrite G. lia.
Qed.
Lemma list_ascii_app s t : list_ascii_of_string (s ++ t)%string = list_ascii_of_string s ++ list_ascii_of_string t.
Proof. induction s as [|c s IH]; cbn; [reflexivity|]. now rewrite IH. Qed.
Lemma natural_key_name p d : no_digits p -> numeral d -> natural_key (p ++ d)%string = [KText p; KInt (numeral_value d); KText EmptyString].
Proof.
  intros Np [Ne Nd]. unfold natural_key. rewrite list_ascii_app, groups_text by exact Np. cbn [app].
  destruct d as [|c d]; [contradiction|]. cbn [list_ascii_of_string] in *. cbn [natural_groups].
  rewrite (Nd c) by now left. rewrite string_of_list_ascii_of_string. rewrite groups_digits by (intros; apply Nd; now right).
  cbn [app]. unfold numeral_value. now rewrite int_of_digits_value.
Qed.

Lemma split_no_underscore s : (forall c, In c s -> c <> "_"%char) -> split_underscore s = [s].
Proof.
  induction s as [|c s IH]; intros H; cbn [split_underscore]; [reflexivity|].
  destruct (Ascii.eqb_spec c "_"%char); [exfalso; eapply H; [now left|assumption]|].
  rewrite IH by (intros; apply H; now right). reflexivity.
Qed.
Lemma split_one_underscore s t : (forall c, In c s -> c <> "_"%char) -> (forall c, In c t -> c <> "_"%char) ->
  split_underscore (s ++ "_"%char :: t) = [s; t].
Proof.
  intros Hs Ht. induction s as [|c s IH]; cbn [app split_underscore].
  - rewrite Ascii.eqb_refl. now rewrite split_no_underscore.
  - destruct (Ascii.eqb_spec c "_"%char); [exfalso; eapply Hs; [now left|assumption]|].
    rewrite IH by (intros; apply Hs; now right). reflexivity.
Qed.
Lemma weights_get names name : NoDup names -> forall k d, nth_error names k = Some name -> (forall n, In n names -> dget String.eqb n d = None) ->
  forall s, dget String.eqb name (fold_left (fun d kv => dset String.eqb (fst kv) (snd kv) d) (combine names (seq s (length names))) d) = Some (s + k).
Proof.
  induction names as [|n names IH]; intros ND k d K D s; [destruct k; discriminate|].
  inversion_clear ND as [|? ? Nin ND']. cbn [length seq combine fold_left fst snd].
  destruct k as [|k]; cbn [nth_error] in K.
  - injection K as ->.
    assert (G : forall l s d, ~ In name l -> dget String.eqb name (fold_left (fun d kv => dset String.eqb (fst kv) (snd kv) d) (combine l (seq s (length l))) d) = dget String.eqb name d).
    { clear. induction l as [|m l IH]; intros s d N; cbn [length seq combine fold_left fst snd]; [reflexivity|].
      rewrite IH by (intros ?; apply N; now right). apply (dget_dset_other String.eqb string_eqb_spec). intros E. apply N. left. congruence. }
    rewrite G by assumption. rewrite (dget_dset_same String.eqb string_eqb_spec). f_equal. lia.
  - rewrite (IH ND' k _ K); [f_equal; lia|].
    intros m Hm. rewrite (dget_dset_other String.eqb string_eqb_spec); [apply D; now right|]. intros E. subst. contradiction.
Qed.
