(** C14: symbolic translation.  C66: orderings of symbols. *)
From Coq Require Import String Ascii ZArith QArith Qreals Reals Lra Lia.
From Verif Require Import Base BaseFacts SymModel SymSpec SymProofs Cplx.
Open Scope string_scope.
Open Scope nat_scope.
Open Scope list_scope.

(** Whatever the translation and the arithmetic dialect produce is the value of the sympy expression. *)
Theorem C14_value (A : arith) (env : string -> A) (to_float : Q -> Q) (negate : sx -> sx) (fuel : nat) (e : sx) (t : tree) (v : A) :
  negation_of_products A env to_float negate -> plain to_float e ->
  expression_from_sympy negate to_float fuel e = Ok t ->
  translate_expression (arithmetic_dialect A env) t = Ok v ->
  v = value A env e.
Proof. intros N P F T. eapply from_sound; eauto. Qed.
(** Supported expressions are translated, and evaluate to their value. *)
Theorem C14_supported (A : arith) (env : string -> A) (to_float : Q -> Q) (negate : sx -> sx) (fuel : nat) (e : sx) :
  negation_of_products A env to_float negate -> supported to_float e -> size e <= fuel ->
  exists t, expression_from_sympy negate to_float fuel e = Ok t
            /\ translate_expression (arithmetic_dialect A env) t = Ok (value A env e).
Proof.
  intros N S L. destruct (from_done A env to_float negate N fuel e S L) as (t & v & F & T). exists t. split; [assumption|].
  rewrite T. f_equal. eapply from_sound; eauto. eapply supported_plain; eauto.
Qed.
(** Cancelling the factor -1, which is what sympy does, satisfies the requirement on negation. *)
Theorem C14_negation (A : arith) (env : string -> A) (to_float : Q -> Q) : negation_of_products A env to_float drop_minus.
Proof. apply drop_minus_ok. Qed.

(** Anything without a translation is reported, at any depth. *)
Inductive occurs_in (o : sx) : sx -> Prop :=
| occ_here : occurs_in o o
| occ_pow_base b ex : occurs_in o b -> occurs_in o (SPow b ex)
| occ_fun f l a : In a l -> occurs_in o a -> occurs_in o (SFun f l).
Theorem C14_unsupported negate to_float fuel n e :
  occurs_in (SOther n) e -> exists err, expression_from_sympy negate to_float fuel e = Err err.
Proof.
  intros H. revert fuel. induction H as [|b ex H IH|f l a I H IH]; intros [|fuel]; cbn [expression_from_sympy]; eauto.
  - destruct (IH fuel) as (er & E). rewrite E. cbn [rbind mapM rmap]. rewrite ?E.
    destruct (num_is _ _); [eauto|]. destruct (num_is _ _); [eauto|]. cbn. eauto.
  - destruct (IH fuel) as (er & E). destruct (mapM _ l) as [ts|er'] eqn:M; cbn [rmap]; [|eauto].
    destruct (mapM_Ok_all _ _ _ _ M I) as (x & F & _). congruence.
Qed.
(** A function outside the dialect is a ValueError. *)
Theorem C14_unknown_function (A : arith) (env : string -> A) f args :
  ~ In f operation_names -> ~ In f elementary_functions ->
  translate_expression (arithmetic_dialect A env) (TCall f args) = Err ValueError.
Proof.
  intros N1 N2. cbn [translate_expression known_functions arithmetic_dialect arithmetic_functions dget].
  cbn [In operation_names elementary_functions] in N1, N2.
  repeat match goal with |- context [String.eqb f ?x] => destruct (String.eqb_spec f x); [subst f; exfalso; tauto|] end. reflexivity.
Qed.

(** ** Complex arithmetic *)
Definition carg (z : C) : R :=
  let '(x, y) := z in
  if Rlt_dec 0 x then atan (y / x)
  else if Rlt_dec x 0 then (if Rle_dec 0 y then atan (y / x) + PI else atan (y / x) - PI)
  else if Rlt_dec 0 y then PI / 2 else if Rlt_dec y 0 then - PI / 2 else 0.
Definition cexp (z : C) : C := (exp (fst z) * cos (snd z), exp (fst z) * sin (snd z))%R.
Definition clog (z : C) : C := (ln (sqrt (cabs2 z)), carg z).
Definition cinv (z : C) : C := (fst z / cabs2 z, - snd z / cabs2 z)%R.
Definition cpow (b e : C) : C :=
  if Req_EM_T (snd e) 0 then
    if Req_EM_T (fst e) (-1) then cinv b
    else if Req_EM_T (fst e) (1 / 2) then
      (sqrt ((sqrt (cabs2 b) + fst b) / 2), (if Rle_dec 0 (snd b) then 1 else -1) * sqrt ((sqrt (cabs2 b) - fst b) / 2))%R
    else cexp (cmul e (clog b))
  else cexp (cmul e (clog b)).
Definition ccos (z : C) : C := (cos (fst z) * cosh (snd z), - (sin (fst z) * sinh (snd z)))%R.
Definition csin (z : C) : C := (sin (fst z) * cosh (snd z), cos (fst z) * sinh (snd z))%R.
Definition complex : arith.
Proof.
  refine {| V := C; vadd := cadd; vmul := cmul; vpow := cpow; vsub := csub; vdiv := fun a b => cmul a (cinv b);
    vsqrt := fun a => cpow a (rc (1 / 2)); vnum := fun q => rc (Q2R q); vi := ci;
    vfun := fun f l => match l with
      | [z] => if String.eqb f "cos" then ccos z else if String.eqb f "sin" then csin z else if String.eqb f "exp" then cexp z
               else if String.eqb f "tan" then cmul (csin z) (cinv (ccos z)) else c0
      | _ => c0 end |}.
  - intros [] [] []; unfold cadd; cbn; f_equal; ring.
  - intros []; unfold cadd, rc; cbn. rewrite RMicromega.Q2R_0. f_equal; ring.
  - intros [] [] []; unfold cmul; cbn; f_equal; ring.
  - intros []; unfold cmul, rc; cbn. rewrite RMicromega.Q2R_1. f_equal; ring.
  - intros []; unfold cmul, rc; cbn. rewrite RMicromega.Q2R_1. f_equal; ring.
  - intros p q E. now rewrite (Qeq_eqR p q E).
  - intros [] []; unfold cadd, csub, cmul, rc; cbn. replace (Q2R (-1)) with (-1)%R by (unfold Q2R; cbn; field). f_equal; ring.
  - intros a b. f_equal. unfold cpow, rc. cbn [fst snd].
    replace (Q2R (-1)) with (-1)%R by (unfold Q2R; cbn; field).
    destruct (Req_EM_T 0 0); [|contradiction]. destruct (Req_EM_T (-1) (-1)); [reflexivity|contradiction].
  - intros a. reflexivity.
Defined.

(** ** Example: x/y - sqrt(2*x) + cos(y) *)
Example C14_example_expr : sx := SAdd [SFun "cos" [SSym "y"]; SMul [SSym "x"; SPow (SSym "y") (SInt (-1))]; SMul [SInt (-1); SPow (SMul [SInt 2; SSym "x"]) (SRational (1 # 2))]].
Example C14_example_from : expression_from_sympy drop_minus (fun q => q) 20 C14_example_expr
  = Ok (TCall "add" [TCall "cos" [TSym "y"]; TCall "div" [TSym "x"; TSym "y"];
                     TCall "mul" [TNum (NQ (-1)); TCall "sqrt" [TCall "mul" [TNum (NQ 2); TSym "x"]]]]).
Proof. reflexivity. Qed.
Example C14_example_sub : expression_from_sympy drop_minus (fun q => q) 20 (SAdd [SSym "a"; SMul [SInt (-1); SSym "b"; SSym "c"]])
  = Ok (TCall "sub" [TSym "a"; TCall "mul" [TSym "b"; TSym "c"]]).
Proof. reflexivity. Qed.
Example C14_example_supported (env : string -> complex) : exists t,
  expression_from_sympy drop_minus (fun q => q) (size C14_example_expr) C14_example_expr = Ok t
  /\ translate_expression (arithmetic_dialect complex env) t = Ok (value complex env C14_example_expr).
Proof.
  apply C14_supported; [apply C14_negation| |apply le_n].
  assert (K : In "cos" elementary_functions) by now left. assert (Q0 : (1 # 2 == 1 # 2)%Q) by reflexivity.
  cbn. repeat split; try discriminate; try assumption. exists (SSym "y"). repeat split.
Qed.
(** A user-defined function called like an operation changes the value: here a function named "sub". *)
Theorem C14_name_clash_refuted : exists e t v (env : string -> complex),
  expression_from_sympy drop_minus (fun q => q) 10 e = Ok t
  /\ translate_expression (arithmetic_dialect complex env) t = Ok v
  /\ v <> value complex env e.
Proof.
  exists (SFun "sub" [SInt 1; SInt 0]). do 2 eexists. exists (fun _ => c0). split; [reflexivity|]. split; [reflexivity|].
  cbn. unfold csub, rc, c0. cbn. intros E. injection E as E. unfold Q2R in E. cbn in E. lra.
Qed.

(** ** C66 *)
Section Orders.
  (** Comparing the keys of two symbols never fails, for either ordering, and orders all symbols up to equality of keys. *)
  Theorem C66_comparable a b :
    (exists r, key_lt (natural_key a) (natural_key b) = Ok r) /\ (exists r, key_lt (natural_key_revlex a) (natural_key_revlex b) = Ok r).
  Proof. split; eapply alternates_lt; (apply natural_key_alternates || apply revlex_alternates). Qed.
  Theorem C66_order key : key = natural_key \/ key = natural_key_revlex ->
    (forall a, key_lt (key a) (key a) = Ok false)
    /\ (forall a b c, key_lt (key a) (key b) = Ok true -> key_lt (key b) (key c) = Ok true -> key_lt (key a) (key c) = Ok true)
    /\ (forall a b, key a <> key b -> key_lt (key a) (key b) = Ok true \/ key_lt (key b) (key a) = Ok true).
  Proof.
    intros K. assert (Alt : forall s, alternates true (key s)) by (intros s; destruct K as [->| ->]; [apply natural_key_alternates|apply revlex_alternates]).
    split; [intros; apply key_lt_irrefl|]. split; [intros a b c; apply (key_lt_trans true); apply Alt|].
    intros a b N. destruct (alternates_lt true _ _ (Alt a) (Alt b)) as [[] E]; [now left|right]. now apply (key_lt_total true).
  Qed.
  (** Indices are compared as integers; different stems as text. *)
  Theorem C66_natural p q i j : no_digits p -> no_digits q -> numeral i -> numeral j ->
    key_lt (natural_key (p ++ i)%string) (natural_key (q ++ j)%string)
    = Ok (if String.eqb p q then N.ltb (numeral_value i) (numeral_value j) else String.ltb p q).
  Proof.
    intros Hp Hq Hi Hj. rewrite !natural_key_name by assumption. cbn [key_lt part_eqb].
    destruct (String.eqb p q); [|reflexivity]. destruct (N.eqb_spec (numeral_value i) (numeral_value j)) as [->|]; [|reflexivity].
    cbn. now rewrite N.ltb_irrefl.
  Qed.
  (** In the reversed order the index comes first. *)
  Theorem C66_revlex p q i j : no_digits p -> no_digits q -> numeral i -> numeral j ->
    key_lt (natural_key_revlex (p ++ i)%string) (natural_key_revlex (q ++ j)%string)
    = Ok (if N.eqb (numeral_value i) (numeral_value j) then String.ltb p q else N.ltb (numeral_value i) (numeral_value j)).
  Proof.
    intros Hp Hq Hi Hj. unfold natural_key_revlex. rewrite !natural_key_name by assumption. cbn [rev app key_lt part_eqb].
    cbn [String.eqb]. destruct (N.eqb (numeral_value i) (numeral_value j)); [|reflexivity].
    destruct (String.eqb_spec p q) as [->|]; [|reflexivity]. cbn. now rewrite string_ltb_irrefl.
  Qed.
  (** With a given list of names: index first, then the position of the name in the list. *)
  Definition no_underscore (s : string) : Prop := ~ In "_"%char (list_ascii_of_string s).
  Theorem C66_fixed_names names k name i : NoDup names -> nth_error names k = Some name -> no_underscore name -> numeral i ->
    natural_key_fixed_names_order names (name ++ "_" ++ i)%string = Ok (numeral_value i, k).
  Proof.
    intros ND K U [Ne Nd]. unfold natural_key_fixed_names_order. rewrite list_ascii_app. cbn [String.append list_ascii_of_string].
    rewrite split_one_underscore.
    - unfold parse_index. destruct (list_ascii_of_string i) as [|c l] eqn:E.
      { exfalso. apply Ne. rewrite <- (string_of_list_ascii_of_string i), E. reflexivity. }
      rewrite (proj2 (forallb_forall is_digit (c :: l)) Nd). cbn [rbind].
      rewrite string_of_list_ascii_of_string. unfold symbol_weights.
      rewrite (weights_get names name ND k [] K) by reflexivity. rewrite int_of_digits_value. unfold numeral_value. now rewrite E.
    - intros c Hc ->. now apply U.
    - intros c Hc ->. specialize (Nd _ Hc). discriminate.
  Qed.
  Theorem C66_fixed_names_order names k k' name name' i i' a b :
    NoDup names -> nth_error names k = Some name -> nth_error names k' = Some name' ->
    no_underscore name -> no_underscore name' -> numeral i -> numeral i' ->
    natural_key_fixed_names_order names (name ++ "_" ++ i)%string = Ok a ->
    natural_key_fixed_names_order names (name' ++ "_" ++ i')%string = Ok b ->
    pair_lt a b = true <-> (numeral_value i < numeral_value i')%N \/ (numeral_value i = numeral_value i' /\ k < k').
  Proof.
    intros ND K K' U U' I I'. rewrite (C66_fixed_names names k name i ND K U I), (C66_fixed_names names k' name' i' ND K' U' I').
    intros [= <-] [= <-]. unfold pair_lt. cbn [fst snd]. rewrite Bool.orb_true_iff, Bool.andb_true_iff, N.ltb_lt, N.eqb_eq, Nat.ltb_lt. reflexivity.
  Qed.
  Theorem C66_fixed_names_errors names name :
    (forall n i, name = (n ++ "_" ++ i)%string -> numeral i -> ~ In n names) -> exists e, natural_key_fixed_names_order names name = Err e.
  Proof.
    intros H. unfold natural_key_fixed_names_order.
    assert (J : forall l n i, split_underscore l = [n; i] -> l = n ++ "_"%char :: i).
    { clear. induction l as [|c l IH]; intros n i; cbn [split_underscore]; [discriminate|].
      destruct (Ascii.eqb_spec c "_"%char) as [->|N].
      - intros [= <- E]. destruct l as [|d l]; cbn in E; [now injection E as <-|].
        cbn. do 1 f_equal.
        assert (S1 : forall l x, split_underscore l = [x] -> l = x).
        { clear. induction l as [|c l IH]; intros x; cbn; [now intros [= <-]|]. destruct (Ascii.eqb c "_").
          - intros [= <- E]. destruct l; cbn in E; [discriminate|]. destruct (Ascii.eqb a "_"); [discriminate|]. destruct (split_underscore l); discriminate.
          - destruct (split_underscore l) as [|w ws] eqn:E; intros [= <-]; [destruct l; cbn in E; [discriminate|]; destruct (Ascii.eqb a "_"); [discriminate|]; destruct (split_underscore l); discriminate|].
            subst ws. now rewrite (IH w). }
        now apply S1.
      - destruct (split_underscore l) as [|w [|w' [|]]] eqn:E; intros [= <- <-]. cbn. f_equal. now apply IH. }
    destruct (split_underscore (list_ascii_of_string name)) as [|n [|i [|]]] eqn:E; eauto.
    unfold parse_index. destruct i as [|c i]; [cbn; eauto|].
    destruct (forallb is_digit (c :: i)) eqn:D; [|cbn; eauto]. cbn [rbind].
    destruct (dget String.eqb (string_of_list_ascii n) (symbol_weights names)) as [w|] eqn:G; [|eauto].
    exfalso. apply J in E.
    assert (Nm : name = (string_of_list_ascii n ++ "_" ++ string_of_list_ascii (c :: i))%string).
    { rewrite <- (string_of_list_ascii_of_string name), E. clear. induction n as [|x n IH]; cbn in *; [reflexivity|]. now rewrite IH. }
    apply (H _ _ Nm).
    - split; [discriminate|]. rewrite list_ascii_of_string_of_list_ascii. now apply forallb_forall.
    - assert (W : forall (l : list (string * nat)) d k (w : nat), dget String.eqb k (fold_left (fun d kv => dset String.eqb (fst kv) (snd kv) d) l d) = Some w -> In k (map fst l) \/ dget String.eqb k d = Some w).
      { clear. induction l as [|[a b] l IH]; intros d k w; cbn [fold_left map fst snd In]; [now right|].
        intros G. apply IH in G as [G|G]; [now left; right|]. destruct (String.eqb_spec a k) as [->|N]; [now left; left|].
        rewrite (dget_dset_other String.eqb string_eqb_spec) in G by congruence. now right. }
      apply W in G as [G|G]; [|discriminate]. apply in_map_iff in G as ([a b] & <- & G). now apply in_combine_l in G.
  Qed.
End Orders.

Example C66_beta_theta :
  key_lt (natural_key "beta_2") (natural_key "beta_10") = Ok true /\ key_lt (natural_key "beta_10") (natural_key "theta_1") = Ok true
  /\ key_lt (natural_key_revlex "theta_1") (natural_key_revlex "beta_2") = Ok true
  /\ natural_key_fixed_names_order ["gamma"; "beta"] "beta_12" = Ok (12%N, 1).
Proof. repeat split. Qed.
Example C66_stems : no_digits "beta_" /\ numeral "10" /\ numeral_value "10" = 10%N.
Proof. repeat split; try discriminate; intros c H; cbn in H; repeat destruct H as [<-|H]; try reflexivity; contradiction. Qed.

Print Assumptions C14_value.
Print Assumptions C14_supported.
Print Assumptions C66_order.
