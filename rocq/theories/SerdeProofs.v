(** Proofs about circuit serialization. *)
From Coq Require Import String ZArith QArith Lia Permutation Sorted.
From Verif Require Import Base BaseFacts Json CircuitModel CircuitProofs GateMatModel SerdeModel SerdeSpec.
Open Scope list_scope.
Local Open Scope nat_scope.

Section P.
  Context {Num : Type} (T : text_oracle Num).

  Lemma forallb_combine {A} (f : A -> A -> bool) l l' : Forall2 (fun a b => f a b = true) l l' ->
    forallb (fun ab => f (fst ab) (snd ab)) (combine l l') = true.
  Proof. induction 1; cbn; auto. rewrite H, IHForall2. reflexivity. Qed.
  Lemma Forall2_impl' {A B} (P Q : A -> B -> Prop) l l' : (forall a b, P a b -> Q a b) -> Forall2 P l l' -> Forall2 Q l l'.
  Proof. intros H. induction 1; constructor; auto. Qed.
  Lemma Forall2_concat {A B} (P : A -> B -> Prop) l l' : Forall2 (Forall2 P) l l' -> Forall2 P (concat l) (concat l').
  Proof. induction 1; cbn; [constructor|]. apply Forall2_app; auto. Qed.
  Lemma Forall2_sym' {A B} (P : A -> B -> Prop) l l' : Forall2 P l l' -> Forall2 (fun b a => P a b) l' l.
  Proof. induction 1; constructor; auto. Qed.
  Lemma Forall2_len {A B} (P : A -> B -> Prop) l l' : Forall2 P l l' -> length l = length l'.
  Proof. induction 1; cbn; auto. Qed.
  Lemma Forall2_refl_in {A} (P : A -> A -> Prop) l : (forall a, In a l -> P a a) -> Forall2 P l l.
  Proof. induction l; intros H; constructor; auto with datatypes. Qed.
  Lemma Forall2_map_in {A B} (f : A -> B) (P : A -> B -> Prop) l : (forall a, In a l -> P a (f a)) -> Forall2 P l (map f l).
  Proof. induction l; intros H; constructor; auto with datatypes. Qed.

  (** ** same implies equal *)
  Lemma matrices_equal_of m m' : Forall2 (Forall2 (fun e e' => elem_eq T (PExpr e) (PExpr e') = true)) m m' -> matrices_equal T m m' = true.
  Proof.
    intros H. unfold matrices_equal. apply (forallb_combine (fun e e' => elem_eq T (PExpr e) (PExpr e'))). apply Forall2_concat; auto.
  Qed.
  Lemma list_eqb_refl l : list_eqb String.eqb l l = true.
  Proof. apply list_eqb_spec; [apply string_eqb_spec|reflexivity]. Qed.
  Lemma same_def_eq d d' : same_def T d d' -> def_eq T d d' = true /\ def_eq T d' d = true.
  Proof.
    intros (N & O & M). unfold def_eq. rewrite N, O, String.eqb_refl, list_eqb_refl. cbn [andb]. split; apply matrices_equal_of.
    - eapply Forall2_impl'; [|exact M]. intros ? ? H. eapply Forall2_impl'; [|exact H]. intros ? ? []; auto.
    - apply Forall2_sym' in M. eapply Forall2_impl'; [|exact M]. intros ? ? H. apply Forall2_sym' in H. eapply Forall2_impl'; [|exact H]. intros ? ? []; auto.
  Qed.
  Lemma same_gate_eq g g' : same_gate T g g' -> gate_eq T g g' = true /\ gate_eq T g' g = true.
  Proof.
    induction 1 as [n f f' ps ps' q h F P|g g' k _ [I1 I2]|g g' _ [I1 I2]]; cbn [gate_eq].
    - rewrite (Forall2_len _ _ _ P), String.eqb_refl, Z.eqb_refl, Nat.eqb_refl, Bool.eqb_reflx.
      assert (factory_eq T f f' = true /\ factory_eq T f' f = true) as [-> ->].
      { destruct F as [f|d d' D]; cbn; [rewrite String.eqb_refl; auto|]. destruct (same_def_eq _ _ D) as [A B]. unfold def_eq in A, B.
        destruct D as (N & _). rewrite N, String.eqb_refl in A, B. cbn [andb] in A, B. auto. }
      cbn [andb]. split; apply forallb_combine.
      + eapply Forall2_impl'; [|exact P]. intros ? ? []; auto.
      + apply Forall2_sym' in P. eapply Forall2_impl'; [|exact P]. intros ? ? []; auto.
    - rewrite I1, I2, Z.eqb_refl. auto.
    - auto.
  Qed.
  Lemma same_op_eq o o' : same_op T o o' -> op_eq T o o' = true /\ op_eq T o' o = true.
  Proof.
    intros [g g' qs H]. cbn. destruct (same_gate_eq _ _ H) as [-> ->].
    assert (list_eqb Nat.eqb qs qs = true) as -> by (apply list_eqb_spec; [exact Nat.eqb_eq|reflexivity]). auto.
  Qed.
  Lemma list_eqb_of {A} (f : A -> A -> bool) l l' : Forall2 (fun a b => f a b = true) l l' -> list_eqb f l l' = true.
  Proof. induction 1; cbn; auto. rewrite H, IHForall2. auto. Qed.
  Lemma same_circuit_eq c c' : same_circuit T c c' -> circuit_eq T c c' = true /\ circuit_eq T c' c = true.
  Proof.
    intros [N F]. unfold circuit_eq. rewrite N, Z.eqb_refl. cbn [andb]. split; apply list_eqb_of.
    - eapply Forall2_impl'; [|exact F]. intros ? ? H. apply (same_op_eq _ _ H).
    - apply Forall2_sym' in F. eapply Forall2_impl'; [|exact F]. intros ? ? H. apply (same_op_eq _ _ H).
  Qed.

  (** ** text of lists *)
  Lemma as_strs_jstrs l : as_strs (jstrs l) = Ok l.
  Proof. unfold as_strs, jstrs. cbn [as_list rbind]. induction l as [|s l IH]; cbn; auto. rewrite IH. reflexivity. Qed.

  Lemma sort_str_id ps : sort_by String.leb (get_free_symbols (Num := Num) ps) = get_free_symbols ps.
  Proof. apply sort_by_id; [apply String.leb_total|apply string_leb_trans|apply String.leb_antisym|apply get_free_symbols_sorted]. Qed.

  (** ** basic gates *)
  Lemma find_builtin b : In b builtins -> find (fun b' => String.eqb (b_name b') (b_name b)) builtins = Some b.
  Proof. unfold builtins. intros H. repeat (destruct H as [<-|H]; [reflexivity|]). destruct H. Qed.
  Lemma not_reserved_lookup name : ~ reserved name -> builtin_gate_by_name name = Err KeyError.
  Proof.
    intros N. unfold builtin_gate_by_name. destruct (find _ builtins) as [b|] eqn:F.
    - apply find_some in F as [I E]. apply String.eqb_eq in E. destruct N. left. subst. apply in_map. auto.
    - destruct (memb String.eqb name other_globals) eqn:M; [|reflexivity].
      apply (proj1 (memb_In String.eqb string_eqb_spec _ _)) in M. destruct N. right; auto.
  Qed.

  Definition basic_dict (n : string) (ps : list (param Num)) : jdict Z :=
    ("name"%string, JStr n) :: jopt ps "params" (jstrs (map (ser T) ps))
       ++ jopt (get_free_symbols ps) "free_symbols" (jstrs (sort_by String.leb (get_free_symbols ps))).
  Lemma basic_name n ps : jitem "name" (basic_dict n ps) = Ok (JStr n).
  Proof. reflexivity. Qed.
  Lemma basic_params n ps : get_strs "params" (basic_dict n ps) = Ok (map (ser T) ps).
  Proof.
    unfold get_strs, jget, basic_dict, jopt. destruct ps as [|p ps]; [reflexivity|].
    cbn [dget String.eqb Ascii.eqb app Bool.eqb]. apply as_strs_jstrs.
  Qed.
  Lemma basic_symbols n ps : get_strs "free_symbols" (basic_dict n ps) = Ok (get_free_symbols ps).
  Proof.
    unfold get_strs, jget, basic_dict, jopt. rewrite sort_str_id.
    destruct (get_free_symbols ps) as [|s l], ps as [|p ps]; try reflexivity; cbn [dget String.eqb Ascii.eqb app Bool.eqb]; apply as_strs_jstrs.
  Qed.
  Lemma basic_wrapped read n ps : wrapped_from (Num := Num) read (basic_dict n ps) = Err KeyError.
  Proof. unfold basic_dict, jopt. destruct ps, (get_free_symbols _); reflexivity. Qed.

  Definition reread (names : list string) (p : param Num) : param Num := PExpr (deser T (ser T p) names).

  Lemma read_builtin defs b ps : In b builtins -> length ps = b_arity b ->
    gate_from_dict T defs (gate_to_dict T (mk_builtin b ps)) = Ok (mk_builtin b (map (reread (get_free_symbols ps)) ps)).
  Proof.
    intros I L. cbn [mk_builtin gate_to_dict gate_from_dict]. fold (basic_dict (b_name b) ps).
    assert (E : builtin_gate_from_dict T (basic_dict (b_name b) ps) = Ok (mk_builtin b (map (reread (get_free_symbols ps)) ps))).
    { unfold builtin_gate_from_dict. rewrite basic_name. cbn [rbind as_str]. unfold builtin_gate_by_name. rewrite find_builtin by auto. cbn [rbind].
      rewrite basic_params. cbn [rbind]. destruct ps as [|p ps].
      - cbn [map]. cbn in L. rewrite <- L. reflexivity.
      - cbn [map]. rewrite basic_symbols. cbn [rbind]. cbn [length] in L. rewrite <- L. cbn [Nat.eqb]. unfold reread. cbn [map]. rewrite map_map. reflexivity. }
    rewrite E. reflexivity.
  Qed.
  Definition reread_custom (ordering : list sym) (ps : list (param Num)) : list (param Num) :=
    match ps with [] => [] | p :: ps' => reread ordering p :: map (reread []) ps' end.
  Lemma read_custom defs name f ps q h d' n : ~ reserved name -> find (fun g => String.eqb (cd_name g) name) defs = Some d' ->
    def_qubits (cd_matrix d') = Ok n ->
    gate_from_dict T defs (gate_to_dict T (MFG name f ps q h)) = Ok (MFG name (FCustom d') (reread_custom (cd_ordering d') ps) (Z.of_nat n) false).
  Proof.
    intros R F Q. cbn [gate_to_dict gate_from_dict]. fold (basic_dict name ps). rewrite basic_wrapped.
    unfold builtin_gate_from_dict at 1. rewrite basic_name. cbn [rbind as_str]. rewrite not_reserved_lookup by auto. cbn [rbind].
    assert (E : custom_gate_instance_from_dict T (basic_dict name ps) defs = Ok (MFG name (FCustom d') (reread_custom (cd_ordering d') ps) (Z.of_nat n) false)).
    { unfold custom_gate_instance_from_dict. rewrite basic_name. cbn [rbind as_str]. rewrite F, basic_params. cbn [rbind].
      unfold call_def. rewrite Q. cbn [rbind]. apply find_some in F as [_ E]. apply String.eqb_eq in E. rewrite E. do 2 f_equal.
      destruct ps as [|p ps]; [reflexivity|]. cbn [map deser_with_iterator reread_custom]. rewrite map_map. reflexivity. }
    destruct (String.eqb name "Control"); [exact E|]. destruct (String.eqb name "Dagger"); exact E.
  Qed.

  (** ** modifiers *)
  Fixpoint with_core (g c : gate Num) : gate Num :=
    match g with MFG _ _ _ _ _ => c | Controlled w k => Controlled (with_core w c) k | Dagger w => Dagger (with_core w c) end.
  Lemma read_modified defs g c : controls_ok g -> gate_from_dict T defs (gate_to_dict T (core g)) = Ok c ->
    gate_from_dict T defs (gate_to_dict T g) = Ok (with_core g c).
  Proof.
    intros K E. induction g as [n f ps q h|w IH k|w IH]; cbn [core controls_ok with_core] in *; auto.
    - destruct K as [K1 K2]. specialize (IH K2 E). cbn [gate_to_dict gate_from_dict].
      change (builtin_gate_from_dict T _) with (@Err (gate Num) KeyError) at 1. cbv beta iota.
      cbn [wrapped_from jitem jget dget String.eqb Ascii.eqb Bool.eqb rbind as_str]. rewrite IH. cbn [rbind as_int]. unfold mk_controlled.
      destruct (Z.ltb_spec k 1); [lia|]. reflexivity.
    - specialize (IH K E). cbn [gate_to_dict gate_from_dict].
      change (builtin_gate_from_dict T _) with (@Err (gate Num) KeyError) at 1. cbv beta iota.
      cbn [wrapped_from jitem jget dget String.eqb Ascii.eqb Bool.eqb rbind as_str]. rewrite IH. reflexivity.
  Qed.
  Lemma read_modified_err defs g e : e <> KeyError -> gate_from_dict T defs (gate_to_dict T (core g)) = Err e ->
    gate_from_dict T defs (gate_to_dict T g) = Err e.
  Proof.
    intros N E. induction g as [n f ps q h|w IH k|w IH]; cbn [core] in *; auto; specialize (IH E); cbn [gate_to_dict gate_from_dict];
      change (builtin_gate_from_dict T _) with (@Err (gate Num) KeyError) at 1; cbv beta iota;
      cbn [wrapped_from jitem jget dget String.eqb Ascii.eqb Bool.eqb rbind as_str]; rewrite IH; cbn [rbind]; destruct e; try reflexivity; contradiction.
  Qed.
  Lemma same_with_core g c : same_gate T (core g) c -> same_gate T g (with_core g c).
  Proof. induction g; cbn [core with_core]; intros H; auto; constructor; auto. Qed.

  (** ** definitions *)
  Definition reread_def (d : custom_def Num) : custom_def Num :=
    {| cd_name := cd_name d; cd_matrix := map (map (fun e => deser T (ser T (PExpr e)) (cd_ordering d))) (cd_matrix d); cd_ordering := cd_ordering d |}.
  Lemma def_qubits_ok m n : length m = 2 ^ n -> (forall r, In r m -> length r = 2 ^ n) -> def_qubits (Num := Num) m = Ok n.
  Proof.
    intros L R. unfold def_qubits. rewrite L, Nat.log2_pow2 by lia. pose proof (Nat.pow_nonzero 2 n ltac:(lia)).
    destruct (Nat.eqb_spec (2 ^ n) 0); [lia|]. rewrite Nat.eqb_refl. cbn [andb].
    replace (forallb _ m) with true; [reflexivity|]. symmetry. apply forallb_forall. intros r Hr. apply Nat.eqb_eq. auto.
  Qed.
  Lemma reread_qubits d : good_def T d -> def_qubits (cd_matrix (reread_def d)) = Ok (Nat.log2 (length (cd_matrix d))).
  Proof.
    intros (_ & (n & L & R) & _). rewrite L, Nat.log2_pow2 by lia. apply def_qubits_ok; cbn.
    - rewrite map_length. auto.
    - intros r Hr. apply in_map_iff in Hr as (r0 & <- & H). rewrite map_length. auto.
  Qed.
  Lemma mapM_as_strs rows : mapM as_strs (map jstrs rows) = Ok rows.
  Proof. induction rows as [|r rows IH]; [reflexivity|]. cbn [map mapM]. rewrite as_strs_jstrs. cbn [rbind]. rewrite IH. reflexivity. Qed.
  Lemma read_def d : good_def T d -> def_from_dict T (def_to_dict T d) = Ok (reread_def d).
  Proof.
    intros G. unfold def_from_dict, def_to_dict. cbn [as_dict rbind].
    change (get_strs "params_ordering" _) with (as_strs (jstrs (cd_ordering d))). rewrite as_strs_jstrs. cbn [rbind].
    cbn [jitem jget dget String.eqb Ascii.eqb Bool.eqb rbind as_str as_list].
    replace (map _ (cd_matrix d)) with (map jstrs (map (map (fun e => ser T (PExpr e))) (cd_matrix d))) by (rewrite map_map; reflexivity).
    rewrite mapM_as_strs. cbn [rbind]. unfold mk_def. pose proof (reread_qubits d G) as Q.
    assert (E : map (map (fun s => deser T s (cd_ordering d))) (map (map (fun e => ser T (PExpr e))) (cd_matrix d)) = cd_matrix (reread_def d)).
    { cbn. rewrite map_map. apply map_ext. intros r. apply map_map. }
    rewrite E, Q. reflexivity.
  Qed.
  Lemma read_defs ds : (forall d, In d ds -> good_def T d) -> mapM (def_from_dict T) (map (def_to_dict T) ds) = Ok (map reread_def ds).
  Proof.
    induction ds as [|d ds IH]; intros H; [reflexivity|]. cbn [map mapM]. rewrite read_def by (apply H; left; auto). cbn [rbind].
    rewrite IH by (intros; apply H; right; auto). reflexivity.
  Qed.
  Lemma same_reread_def d : good_def T d -> same_def T d (reread_def d).
  Proof.
    intros (_ & _ & G). split; [reflexivity|split; [reflexivity|]]. cbn. apply Forall2_map_in. intros r Hr. apply Forall2_map_in. intros e He.
    destruct (G r e Hr He) as [_ S]. exact S.
  Qed.

  (** ** collecting the definitions *)
  Lemma good_def_refl d : good_def T d -> def_eq T d d = true.
  Proof.
    intros (_ & _ & G). apply same_def_eq. split; [reflexivity|split; [reflexivity|]]. apply Forall2_refl_in. intros r Hr.
    apply Forall2_refl_in. intros e He. apply (G r e Hr He).
  Qed.
  Lemma directly_uses o d : uses_directly (Num := Num) o d -> uses o d.
  Proof. intros (n & ps & q & h & qs & ->). exists (MFG n (FCustom d) ps q h), qs, n, ps, q, h. auto. Qed.
  Lemma writable_good ops o d : writable T ops -> In o ops -> uses o d -> good_def T d.
  Proof.
    intros (W & _) I (g & qs & n & ps & q & h & -> & C). destruct (W _ I) as (g' & qs' & [= <- <-] & _ & [B|(d' & B)]).
    - destruct B as (b & ps' & _ & E & _). rewrite C in E. discriminate.
    - destruct B as (ps' & E & G & _). rewrite C in E. injection E as _ -> _ _ _. exact G.
  Qed.
  Definition inv (all : list (operation Num)) (u : list (string * custom_def Num)) : Prop :=
    NoDup (dkeys u) /\ forall k d, In (k, d) u -> k = cd_name d /\ exists o, In o all /\ uses_directly o d.
  Lemma collect_fold all ops u : writable T all -> (forall o, In o ops -> In o all) -> inv all u ->
    exists u', foldM (add_def T) ops u = Ok u' /\ inv all u' /\ (forall k d, dget String.eqb k u = Some d -> dget String.eqb k u' = Some d) /\
      forall o d, In o ops -> uses_directly o d -> dget String.eqb (cd_name d) u' = Some d.
  Proof.
    intros W. revert u. induction ops as [|o ops IH]; intros u Sub Iu.
    { exists u. cbn. split; [reflexivity|]. split; [exact Iu|]. split; [auto|]. intros ? ? []. }
    destruct W as (W1 & W2 & W3) eqn:EW. destruct (W1 o (Sub o (or_introl eq_refl))) as (g & qs & -> & _ & _).
    assert (Hnext : forall u1, add_def T u (GateOp g qs) = Ok u1 -> inv all u1 ->
        (forall k d, dget String.eqb k u = Some d -> dget String.eqb k u1 = Some d) ->
        (forall d, uses_directly (GateOp g qs) d -> dget String.eqb (cd_name d) u1 = Some d) ->
        exists u', foldM (add_def T) (GateOp g qs :: ops) u = Ok u' /\ inv all u' /\
          (forall k d, dget String.eqb k u = Some d -> dget String.eqb k u' = Some d) /\
          forall o d, In o (GateOp g qs :: ops) -> uses_directly o d -> dget String.eqb (cd_name d) u' = Some d).
    { intros u1 E1 I1 P1 U1. destruct (IH u1 (fun o Ho => Sub o (or_intror Ho)) I1) as (u' & E & I' & P' & U').
      exists u'. cbn [foldM]. rewrite E1. cbn [rbind]. split; [exact E|]. split; [exact I'|]. split; [auto|].
      intros o d [<-|Ho] Hd; [apply P', U1; auto|apply (U' o); auto]. }
    destruct g as [n [f|d] ps q h|w k|w]; cycle 1.
    - assert (Ud : uses_directly (GateOp (MFG n (FCustom d) ps q h) qs) d) by (exists n, ps, q, h, qs; reflexivity).
      assert (In0 := Sub _ (or_introl eq_refl)).
      assert (Gd : good_def T d) by (eapply writable_good; [split; [exact W1|split; [exact W2|exact W3]]|exact In0|apply directly_uses; auto]).
      destruct (dget String.eqb (cd_name d) u) as [d'|] eqn:Eg.
      + assert (d' = d) as ->.
        { apply dget_In in Eg; [|apply string_eqb_spec]. destruct Iu as [_ Iu]. destruct (Iu _ _ Eg) as (N & o' & Io' & Uo').
          symmetry. apply (W3 (GateOp (MFG n (FCustom d) ps q h) qs) o'); auto using directly_uses. }
        apply (Hnext u); auto.
        { unfold add_def. cbn [custom_of rbind foldM]. rewrite Eg, good_def_refl by auto. reflexivity. }
        intros d1 (n1 & ps1 & q1 & h1 & qs1 & E). injection E as _ <- _ _ _ _. exact Eg.
      + apply (Hnext (dset String.eqb (cd_name d) d u)); auto.
        * unfold add_def. cbn [custom_of rbind foldM]. rewrite Eg. reflexivity.
        * destruct Iu as [ND Iu]. split; [apply dset_NoDup; [apply string_eqb_spec|exact ND]|]. intros k d1 I1.
          apply (In_dget String.eqb) in I1; [|apply string_eqb_spec|apply dset_NoDup; [apply string_eqb_spec|exact ND]].
          destruct (String.eqb_spec k (cd_name d)) as [->|Nk].
          -- rewrite dget_dset_same in I1 by apply string_eqb_spec. injection I1 as <-. eauto.
          -- rewrite dget_dset_other in I1 by (try apply string_eqb_spec; auto). apply dget_In in I1; [|apply string_eqb_spec]. auto.
        * intros k d1 H1. rewrite dget_dset_other; [exact H1|apply string_eqb_spec|]. intros ->. congruence.
        * intros d1 (n1 & ps1 & q1 & h1 & qs1 & E). injection E as _ <- _ _ _ _. apply dget_dset_same, string_eqb_spec.
    - apply (Hnext u); auto. intros d (n1 & ps1 & q1 & h1 & qs1 & E). discriminate.
    - apply (Hnext u); auto. intros d (n1 & ps1 & q1 & h1 & qs1 & E). discriminate.
    - apply (Hnext u); auto. intros d (n1 & ps1 & q1 & h1 & qs1 & E). discriminate.
  Qed.
  Lemma collect_ok c : writable T (c_ops c) -> exists ds, collect_custom_gate_definitions T c = Ok ds /\
    (forall d, In d ds -> good_def T d) /\ (forall o d, In o (c_ops c) -> uses o d -> find (fun g => String.eqb (cd_name g) (cd_name d)) ds = Some d).
  Proof.
    intros W. destruct (collect_fold (c_ops c) (c_ops c) [] W (fun o H => H)) as (u & E & (ND & I) & _ & U).
    { split; [constructor|intros ? ? []]. }
    unfold collect_custom_gate_definitions. rewrite E. cbn [rbind]. eexists. split; [reflexivity|].
    set (s := sort_by _ (dvals u)). assert (Ps : forall d, In d s <-> In d (dvals u)).
    { intros d. split; apply Permutation_in; [apply sort_by_perm|symmetry; apply sort_by_perm]. }
    split.
    - intros d Hd. apply Ps in Hd. unfold dvals in Hd. apply in_map_iff in Hd as ((k & d') & <- & Hd). destruct (I _ _ Hd) as (_ & o & Io & Uo).
      apply (writable_good (c_ops c) o); auto using directly_uses.
    - intros o d Io Uo. destruct W as (W1 & W2 & W3). destruct (W2 o d Io Uo) as (o' & Io' & Uo').
      pose proof (U o' d Io' Uo') as G. apply dget_In in G; [|apply string_eqb_spec].
      assert (Is : In d s) by (apply Ps; unfold dvals; apply in_map_iff; exists (cd_name d, d); auto).
      destruct (find _ s) as [d'|] eqn:F.
      + apply find_some in F as [I' E']. apply String.eqb_eq in E'. apply Ps in I'. unfold dvals in I'. apply in_map_iff in I' as ((k & d1) & <- & I').
        cbn [snd] in *. destruct (I _ _ I') as (-> & _). f_equal. rewrite E' in I'.
        apply (In_dget String.eqb) in I'; [|apply string_eqb_spec|exact ND]. apply (In_dget String.eqb) in G; [|apply string_eqb_spec|exact ND]. congruence.
      + pose proof (find_none _ _ F _ Is) as Q. cbv beta in Q. rewrite String.eqb_refl in Q. discriminate.
  Qed.
  Lemma find_map {A B} (f : A -> B) p q l : (forall a, p (f a) = q a) -> find p (map f l) = option_map f (find q l).
  Proof. intros H. induction l as [|a l IH]; cbn; [reflexivity|]. rewrite H. destruct (q a); auto. Qed.

  (** ** whole circuits *)
  Lemma read_indices qs : mapM as_index (map (fun q => JNum (Z.of_nat q)) qs) = Ok qs.
  Proof.
    induction qs as [|q qs IH]; [reflexivity|]. cbn [map mapM as_index as_int rbind]. destruct (Z.ltb_spec (Z.of_nat q) 0); [lia|]. cbn [rbind].
    rewrite IH. cbn [rbind]. rewrite Nat2Z.id. reflexivity.
  Qed.
  Lemma read_op all ds o j : writable T all -> (forall o d, In o all -> uses o d -> find (fun g => String.eqb (cd_name g) (cd_name d)) ds = Some d) ->
    In o all -> op_to_dict T o = Ok j -> exists o', op_from_dict T (map reread_def ds) j = Ok o' /\ same_op T o o'.
  Proof.
    intros W F I E. pose proof W as (W1 & _). destruct (W1 o I) as (g & qs & -> & K & G). cbn in E. injection E as <-.
    assert (X : exists c, gate_from_dict T (map reread_def ds) (gate_to_dict T (core g)) = Ok c /\ same_gate T (core g) c).
    { destruct G as [(b & ps & Ib & E & L & S)|(d & ps & E & Gd & S)].
      - rewrite E. exists (mk_builtin b (map (reread (get_free_symbols ps)) ps)). split; [apply read_builtin; auto|].
        apply same_basic; [constructor|]. apply Forall2_map_in. intros p Hp. rewrite Forall_forall in S. apply (S p Hp).
      - assert (U : uses (GateOp g qs) d) by (do 6 eexists; split; [reflexivity|exact E]). pose proof (F _ _ I U) as Fd.
        rewrite E. eexists. split.
        + apply (read_custom _ _ _ _ _ _ (reread_def d)); [apply Gd| |apply reread_qubits; auto].
          rewrite (find_map reread_def _ (fun g => String.eqb (cd_name g) (cd_name d))) by reflexivity. rewrite Fd. reflexivity.
        + apply same_basic; [constructor; apply same_reread_def; auto|]. destruct ps as [|p ps]; [constructor|].
          destruct (S p ps eq_refl) as [S1 S2]. constructor; [exact S1|]. apply Forall2_map_in. intros p' Hp. rewrite Forall_forall in S2. apply (S2 p' Hp). }
    destruct X as (c & Ec & Sc). exists (GateOp (with_core g c) qs). split; [|constructor; apply same_with_core; auto].
    unfold op_from_dict. cbn [as_dict rbind jitem jget dget String.eqb Ascii.eqb Bool.eqb].
    rewrite (read_modified _ g c K Ec). cbn [rbind as_list]. rewrite read_indices. reflexivity.
  Qed.
  Lemma write_ops all : writable T all -> forall ops, (forall o, In o ops -> In o all) -> exists js, mapM (op_to_dict T) ops = Ok js /\ length js = length ops.
  Proof.
    intros (W & _) ops. induction ops as [|o ops IH]; intros S; [exists []; auto|].
    destruct (W o (S o (or_introl eq_refl))) as (g & qs & -> & _). destruct IH as (js & E & L); [intros; apply S; right; auto|].
    eexists. cbn [mapM op_to_dict rbind]. rewrite E. cbn [rbind]. split; [reflexivity|]. cbn. auto.
  Qed.
  Lemma read_ops all ds : writable T all -> (forall o d, In o all -> uses o d -> find (fun g => String.eqb (cd_name g) (cd_name d)) ds = Some d) ->
    forall ops js, (forall o, In o ops -> In o all) -> mapM (op_to_dict T) ops = Ok js ->
    exists ops', mapM (op_from_dict T (map reread_def ds)) js = Ok ops' /\ Forall2 (same_op T) ops ops'.
  Proof.
    intros W F. induction ops as [|o ops IH]; intros js S E; cbn [mapM] in E.
    - injection E as <-. exists []. auto.
    - destruct (op_to_dict T o) as [j|] eqn:Eo; [|discriminate]. cbn [rbind] in E. destruct (mapM (op_to_dict T) ops) as [js'|] eqn:Es; [|discriminate].
      cbn [rbind] in E. injection E as <-. destruct (read_op all ds o j W F (S o (or_introl eq_refl)) Eo) as (o' & Eo' & So).
      destruct (IH js' (fun o H => S o (or_intror H)) eq_refl) as (ops' & Es' & Ss). exists (o' :: ops'). cbn [mapM]. rewrite Eo'. cbn [rbind]. rewrite Es'.
      split; [reflexivity|constructor; auto].
  Qed.
  Lemma same_op_indices o o' : same_op T o o' -> qubit_indices o = qubit_indices o'.
  Proof. intros []. reflexivity. Qed.
  Lemma same_ops_indices ops ops' : Forall2 (same_op T) ops ops' -> flat_map qubit_indices ops = flat_map qubit_indices ops'.
  Proof. induction 1; cbn; [reflexivity|]. rewrite (same_op_indices _ _ H), IHForall2. reflexivity. Qed.
  Lemma rebuild c ops' n0 : mk_circuit (c_ops c) n0 = Ok c -> Forall2 (same_op T) (c_ops c) ops' ->
    mk_circuit_Z ops' (c_nq c) = Ok (Build_circuit ops' (c_nq c)).
  Proof.
    intros M F. unfold mk_circuit_Z, mk_circuit.
    assert (Z0 : c_nq c = 0%Z -> circuit_size_by_operations (c_ops c) = Ok 0%Z).
    { intros Z. unfold mk_circuit in M. destruct n0 as [q|].
      - destruct (Qeq_bool q 0).
        + destruct (circuit_size_by_operations (c_ops c)) as [s|]; [|discriminate]. cbn in M. injection M as M. rewrite <- M in Z. cbn in Z. congruence.
        + destruct (negb _); [discriminate|]. destruct (Z.leb_spec (py_int q) 0); [discriminate|]. injection M as M. rewrite <- M in Z. cbn in Z. lia.
      - destruct (circuit_size_by_operations (c_ops c)) as [s|]; [|discriminate]. cbn in M. injection M as M. rewrite <- M in Z. cbn in Z. congruence. }
    assert (S : circuit_size_by_operations ops' = circuit_size_by_operations (c_ops c)).
    { unfold circuit_size_by_operations. rewrite (same_ops_indices _ _ F). destruct F; reflexivity. }
    destruct (Qeq_bool (inject_Z (c_nq c)) 0) eqn:Q.
    - apply Qeq_bool_iff in Q. unfold Qeq in Q. cbn in Q. assert (Z : c_nq c = 0%Z) by lia. rewrite S, (Z0 Z), Z. reflexivity.
    - assert (P : py_int (inject_Z (c_nq c)) = c_nq c) by (unfold py_int; cbn; apply Z.quot_1_r). rewrite P.
      rewrite (proj2 (Qeq_bool_iff _ _) (Qeq_refl _)). cbn [negb].
      destruct (Z.leb_spec (c_nq c) 0) as [L|L]; [|reflexivity]. exfalso.
      assert (N : c_nq c <> 0%Z) by (intros E; rewrite E in Q; discriminate).
      unfold mk_circuit in M. destruct n0 as [q|].
      + destruct (Qeq_bool q 0).
        * unfold circuit_size_by_operations, py_max in M. destruct (c_ops c) eqn:Eo; [cbn in M; injection M as M; rewrite <- M in N; cbn in N; lia|].
          destruct (flat_map _ _); [discriminate|]. cbn [rbind] in M. injection M as M. rewrite <- M in L. cbn [c_nq] in L. lia.
        * destruct (negb _); [discriminate|]. destruct (Z.leb_spec (py_int q) 0); [discriminate|]. injection M as M. rewrite <- M in L. cbn in L. lia.
      + unfold circuit_size_by_operations, py_max in M. destruct (c_ops c) eqn:Eo; [cbn in M; injection M as M; rewrite <- M in N; cbn in N; lia|].
        destruct (flat_map _ _); [discriminate|]. cbn [rbind] in M. injection M as M. rewrite <- M in L. cbn [c_nq] in L. lia.
  Qed.
End P.
