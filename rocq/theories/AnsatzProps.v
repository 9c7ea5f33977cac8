(** C59: the circuit of an ansatz is the one for its current properties. *)
From Coq Require Import List ZArith String Bool Lia Permutation Sorted.
From Verif Require Import Base BaseFacts CircuitModel UtilsModel EstModel CostModel AnsatzModel AnsatzSpec AnsatzProofs SmallProps.
Import ListNotations.
Open Scope nat_scope.
Open Scope string_scope.
Open Scope list_scope.

Section C59.
  Context {V Num Circ : Type}.
  Notation at_ := (attrs V Circ).
  Notation ac := (action V Num Circ).

  (** A declared property has the value last assigned to it, or its default; properties do not influence each other. *)
  Theorem C59_properties supports generate generate_with free_symbols bind key_leb (decls : list (string * V)) (l : list ac) n v :
    NoDup (map fst decls) -> In (n, v) decls -> Forall (fun a => match a with ASet _ _ => True | AGet m w => In (m, w) decls | _ => False end) l ->
    let o := run_all supports generate generate_with free_symbols bind key_leb l {| o_attrs := []; o_made := 0 |} in
    n <> "parametrized_circuit" -> snd (property_get n v (o_attrs o)) = Ok (SVal (last_assigned n l v)).
  Proof.
    intros ND HI F. cbv zeta. intros NC.
    assert (G : forall l o u, Forall (fun a : ac => match a with ASet _ _ => True | AGet m w => In (m, w) decls | _ => False end) l ->
              worth (o_attrs o) (n, v) = SVal u ->
              worth (o_attrs (run_all supports generate generate_with free_symbols bind key_leb l o)) (n, v) = SVal (last_assigned n l u)).
    { clear l F. induction l as [|a l IH]; intros o u F W; [exact W|]. inversion F as [|? ? A F']; subst. cbn [run_all fold_left].
      destruct a as [m w|m w|b|b| | |p]; try contradiction; cbn [last_assigned run]; apply IH; auto.
      - unfold on_attrs, property_set, invalidating, bindM, dynamic_set. cbn [fst o_attrs]. unfold worth. cbn [fst snd].
        rewrite getattr_set_other by (intros X; apply NC, attrname_inj; exact X). destruct (String.eqb_spec m n) as [->|N].
        + rewrite getattr_set_same. reflexivity.
        + rewrite getattr_set_other by (intros X; apply attrname_inj in X; congruence). exact W.
      - unfold on_attrs, property_get. destruct (dynamic_get_spec m w (o_attrs o)) as (d' & E & H1 & H2 & _ & _). rewrite E. cbn [fst o_attrs].
        destruct (String.string_dec n m) as [<-|N]; [|rewrite H1 by exact N; exact W].
        assert (w = v) as ->; [|rewrite H2; exact W].
        clear - HI A ND. induction decls as [|[k x] l IH]; [contradiction|]. cbn in *. inversion ND as [|? ? N1 N2]; subst.
        destruct A as [Hm|Hm], HI as [HI|HI]; try congruence; auto.
        + injection Hm as -> ->. exfalso. apply N1. apply in_map_iff. exists (n, v). auto.
        + injection HI as -> ->. exfalso. apply N1. apply in_map_iff. exists (n, w). auto. }
    unfold property_get. destruct (dynamic_get_spec n v (o_attrs (run_all supports generate generate_with free_symbols bind key_leb l {| o_attrs := []; o_made := 0 |}))) as (d' & E & _).
    rewrite E. cbn [snd]. rewrite (G l {| o_attrs := []; o_made := 0 |} v F eq_refl). reflexivity.
  Qed.

  Context (decls : list (string * V)) (supports : bool) (generate : M at_ Circ) (generate_with : list Num -> M at_ Circ)
          (free_symbols : Circ -> list string) (bind : Circ -> list (string * Num) -> result Circ) (key_leb : string -> string -> bool).
  Notation run_all_ := (run_all supports generate generate_with free_symbols bind key_leb).
  (** an ansatz after the constructor of the base class *)
  Definition new (layers : V) (o : obj V Circ) : Prop := exists d, init false layers d = (o_attrs o, Ok tt).
  Hypothesis Hdecls : NoDup (map fst decls).
  Hypothesis Hname : ~ In "parametrized_circuit" (map fst decls).
  Hypothesis Hdetermined : determined decls generate.
  Hypothesis Hharmless : harmless decls generate.
  Hypothesis Hwith : forall p, harmless decls (generate_with p).
  Lemma new_inv layers o : new layers o -> inv supports generate o.
  Proof.
    intros [d E]. unfold init, bindM, property_set, invalidating, dynamic_set in E. cbn in E. injection E as E. exists None. rewrite <- E. split; [|exact I].
    apply getattr_set_same.
  Qed.
  (** After any sequence of assignments, reads, calls of invalidating setters and methods and requests for circuits, reading
      parametrized_circuit gives what _generate_circuit would give for the current properties, including its exceptions. *)
  Theorem C59_current layers o (l : list ac) : new layers o -> Forall (allowed decls) l ->
    snd (parametrized_circuit supports generate (run_all_ l o)) =
    if supports then snd (generate (o_attrs (run_all_ l o))) else Err NotImplementedError.
  Proof.
    intros N F. apply (circuit_spec decls); auto. apply (run_all_inv decls); auto. eapply new_inv, N.
  Qed.
  (** Once a circuit was generated it is not generated again until a property is assigned or an invalidating method is called. *)
  Theorem C59_generated_once o c o' (l : list ac) : supports = true -> parametrized_circuit supports generate o = (o', Ok c) ->
    Forall (only_reads decls) l -> o_made (run_all_ l o') = o_made o' /\ parametrized_circuit supports generate (run_all_ l o') = (run_all_ l o', Ok c).
  Proof.
    intros S E F. assert (C : cached c o').
    { unfold parametrized_circuit in E. destruct (getattr cache (o_attrs o)) as [[v|[c0|]]|] eqn:G; try discriminate.
      - injection E as <- <-. exact G.
      - rewrite S in E. destruct (generate (o_attrs o)) as [d [c0|e]]; [|discriminate]. injection E as <- <-. unfold cached. cbn [o_attrs]. apply getattr_set_same. }
    clear E. revert o' C. induction F as [|a l A F IH]; intros o' C.
    - split; [reflexivity|]. apply cached_circuit. exact C.
    - cbn [run_all fold_left]. destruct (run_cached decls supports generate generate_with free_symbols bind key_leb Hdecls c a o' S C A) as [C1 M1].
      destruct (IH _ C1) as [E1 E2]. split; [unfold run_all in E1; rewrite E1; exact M1|exact E2].
  Qed.
  (** get_executable_circuit binds the i-th parameter to the i-th free symbol of the current circuit in the order of the sort key; the
      number of parameters is that of the free symbols, and another number is a ValueError. *)
  Theorem C59_executable layers o (l : list ac) c p : supports = true ->
    (forall a b, key_leb a b = true \/ key_leb b a = true) -> (forall a b d, key_leb a b = true -> key_leb b d = true -> key_leb a d = true) ->
    new layers o -> Forall (allowed decls) l -> snd (generate (o_attrs (run_all_ l o))) = Ok c -> NoDup (free_symbols c) ->
    snd (number_of_params supports generate free_symbols (run_all_ l o)) = Ok (length (free_symbols c)) /\
    let r := snd (get_executable_circuit supports generate generate_with free_symbols bind key_leb (Some p) (run_all_ l o)) in
    (length p <> length (free_symbols c) -> r = Err ValueError) /\
    (length p = length (free_symbols c) -> exists m, Permutation (dkeys m) (free_symbols c) /\ StronglySorted (fun a b => key_leb a b = true) (dkeys m) /\
       (forall k s v, nth_error (dkeys m) k = Some s -> nth_error p k = Some v -> dget String.eqb s m = Some v) /\ r = bind c m).
  Proof.
    intros S T1 T2 N F E ND. set (o' := run_all_ l o) in *.
    assert (I : inv supports generate o') by (apply (run_all_inv decls); auto; eapply new_inv, N).
    destruct (circuit_spec decls supports generate Hname Hdetermined Hharmless o' I) as (I1 & E1 & W1). rewrite E in E1.
    destruct (parametrized_circuit supports generate o') as [o1 r1] eqn:P1. cbn [fst snd] in *. rewrite S in P1, E1. subst r1.
    destruct (circuit_spec decls supports generate Hname Hdetermined Hharmless o1 I1) as (I2 & E2 & W2).
    rewrite S in E2. replace (snd (generate (o_attrs o1))) with (Ok c : result Circ) in E2 by (rewrite <- E; apply Hdetermined; symmetry; exact W1).
    rewrite S. split; [unfold number_of_params, bindM; rewrite P1; reflexivity|]. cbv zeta.
    unfold get_executable_circuit, bindM, liftM. rewrite P1.
    assert (ND' : NoDup (sort_by key_leb (free_symbols c))) by (eapply Permutation_NoDup; [symmetry; apply sort_by_perm|exact ND]).
    assert (L : length (sort_by key_leb (free_symbols c)) = length (free_symbols c)) by (apply Permutation_length, sort_by_perm).
    destruct (C65_symbols_map Num (sort_by key_leb (free_symbols c)) p ND') as [C1 C2]. split.
    - intros NE. rewrite C1 by congruence. reflexivity.
    - intros EQ. destruct (C2 ltac:(congruence)) as (m & Em & Km & Vm). exists m. rewrite Km. split; [apply sort_by_perm|]. split; [apply sort_by_sorted; auto|].
      split; [exact Vm|]. rewrite Em. destruct (parametrized_circuit true generate o1) as [o2 r2]. cbn [snd] in E2. subst r2. reflexivity.
  Qed.
  (** Without support for parametrized circuits the circuit is generated from the parameters in every call and never cached; None is
      rejected in both cases. *)
  Theorem C59_unsupported p o : supports = false ->
    snd (get_executable_circuit supports generate generate_with free_symbols bind key_leb (Some p) o) = snd (generate_with p (o_attrs o)) /\
    snd (number_of_params supports generate free_symbols o) = Err NotImplementedError.
  Proof. intros S. rewrite S. cbn. unfold on_attrs. destruct (generate_with p (o_attrs o)). split; reflexivity. Qed.
  Theorem C59_none o : get_executable_circuit supports generate generate_with free_symbols bind key_leb None o = (o, Err GenericException).
  Proof. reflexivity. Qed.
End C59.
(** A negative number of layers is rejected by the constructor (with a property that holds it). *)
Theorem C59_negative_layers {V Circ} (layers : V) (d : attrs V Circ) : init true layers d = (d, Err ValueError).
Proof. reflexivity. Qed.

(** ** What is not covered *)
(** A circuit that consists of the number in the property size *)
Definition toy_generate : M (attrs Z Z) Z := fun d => match worth d ("size", 0%Z) with SVal z => (d, Ok z) | _ => (d, Err TypeError) end.
Definition toy_decls : list (string * Z) := [("number_of_layers", 0%Z); ("size", 0%Z)].
Definition toy : obj Z Z := {| o_attrs := fst (init false 1%Z ([] : attrs Z Z)); o_made := 0 |}.
Notation toy_run := (run_all (Num := Z) true toy_generate (fun _ => toy_generate) (fun _ => []) (fun c _ => Ok c) String.leb).
Lemma toy_hypotheses : NoDup (map fst toy_decls) /\ ~ In "parametrized_circuit" (map fst toy_decls) /\ determined toy_decls toy_generate /\ harmless toy_decls toy_generate /\ new 1%Z toy.
Proof.
  split; [repeat constructor; cbn; intuition discriminate|]. split; [cbn; intuition discriminate|]. split.
  { intros d d' H. unfold toy_generate. injection H as _ H. rewrite H. destruct (worth d' ("size", 0%Z)); reflexivity. }
  split; [intros d; unfold toy_generate; destruct (worth d ("size", 0%Z)); split; reflexivity|]. exists []. reflexivity.
Qed.
(** A method made invalidating that assigns and then raises leaves the old circuit behind. *)
Theorem C59_raising_method_refuted : exists body : M (attrs Z Z) unit,
  ~ snd (parametrized_circuit true toy_generate (toy_run [ASet "size" 5%Z; ACircuit; AInvalidating body] toy))
    = snd (toy_generate (o_attrs (toy_run [ASet "size" 5%Z; ACircuit; AInvalidating body] toy))).
Proof. exists (fun d => (setattr "_size" (SVal 7%Z) d, Err ValueError)). cbn. intros E. discriminate E. Qed.
(** So does code that assigns to the attribute behind a property (as any code does that changes a mutable value in place). *)
Theorem C59_plain_attribute_refuted : exists body : M (attrs Z Z) unit,
  (forall d, snd (body d) = Ok tt) /\
  ~ snd (parametrized_circuit true toy_generate (toy_run [ASet "size" 5%Z; ACircuit; AOther body] toy))
    = snd (toy_generate (o_attrs (toy_run [ASet "size" 5%Z; ACircuit; AOther body] toy))).
Proof. exists (fun d => (setattr "_size" (SVal 7%Z) d, Ok tt)). split; [reflexivity|]. cbn. intros E. discriminate E. Qed.
Example C59_current_example : Forall (allowed (Num := Z) (Circ := Z) toy_decls) [ASet "size" 5%Z; ACircuit; AGet "number_of_layers" 0%Z; ASet "size" 7%Z; AParams; AExecute (Some [1%Z])] /\
  snd (parametrized_circuit true toy_generate (toy_run [ASet "size" 5%Z; ACircuit; AGet "number_of_layers" 0%Z; ASet "size" 7%Z; AParams; AExecute (Some [1%Z])] toy)) = Ok 7%Z /\
  o_made (toy_run [ASet "size" 5%Z; ACircuit; ACircuit; ASet "size" 7%Z; AParams; AExecute (Some [1%Z])] toy) = 2.
Proof. split; [|split; reflexivity]. repeat constructor; cbn; auto. Qed.

(** ** The mock ansatz *)
Section MockAnsatz.
  Context {Num : Type} (O : sympy_oracle Num).
  Notation at_ := (attrs Z (circuit Num)).
  Notation ac := (action Z Num (circuit Num)).
  Definition is_set (a : ac) : Prop := match a with ASet n _ => n <> "parametrized_circuit" | _ => False end.
  (** A mock ansatz made with a number of layers and a problem size, after the assignments l *)
  Definition mock_after (layers size : Z) (l : list ac) (o : obj Z (circuit Num)) : Prop :=
    exists d, snd (mock_init layers size d) = Ok tt /\
    o = run_all true (mock_generate O None) (fun p => mock_generate O (Some p)) circuit_free_symbols (mock_bind O) revlex_leb l
                {| o_attrs := fst (mock_init layers size d); o_made := 0 |}.
  Lemma mock_state layers size l o : mock_after layers size l o -> Forall is_set l ->
    getattr cache (o_attrs o) = Some (SCircuit None) /\
    getattr (attrname "number_of_layers") (o_attrs o) = Some (SVal (last_assigned "number_of_layers" l layers)) /\
    getattr (attrname "problem_size") (o_attrs o) = Some (SVal (last_assigned "problem_size" l size)).
  Proof.
    intros (d & E & ->) F. unfold mock_init, init in *. destruct (Z.ltb layers 0); [discriminate E|]. clear E.
    set (o := {| o_attrs := _; o_made := 0 |}).
    assert (I : getattr cache (o_attrs o) = Some (SCircuit None) /\ getattr (attrname "number_of_layers") (o_attrs o) = Some (SVal layers) /\
                getattr (attrname "problem_size") (o_attrs o) = Some (SVal size)).
    { unfold o, bindM, property_set, invalidating, dynamic_set. cbn [bindM fst o_attrs]. unfold bindM. cbn [fst o_attrs].
      rewrite getattr_set_same. split; [reflexivity|]. split.
      - rewrite getattr_set_other by discriminate. rewrite getattr_set_other by discriminate. rewrite getattr_set_other by discriminate. apply getattr_set_same.
      - rewrite getattr_set_other by discriminate. apply getattr_set_same. }
    clearbody o. revert o layers size I. induction F as [|a l A F IH]; intros o layers size I; [exact I|].
    destruct a as [n v| | | | | |]; try contradiction. cbn [run_all fold_left run last_assigned] in *. apply IH.
    destruct I as (I1 & I2 & I3). unfold on_attrs, property_set, invalidating, bindM, dynamic_set. cbn [fst o_attrs].
    split; [apply getattr_set_same|]. rewrite 2!(getattr_set_other _ cache) by discriminate. split.
    - destruct (String.eqb_spec n "number_of_layers") as [->|N]; [apply getattr_set_same|].
      rewrite getattr_set_other by (intros X; apply attrname_inj in X; congruence). exact I2.
    - destruct (String.eqb_spec n "problem_size") as [->|N]; [apply getattr_set_same|].
      rewrite getattr_set_other by (intros X; apply attrname_inj in X; congruence). exact I3.
  Qed.
  Lemma mock_generates L n d p : getattr (attrname "number_of_layers") d = Some (SVal L) -> getattr (attrname "problem_size") d = Some (SVal n) ->
    mock_generate O p d = (d, let! c := mock_loops (map theta (seq 0 (Z.to_nat L))) (Z.to_nat n) in
                   match p with
                   | None => Ok c
                   | Some p => let! m := create_symbols_map (map theta (seq 0 (Z.to_nat L))) p in circuit_bind O c (map (fun kv => (fst kv, PNum (snd kv))) m)
                   end).
  Proof. intros H1 H2. unfold mock_generate, property_get, dynamic_get. rewrite H1, H2, H2. reflexivity. Qed.
  Lemma mk_positive (ops : list (operation Num)) z : (0 < z)%Z -> mk_circuit_Z ops z = Ok (Build_circuit ops z).
  Proof.
    intros Hz. unfold mk_circuit_Z, mk_circuit.
    unfold QArith_base.Qeq_bool, QArith_base.inject_Z, py_int. cbn [QArith_base.Qnum QArith_base.Qden]. rewrite Z.quot_1_r.
    destruct (Zeq_bool (z * 1) (0 * 1)) eqn:E0; [apply Zeq_bool_eq in E0; lia|].
    destruct (Zeq_bool (z * 1) (z * 1)) eqn:E1; [|apply Zeq_bool_neq in E1; lia]. cbn [negb].
    destruct (Z.leb_spec z 0); [lia|]. reflexivity.
  Qed.
  Lemma bind_thetas (symbols : list string) n (p : list Num) : NoDup symbols -> length p = length symbols -> 0 < n ->
    let c := Build_circuit (rx_layers (map (fun t => PExpr (ESym t)) symbols) n : list (operation Num)) (Z.of_nat n) in
    exists m, create_symbols_map symbols p = Ok m /\ circuit_bind O c (map (fun kv => (fst kv, PNum (snd kv))) m) = Ok (Build_circuit (rx_layers (map PNum p) n) (Z.of_nat n)).
  Proof.
    intros ND L P. cbv zeta. destruct (C65_symbols_map Num symbols p ND) as [_ H]. destruct (H (eq_sym L)) as (m & E & K & V). exists m. split; [exact E|].
    unfold circuit_bind. cbn [c_ops c_nq]. rewrite (bind_layers O symbols n _ (map PNum p)); [cbn [rbind]; apply mk_positive; lia|].
    assert (G : forall l1 l2, length l2 = length l1 -> (forall k s v, nth_error l1 k = Some s -> nth_error l2 k = Some v -> dget String.eqb s m = Some v) ->
                Forall2 (fun t q => dget String.eqb t (map (fun kv => (fst kv, PNum (snd kv))) m) = Some q) l1 (map (@PNum Num) l2)).
    { induction l1 as [|a l1 IH]; intros [|b l2] E1 E2; try discriminate; constructor.
      - specialize (E2 0 a b eq_refl eq_refl). clear - E2. induction m as [|[k x] m IHm]; [discriminate|]. cbn in *.
        destruct (String.eqb a k); [congruence|apply IHm, E2].
      - apply IH; [cbn in E1; lia|]. intros k s v. apply (E2 (S k)). }
    apply G; assumption.
  Qed.
  Lemma thetas_NoDup n : NoDup (map theta (seq 0 n)).
  Proof. apply FinFun.Injective_map_NoDup; [intros i j; apply theta_inj|apply seq_NoDup]. Qed.
  (** The circuit has, for every layer, an RX on every qubit by the parameter of the layer; the executable circuit has the numbers given
      instead, in the order of the layers (also for ten and more layers), and is the one _generate_circuit makes from these numbers. *)
  Theorem C59_mock layers size l o p : mock_after layers size l o -> Forall is_set l ->
    let L := Z.to_nat (last_assigned "number_of_layers" l layers) in let n := Z.to_nat (last_assigned "problem_size" l size) in
    0 < L -> 0 < n ->
    snd (mock_circuit O o) = Ok (Build_circuit (rx_layers (map (fun i => PExpr (ESym (theta i))) (seq 0 L)) n) (Z.of_nat n)) /\
    (length p <> L -> snd (mock_executable O (Some p) o) = Err ValueError) /\
    (length p = L -> snd (mock_executable O (Some p) o) = Ok (Build_circuit (rx_layers (map PNum p) n) (Z.of_nat n)) /\
                     snd (mock_generate O (Some p) (o_attrs o)) = snd (mock_executable O (Some p) o)).
  Proof.
    intros A F. destruct (mock_state _ _ _ _ A F) as (S1 & S2 & S3). clear A. cbv zeta. intros HL Hn.
    set (L := last_assigned "number_of_layers" l layers) in *. set (n := last_assigned "problem_size" l size) in *. clearbody L n.
    set (ths := map theta (seq 0 (Z.to_nat L))).
    assert (Lt : length ths = Z.to_nat L) by (unfold ths; rewrite map_length, seq_length; reflexivity).
    set (c := Build_circuit (rx_layers (map (fun t => PExpr (ESym t)) ths) (Z.to_nat n) : list (operation Num)) (Z.of_nat (Z.to_nat n))).
    assert (EL : mock_loops ths (Z.to_nat n) = Ok c).
    { rewrite loops_spec. unfold c. destruct ths as [|t ths'] eqn:E; [cbn in Lt; lia|reflexivity]. }
    assert (E0 : mock_generate O None (o_attrs o) = (o_attrs o, Ok c)) by (rewrite (mock_generates L n _ None S2 S3); fold ths; rewrite EL; reflexivity).
    assert (EC : mock_circuit O o = ({| o_attrs := setattr cache (SCircuit (Some c)) (o_attrs o); o_made := S (o_made o) |}, Ok c)).
    { unfold mock_circuit, parametrized_circuit, circ in *. rewrite S1, E0. reflexivity. }
    assert (EC2 : mock_circuit O {| o_attrs := setattr cache (SCircuit (Some c)) (o_attrs o); o_made := S (o_made o) |} =
                  ({| o_attrs := setattr cache (SCircuit (Some c)) (o_attrs o); o_made := S (o_made o) |}, Ok c)).
    { unfold mock_circuit, parametrized_circuit, circ in *. cbn [o_attrs]. rewrite getattr_set_same. reflexivity. }
    assert (FS : circuit_free_symbols c = ths) by (apply layers_free_symbols; [exact Hn|apply thetas_NoDup]).
    assert (EX : snd (mock_executable O (Some p) o) = (let! m := create_symbols_map ths p in mock_bind O c m)).
    { unfold mock_executable, get_executable_circuit. fold (mock_circuit (Num := Num) O). unfold bindM at 1. rewrite EC, FS. rewrite (sort_thetas (Z.to_nat L) ths (Permutation_refl _)).
      fold ths. unfold bindM, liftM. destruct (create_symbols_map ths p); [|reflexivity]. rewrite EC2. reflexivity. }
    rewrite EX. destruct (C65_symbols_map Num ths p (thetas_NoDup _)) as [C1 _]. repeat split.
    - rewrite EC. cbn [snd]. unfold c, ths. rewrite map_map. reflexivity.
    - intros NE. rewrite C1 by congruence. reflexivity.
    - destruct (bind_thetas ths (Z.to_nat n) p (thetas_NoDup _) ltac:(congruence) Hn) as (m & E1 & E2). rewrite E1. exact E2.
    - rewrite (mock_generates L n _ (Some p) S2 S3). fold ths. rewrite EL. reflexivity.
  Qed.
  (** Without qubits there are no free symbols: get_executable_circuit rejects the parameters _generate_circuit takes. *)
  Theorem C59_mock_no_qubits p : p <> [] -> exists (o : obj Z (circuit Num)), mock_after (Z.of_nat (length p)) 0 [] o /\
    snd (mock_executable O (Some p) o) = Err ValueError /\ exists c, snd (mock_generate O (Some p) (o_attrs o)) = Ok c.
  Proof.
    intros P. set (o := {| o_attrs := fst (mock_init (Num := Num) (Z.of_nat (length p)) 0 []); o_made := 0 |}).
    assert (Hi : snd (mock_init (Num := Num) (Z.of_nat (length p)) 0 []) = Ok tt) by (unfold mock_init, init; destruct (Z.ltb_spec (Z.of_nat (length p)) 0); [lia|reflexivity]).
    assert (A : mock_after (Z.of_nat (length p)) 0 [] o) by (exists []; split; [exact Hi|reflexivity]).
    exists o. split; [exact A|]. destruct (mock_state _ _ _ _ A (Forall_nil _)) as (S1 & S2 & S3). cbn [last_assigned] in *. clear Hi A. clearbody o. unfold circ in *.
    set (ths := map theta (seq 0 (length p))).
    assert (R : forall ps : list (param Num), rx_layers ps 0 = []) by (induction ps as [|x ps IH]; [reflexivity|exact IH]).
    assert (EL : mock_loops ths 0 = Ok (Build_circuit ([] : list (operation Num)) 0%Z)) by (rewrite loops_spec, R; destruct ths; reflexivity).
    assert (E0 : mock_generate O None (o_attrs o) = (o_attrs o, Ok (Build_circuit [] 0%Z))).
    { rewrite (mock_generates _ _ _ None S2 S3). rewrite Nat2Z.id. change (Z.to_nat 0) with 0. fold ths. rewrite EL. reflexivity. }
    split.
    - unfold mock_executable, get_executable_circuit, bindM. unfold parametrized_circuit, circ in *. rewrite S1, E0. cbn. destruct p; [congruence|reflexivity].
    - rewrite (mock_generates _ _ _ (Some p) S2 S3). rewrite Nat2Z.id. change (Z.to_nat 0) with 0. fold ths. rewrite EL. cbn [rbind snd].
      destruct (C65_symbols_map Num ths p (thetas_NoDup _)) as [_ C2]. destruct C2 as (m & E & _); [unfold ths; rewrite map_length, seq_length; reflexivity|].
      rewrite E. cbn [rbind]. eexists. reflexivity.
  Qed.
  (** A mock ansatz exists for every number of layers that is not negative. *)
  Theorem C59_mock_constructed layers size : (0 <= layers)%Z <-> exists o, mock_after layers size [] o.
  Proof.
    split.
    - intros H. eexists. exists []. split; [|reflexivity]. unfold mock_init, init. destruct (Z.ltb_spec layers 0); [lia|reflexivity].
    - intros (o & d & E & _). unfold mock_init, init in E. destruct (Z.ltb_spec layers 0); [discriminate|lia].
  Qed.
End MockAnsatz.
Example C59_mock_example (O : sympy_oracle Z) : exists o, mock_after O 1 1 [ASet "problem_size" 2%Z; ASet "number_of_layers" 11%Z] o /\
  snd (mock_executable O (Some [5; 6; 7; 8; 9; 10; 11; 12; 13; 14; 15]%Z) o) =
  Ok (Build_circuit (rx_layers (map PNum [5; 6; 7; 8; 9; 10; 11; 12; 13; 14; 15]%Z) 2) 2%Z).
Proof.
  eexists. assert (A : mock_after O 1 1 [ASet "problem_size" 2%Z; ASet "number_of_layers" 11%Z]
    (run_all true (mock_generate O None) (fun p => mock_generate O (Some p)) circuit_free_symbols (mock_bind O) revlex_leb
      [ASet "problem_size" 2%Z; ASet "number_of_layers" 11%Z] {| o_attrs := fst (mock_init 1 1 []); o_made := 0 |})) by (exists []; split; reflexivity).
  split; [exact A|]. apply (C59_mock O 1 1 _ _ [5; 6; 7; 8; 9; 10; 11; 12; 13; 14; 15]%Z A).
  - repeat constructor; discriminate.
  - cbn; lia.
  - cbn; lia.
  - reflexivity.
Qed.

Print Assumptions C59_properties.
Print Assumptions C59_current.
Print Assumptions C59_generated_once.
Print Assumptions C59_executable.
Print Assumptions C59_unsupported.
Print Assumptions C59_raising_method_refuted.
Print Assumptions C59_plain_attribute_refuted.
Print Assumptions C59_mock.
Print Assumptions C59_mock_no_qubits.
Print Assumptions C59_mock_constructed.
