(** C96: the circuit steps. *)
From Coq Require Import String ZArith QArith Lia.
From Verif Require Import Base BaseFacts Json MatModel CircuitModel CircuitSpec CircuitProofs CircuitProps SerdeModel SerdeSpec SerdeProofs SerdeProps CostModel CircStepModel.
Open Scope list_scope.
Local Open Scope nat_scope.

Section Props.
  Context {Num X : Type} (T : text_oracle Num).
  Notation files := (files X).
  Implicit Types (fs : files) (c : circuit Num).
  (** the circuit, list of circuits or array that an argument stands for *)
  Definition circuit_of fs (a : arg (circuit Num)) : result (circuit Num) := match a with Given c => Ok c | Named n => snd (load_circuit T n fs) end.
  Definition circuits_of fs (a : arg (list (circuit Num))) : result (list (circuit Num)) := match a with Given cs => Ok cs | Named n => snd (load_circuitset T n fs) end.
  Definition array_of fs (a : arg (list X)) : result (list X) := match a with Given l => Ok l | Named n => snd (load_array n fs) end.
  (** only the file [name] differs *)
  Definition only (name : string) fs fs' : Prop := forall n, n <> name -> dget String.eqb n fs' = dget String.eqb n fs.
  (** [fs'] comes from [fs] by writing, to [name], a circuit that reads back as [c] *)
  Definition wrote_circuit (name : string) c fs fs' : Prop :=
    only name fs fs' /\ exists c', load_circuit T name fs' = (fs', Ok c') /\ same_circuit T c c'.

  Lemma seqb : forall a b, String.eqb a b = true <-> a = b.
  Proof. intros. apply String.eqb_eq. Qed.
  Lemma save_only name (made : result (content X)) fs : only name fs (fst (save_document name made fs)).
  Proof. intros n N. unfold save_document. destruct made; cbn [fst]; rewrite ?(dget_dset_other _ seqb) by congruence; reflexivity. Qed.
  Lemma save_same name (a : content X) fs : dget String.eqb name (fst (save_document name (Ok a) fs)) = Some a.
  Proof. unfold save_document. cbn [fst]. apply (dget_dset_same _ seqb). Qed.
  Lemma circuit_arg_run a fs : circuit_arg T a fs = (fs, circuit_of fs a).
  Proof. destruct a; reflexivity. Qed.

  (** Saving a circuit object that can be written. *)
  Theorem C96_save_circuit c name fs : valid_circuit c -> writable T (c_ops c) -> exists fs', save_circuit T c name fs = (fs', Ok tt) /\ wrote_circuit name c fs fs'.
  Proof.
    intros V W. destruct V as (ops & n & M). assert (Eo : c_ops c = ops).
    { unfold mk_circuit in M. destruct n as [q|]; [destruct (Qeq_bool q 0); [|destruct (negb _); [discriminate|]; destruct (Z.leb _ _); [discriminate|]; injection M as <-; reflexivity]|];
      destruct (circuit_size_by_operations ops); try discriminate; injection M as <-; reflexivity. }
    rewrite Eo in W. destruct (C09_round_trip T ops n c M W) as (j & c' & E1 & E2 & S & _). unfold save_circuit. rewrite E1. cbn [rbind]. exists (fst (save_document name (Ok (Doc j)) fs)).
    split; [reflexivity|]. split; [apply save_only|]. exists c'. split; [|exact S]. unfold load_circuit, read. rewrite save_same. cbn [rbind]. rewrite E2. reflexivity.
  Qed.
  (** A circuit that cannot be written: the error is raised, but the file that was there is gone. *)
  Theorem C96_failed_save c name fs e : circuit_to_dict T c = Err e ->
    snd (save_circuit T c name fs) = Err e /\ only name fs (fst (save_circuit T c name fs)) /\ snd (load_circuit T name (fst (save_circuit T c name fs))) = Err ValueError.
  Proof.
    intros E. split; [|split; [apply save_only|]]; unfold save_circuit, save_document; rewrite E; cbn [rbind fst snd]; [reflexivity|].
    unfold load_circuit, read. rewrite (dget_dset_same _ seqb). reflexivity.
  Qed.

  (** ** Concatenation *)
  Definition widest (l : list Z) : Z := fold_right Z.max 0%Z l.
  Definition concatenated (cs : list (circuit Num)) : circuit Num := Build_circuit (flat_map c_ops cs) (widest (map c_nq cs)).
  Lemma sum_circuits cs : Forall valid_circuit cs -> foldM (fun acc c => circuit_add acc (AddCircuit c)) cs (Build_circuit [] 0) = Ok (concatenated cs) /\ valid_circuit (concatenated cs).
  Proof.
    intros V. assert (E : foldM (fun acc c => circuit_add acc (AddCircuit c)) cs (Build_circuit [] 0) = foldM circuit_add (map AddCircuit cs) (Build_circuit [] 0)).
    { generalize (@Build_circuit Num [] 0%Z). clear V. induction cs as [|c cs IH]; intros a; [reflexivity|]. cbn [foldM map]. destruct (circuit_add a (AddCircuit c)); [cbn [rbind]; apply IH|reflexivity]. }
    assert (V0 : valid_circuit (@Build_circuit Num [] 0%Z)) by (exists [], None; reflexivity).
    assert (OK : Forall (item_ok (Num := Num)) (map AddCircuit cs)) by (apply Forall_map; exact V).
    destruct (C01_append_sequence (map AddCircuit cs) _ V0 OK) as (r & Er & Vr & Or & _ & W1 & W2). rewrite E, Er.
    assert (r = concatenated cs) as ->; [|split; [reflexivity|exact Vr]]. destruct r as [ro rn]. cbn [c_ops c_nq] in *. unfold concatenated. f_equal.
    - rewrite Or. clear. cbn [app]. induction cs as [|c cs IH]; [reflexivity|]. cbn. now rewrite IH.
    - assert (G : forall c, In c cs -> (c_nq c <= widest (map c_nq cs))%Z).
      { clear. induction cs as [|c cs IH]; [intros ? []|]. intros d [->|H]; cbn [map widest fold_right]; [lia|]. specialize (IH d H). unfold widest in IH. lia. }
      assert (L : (widest (map c_nq cs) <= rn)%Z).
      { destruct W2 as [W2|W2].
        - assert (B : forall c, In c cs -> (c_nq c <= rn)%Z) by (intros c Hc; apply (W1 (AddCircuit c)); now apply in_map). assert (0 <= rn)%Z by lia. clear - B H. induction cs as [|c cs IH]; [exact H|]. cbn [map widest fold_right].
          apply Z.max_lub; [apply B; now left|]. apply IH. intros d Hd. apply B. now right.
        - assert (B : forall c, In c cs -> (c_nq c <= rn)%Z) by (intros c Hc; apply (W1 (AddCircuit c)); now apply in_map).
          assert (0 <= rn)%Z. { destruct W2 as (i & Hi & ->). apply in_map_iff in Hi as (c & <- & Hc). rewrite Forall_forall in V. apply valid_nonneg. now apply V. }
          clear - B H. induction cs as [|c cs IH]; [exact H|]. cbn [map widest fold_right]. apply Z.max_lub; [apply B; now left|]. apply IH. intros d Hd. apply B. now right. }
      apply Z.le_antisymm; [|exact L]. destruct W2 as [->|(i & Hi & ->)].
      + clear. induction (map c_nq cs) as [|z l IH]; cbn [widest fold_right]; [lia|]. unfold widest in IH. lia.
      + apply in_map_iff in Hi as (c & <- & Hc). cbn [item_width]. now apply G.
  Qed.
  (** The step writes the circuit with all operations in order, as wide as the widest; other files stay. *)
  Theorem C96_concatenate a fs cs : circuits_of fs a = Ok cs -> Forall valid_circuit cs -> writable T (flat_map c_ops cs) ->
    exists fs', concatenate_circuits T a fs = (fs', Ok tt) /\ wrote_circuit "result-circuit.json" (concatenated cs) fs fs'.
  Proof.
    intros A V W. destruct (sum_circuits cs V) as (E & VC). destruct (C96_save_circuit (concatenated cs) "result-circuit.json" fs VC W) as (fs' & S & R). exists fs'. split; [|exact R].
    unfold concatenate_circuits. assert (L : match a with Named n => load_circuitset T n | Given cs0 => retM cs0 end fs = (fs, Ok cs)).
    { destruct a as [n|cs0]; cbn in A |- *; [unfold load_circuitset in *; cbn [snd] in A; rewrite A; reflexivity|]. injection A as ->. reflexivity. }
    unfold bindM at 1. rewrite L. cbn beta iota. unfold bindM at 1. cbn [liftM mk_circuit circuit_size_by_operations rbind]. unfold bindM, liftM. rewrite E. exact S.
  Qed.
  Theorem C96_concatenate_error a fs e : circuits_of fs a = Err e -> concatenate_circuits T a fs = (fs, Err e).
  Proof. destruct a as [n|cs]; [|discriminate]. cbn. intros H. unfold concatenate_circuits, bindM. unfold load_circuitset in *. cbn [snd] in H. rewrite H. reflexivity. Qed.
  (** Two circuits whose custom gates share a name cannot be concatenated, although each can be saved; what was in the result file is lost. *)
  Theorem C96_concatenate_clash a fs c1 c2 o1 o2 d1 d2 : circuits_of fs a = Ok [c1; c2] -> valid_circuit c1 -> valid_circuit c2 -> c_ops c1 = [o1] -> c_ops c2 = [o2] ->
    uses_directly o1 d1 -> uses_directly o2 d2 -> cd_name d1 = cd_name d2 -> def_eq T d1 d2 = false ->
    snd (concatenate_circuits T a fs) = Err ValueError /\ snd (load_circuit T "result-circuit.json" (fst (concatenate_circuits T a fs))) = Err ValueError.
  Proof.
    intros A V1 V2 O1 O2 U1 U2 N D. destruct (sum_circuits [c1; c2]) as (E & VC); [repeat constructor; assumption|].
    assert (C : circuit_to_dict T (concatenated [c1; c2]) = Err ValueError).
    { apply (C09_clash T _ [] o1 [] o2 [] d1 d2); cbn [concatenated c_ops flat_map]; rewrite ?O1, ?O2; cbn [app]; try assumption; [reflexivity| |].
      - intros o [<-|[<-|[]]]; [destruct U1 as (?&?&?&?&?&->)|destruct U2 as (?&?&?&?&?&->)]; eauto.
      - intros o d []. }
    assert (R : concatenate_circuits T a fs = save_circuit T (concatenated [c1; c2]) "result-circuit.json" fs).
    { unfold concatenate_circuits. assert (L : match a with Named n => load_circuitset T n | Given cs0 => retM cs0 end fs = (fs, Ok [c1; c2])).
      { destruct a as [n|cs0]; cbn in A |- *; [unfold load_circuitset in *; cbn [snd] in A; rewrite A; reflexivity|]. injection A as ->. reflexivity. }
      unfold bindM at 1. rewrite L. cbn beta iota. unfold bindM at 1. cbn [liftM mk_circuit circuit_size_by_operations rbind]. unfold bindM, liftM. rewrite E. reflexivity. }
    rewrite R. destruct (C96_failed_save (concatenated [c1; c2]) "result-circuit.json" fs ValueError C) as (F1 & _ & F3). split; assumption.
  Qed.

  (** ** Batches *)
  Definition set_of fs (own : list (circuit Num)) (s : set_arg) : result (list (circuit Num)) :=
    match s with NoSet => Ok [] | Stored n => snd (load_circuitset T n fs) | Own => Ok own end.
  Definition is_own (s : set_arg) : bool := match s with Own => true | _ => false end.
  Lemma append_run o args : forall l fs (own : list (circuit Num)) cs, mapM (circuit_of fs) args = Ok cs -> (o = true -> own = l) ->
    append_loop T o args l (fs, own) = ((fs, if o then l ++ cs else own), Ok (l ++ cs)).
  Proof.
    induction args as [|a args IH]; intros l fs own cs H Ho; cbn [mapM] in H.
    - injection H as <-. cbn. rewrite app_nil_r. destruct o; [rewrite Ho by reflexivity|]; reflexivity.
    - destruct (circuit_of fs a) as [c|] eqn:E; [|discriminate]. cbn [rbind] in H. destruct (mapM (circuit_of fs) args) as [cs'|] eqn:E'; [|discriminate]. injection H as <-.
      cbn [append_loop]. unfold bindM, on_files at 1. cbn [fst snd]. rewrite circuit_arg_run, E. cbn [fst snd]. rewrite (IH (l ++ [c]) fs _ cs' E').
      + rewrite <- app_assoc. destruct o; reflexivity.
      + intros ->. reflexivity.
  Qed.
  Lemma append_fails o args a rest e : forall l fs (own : list (circuit Num)) cs, mapM (circuit_of fs) args = Ok cs -> circuit_of fs a = Err e -> (o = true -> own = l) ->
    append_loop T o (args ++ a :: rest) l (fs, own) = ((fs, if o then l ++ cs else own), Err e).
  Proof.
    induction args as [|b args IH]; intros l fs own cs H A Ho; cbn [mapM] in H.
    - injection H as <-. cbn [app append_loop]. unfold bindM, on_files. cbn [fst snd]. rewrite circuit_arg_run, A. rewrite app_nil_r. destruct o; [rewrite Ho by reflexivity|]; reflexivity.
    - destruct (circuit_of fs b) as [c|] eqn:E; [|discriminate]. cbn [rbind] in H. destruct (mapM (circuit_of fs) args) as [cs'|] eqn:E'; [|discriminate]. injection H as <-.
      cbn [app append_loop]. unfold bindM, on_files at 1. cbn [fst snd]. rewrite circuit_arg_run, E. cbn [fst snd]. rewrite (IH (l ++ [c]) fs _ cs' E' A).
      + rewrite <- app_assoc. destruct o; reflexivity.
      + intros ->. reflexivity.
  Qed.
  Lemma set_run s fs own l : set_of fs own s = Ok l -> (match s with NoSet => retM [] | Stored n => on_files (load_circuitset T n) | Own => (fun s => (s, Ok (snd s))) end) (fs, own) = ((fs, own), Ok l) /\ (is_own s = true -> own = l).
  Proof.
    destruct s; cbn; intros H; [injection H as <-; split; [reflexivity|discriminate]| |injection H as <-; split; [reflexivity|reflexivity]].
    split; [|discriminate]. unfold on_files, load_circuitset in *. cbn [fst snd] in *. rewrite H. reflexivity.
  Qed.
  (** The file holds the given set followed by the circuits, in order; the caller's own list is extended as well. *)
  Theorem C96_batch args s fs own l cs : set_of fs own s = Ok l -> mapM (circuit_of fs) args = Ok cs ->
    (forall c, In c (l ++ cs) -> exists n, mk_circuit (c_ops c) n = Ok c /\ writable T (c_ops c)) ->
    exists fs' cs', batch_circuits T args s (fs, own) = ((fs', if is_own s then l ++ cs else own), Ok tt) /\ only "circuit-set.json" fs fs' /\
      load_circuitset T "circuit-set.json" fs' = (fs', Ok cs') /\ Forall2 (same_circuit T) (l ++ cs) cs'.
  Proof.
    intros Hs Ha Hw. destruct (set_run s fs own l Hs) as (Es & Ho). destruct (C09_circuitset T (l ++ cs) Hw) as (j & cs' & E1 & E2 & F).
    exists (fst (save_document "circuit-set.json" (Ok (Doc j)) fs)), cs'. unfold batch_circuits. fold (is_own s). unfold bindM at 1. rewrite Es. cbn beta iota. unfold bindM.
    rewrite (append_run (is_own s) args l fs own cs Ha Ho). unfold on_files, save_circuitset. rewrite E1. cbn [rbind fst snd]. split; [reflexivity|]. split; [apply save_only|]. split; [|exact F].
    unfold load_circuitset, read. rewrite save_same. cbn [rbind]. rewrite E2. reflexivity.
  Qed.
  (** If a circuit cannot be read no file changes, but the caller's own list already has the circuits before it. *)
  Theorem C96_batch_missing args a rest s fs own l cs e : set_of fs own s = Ok l -> mapM (circuit_of fs) args = Ok cs -> circuit_of fs a = Err e ->
    batch_circuits T (args ++ a :: rest) s (fs, own) = ((fs, if is_own s then l ++ cs else own), Err e).
  Proof.
    intros Hs Ha He. destruct (set_run s fs own l Hs) as (Es & Ho). unfold batch_circuits. fold (is_own s). unfold bindM at 1. rewrite Es. cbn beta iota. unfold bindM.
    rewrite (append_fails (is_own s) args a rest e l fs own cs Ha He Ho). reflexivity.
  Qed.

  (** ** The other steps *)
  Theorem C96_ancilla n a fs c : circuit_of fs a = Ok c -> valid_circuit c ->
    writable T (c_ops c ++ map (fun i => GateOp gate_I [(Z.to_nat (c_nq c) + i)%nat]) (seq 0 n)) ->
    exists fs', add_ancilla_register_to_circuit T n a fs = (fs', Ok tt) /\
      wrote_circuit "extended-circuit.json" (Build_circuit (c_ops c ++ map (fun i => GateOp gate_I [(Z.to_nat (c_nq c) + i)%nat]) (seq 0 n)) (c_nq c + Z.of_nat n)) fs fs'.
  Proof.
    intros A V W. destruct (C11_add_ancilla c n V) as (c' & E & N & Op). assert (c' = Build_circuit (c_ops c ++ map (fun i => GateOp gate_I [(Z.to_nat (c_nq c) + i)%nat]) (seq 0 n)) (c_nq c + Z.of_nat n)) as ->
      by (destruct c' as [o' n']; cbn [c_ops c_nq] in *; congruence).
    match goal with |- context [wrote_circuit _ ?r _ _] => destruct (C96_save_circuit r "extended-circuit.json" fs) as (fs' & S & R) end; [|exact W|].
    - destruct (valid_nonneg c V) as (P & Q). apply nonneg_valid; cbn [c_ops c_nq]; [lia|]. intros Z0. assert (c_nq c = 0%Z) by lia. assert (n = 0) as -> by lia. rewrite Q by assumption. reflexivity.
    - exists fs'. split; [|exact R]. unfold add_ancilla_register_to_circuit. unfold bindM at 1. rewrite circuit_arg_run, A. unfold bindM, liftM. rewrite E. exact S.
  Qed.
  (** The parametrized circuit is never evaluated: the step fails whatever it is given, and writes nothing. *)
  Theorem C96_evaluate_refuted a p fs c l : circuit_of fs a = Ok c -> array_of fs p = Ok l -> evaluate_parametrized_circuit T a p fs = (fs, Err AttributeError).
  Proof.
    intros A P. unfold evaluate_parametrized_circuit. unfold bindM at 1. rewrite circuit_arg_run, A. unfold bindM. destruct p as [n|l0]; cbn in P |- *; [|reflexivity].
    unfold load_array in *. cbn [snd] in P. rewrite P. reflexivity.
  Qed.
  Definition wrote_array (name : string) (l : list X) fs fs' : Prop := only name fs fs' /\ load_array name fs' = (fs', Ok l).
  Lemma save_array_run l name fs : exists fs', save_array l name fs = (fs', Ok tt) /\ wrote_array name l fs fs'.
  Proof. exists (fst (save_document name (Ok (Numbers l)) fs)). split; [reflexivity|]. split; [apply save_only|]. unfold load_array, read. rewrite save_same. reflexivity. Qed.
  (** Fixed parameters first, as everywhere. *)
  Theorem C96_combine n1 n2 fs l1 l2 : array_of fs (Named n1) = Ok l1 -> array_of fs (Named n2) = Ok l2 -> exists fs', combine_params n1 n2 fs = (fs', Ok tt) /\ wrote_array "combined-params.json" (l1 ++ l2) fs fs'.
  Proof.
    intros H1 H2. assert (L : forall n, load_array n fs = (fs, array_of fs (Named n))) by reflexivity. unfold combine_params, bindM. rewrite L, H1. cbn beta iota. rewrite L, H2. apply save_array_run.
  Qed.
  Section Ansatz.
    Context {Sp : Type} (number : Sp -> result Z) (uniform : option Z -> X -> X -> Z -> result (list X)) (make : Sp -> result (ansatz Num X)).
    (** Exactly one of the specification and the number must be given; as many numbers are drawn from the given range as the ansatz has parameters. *)
    Theorem C96_random_params sp n lo hi seed fs : 
      match sp, n with
      | Some s, None => forall k l, number s = Ok k -> uniform seed lo hi k = Ok l -> exists fs', generate_random_ansatz_params number uniform sp n lo hi seed fs = (fs', Ok tt) /\ wrote_array "params.json" l fs fs'
      | None, Some k => forall l, uniform seed lo hi k = Ok l -> exists fs', generate_random_ansatz_params number uniform sp n lo hi seed fs = (fs', Ok tt) /\ wrote_array "params.json" l fs fs'
      | _, _ => generate_random_ansatz_params number uniform sp n lo hi seed fs = (fs, Err AssertionError)
      end.
    Proof.
      destruct sp as [s|], n as [k|]; try reflexivity.
      - intros k l E1 E2. unfold generate_random_ansatz_params, bindM, liftM. rewrite E1, E2. apply save_array_run.
      - intros l E. unfold generate_random_ansatz_params, bindM, liftM. rewrite E. apply save_array_run.
    Qed.
    (** With parameters the executable circuit is saved, without them the parametrized one if the ansatz has one. *)
    Theorem C96_build_ansatz sp params fs a c : make sp = Ok a ->
      match params with
      | Some p => exists l, array_of fs p = Ok l /\ get_executable_circuit a l = Ok c
      | None => supports_parametrized_circuits a = true /\ parametrized_circuit a = Ok c
      end -> valid_circuit c -> writable T (c_ops c) ->
      exists fs', build_ansatz_circuit T make sp params fs = (fs', Ok tt) /\ wrote_circuit "circuit.json" c fs fs'.
    Proof.
      intros E H V W. destruct (C96_save_circuit c "circuit.json" fs V W) as (fs' & S & R). exists fs'. split; [|exact R]. unfold build_ansatz_circuit. unfold bindM at 1. unfold liftM at 1. rewrite E. cbn beta iota. unfold bindM at 1.
      destruct params as [[n|l0]|].
      - destruct H as (l & A & G). cbn in A. unfold bindM, load_array in *. cbn [snd] in A. rewrite A. unfold liftM. rewrite G. exact S.
      - destruct H as (l & [= ->] & G). unfold liftM. rewrite G. exact S.
      - destruct H as (B & G). rewrite B. unfold liftM. rewrite G. exact S.
    Qed.
    Theorem C96_build_ansatz_needs_params sp fs a : make sp = Ok a -> supports_parametrized_circuits a = false -> build_ansatz_circuit T make sp None fs = (fs, Err GenericException).
    Proof. intros E H. unfold build_ansatz_circuit, bindM, liftM. rewrite E, H. reflexivity. Qed.
  End Ansatz.
End Props.

(** ** Examples *)
Local Open Scope string_scope.
Local Open Scope list_scope.
Local Open Scope nat_scope.
Definition gx (q : nat) : operation Z := GateOp (MFG "X" (FBuiltin "x_matrix") [] 1 true) [q].
Definition other_def : custom_def Z := {| cd_name := "U"; cd_matrix := [[ENum 1; ENum 0]; [ENum 0; ENum 1]]%Z; cd_ordering := [] |}.
Definition cust1 : circuit Z := Build_circuit [GateOp (toy_gate [PExpr (ESym "beta")]) [0]] 1.
Definition cust2 : circuit Z := Build_circuit [GateOp (MFG "U" (FCustom other_def) [] 1 false) [2]] 3.
Definition toys : circuit Z := Build_circuit toy_ops 4.
Definition wide : circuit Z := Build_circuit [] 6.
Definition disk0 : files Z := [("result-circuit.json", Doc (JObj [])); ("theta", Numbers [1; 2]%Z)]%string.
Example ex_concatenate : valid_circuit toys /\ valid_circuit wide /\ writable toy (flat_map c_ops [toys; wide]) /\ circuits_of toy disk0 (Given [toys; wide]) = Ok [toys; wide] /\
  match concatenate_circuits toy (Given [toys; wide]) disk0 with (fs, Ok _) => match snd (load_circuit toy "result-circuit.json" fs) with Ok c => c_nq c = 6%Z /\ circuit_eq toy c (concatenated [toys; wide]) = true | Err _ => False end | _ => False end.
Proof.
  split; [exists toy_ops, None; reflexivity|]. split; [exists [], (Some (6 # 1)%Q); reflexivity|]. split; [cbn [flat_map]; rewrite !app_nil_r; exact C09_example_writable|]. split; [reflexivity|]. vm_compute. split; reflexivity.
Qed.
Example ex_clash : valid_circuit cust1 /\ valid_circuit cust2 /\ (exists o1 o2, c_ops cust1 = [o1] /\ c_ops cust2 = [o2] /\ uses_directly o1 toy_def /\ uses_directly o2 other_def) /\ def_eq toy toy_def other_def = false /\
  snd (save_circuit (X := Z) toy cust1 "a" []) = Ok tt /\ snd (save_circuit (X := Z) toy cust2 "a" []) = Ok tt.
Proof.
  split; [exists (c_ops cust1), None; reflexivity|]. split; [exists (c_ops cust2), None; reflexivity|].
  split; [do 2 eexists; split; [reflexivity|]; split; [reflexivity|]; split; do 5 eexists; reflexivity|]. repeat split; vm_compute; reflexivity.
Qed.
Example ex_batch : match batch_circuits (X := Z) toy [Given toys; Given wide] Own ([], [cust1]) with ((fs, own), Ok _) => own = [cust1; toys; wide] /\ match snd (load_circuitset toy "circuit-set.json" fs) with Ok l => map c_nq l = [1; 4; 6]%Z | _ => False end | _ => False end
  /\ batch_circuits (X := Z) toy [Given toys; Named "missing"] Own ([], [cust1]) = (([], [cust1; toys]), Err FileNotFoundError).
Proof. split; vm_compute; [split; reflexivity|reflexivity]. Qed.
(** Repeating the step after an error puts the circuits before the missing one into the batch twice. *)
Theorem C96_retry_refuted : exists (args : list (arg (circuit Z))) own (fs fs' : files Z), let (w, r) := batch_circuits (X := Z) toy args Own (fs, own) in
  r = Err FileNotFoundError /\ snd (batch_circuits toy args Own (fs', own)) = Ok tt /\ snd (batch_circuits toy args Own (fs', snd w)) = Ok tt /\
  snd (fst (batch_circuits toy args Own (fs', snd w))) <> snd (fst (batch_circuits toy args Own (fs', own))).
Proof.
  exists [Given wide; Named "c"%string], [], [], (fst (save_circuit toy wide "c" [])). cbn [batch_circuits]. vm_compute. repeat split; discriminate.
Qed.
Example ex_ancilla : writable toy (c_ops wide ++ map (fun i => GateOp gate_I [(Z.to_nat (c_nq wide) + i)%nat]) (seq 0 2)).
Proof.
  assert (G : forall o, In o (c_ops wide ++ map (fun i => GateOp gate_I [(Z.to_nat (c_nq wide) + i)%nat]) (seq 0 2)) -> exists q, o = GateOp gate_I [q]).
  { intros o H. cbn in H. destruct H as [<-|[<-|[]]]; eexists; reflexivity. }
  split; [|split].
  - intros o H. apply G in H as (q & ->). do 2 eexists. split; [reflexivity|]. split; [exact I|]. left. exists (GateMatModel.Build_builtin "I" "i_matrix" 1 true 0 (GateMatModel.args0 GateMatModel.i_matrix)), [].
    split; [cbn; tauto|]. split; [reflexivity|]. split; [reflexivity|]. constructor.
  - intros o d H (g & qs & n & ps & q & h & -> & C). apply G in H as (q' & [= -> _]). discriminate.
  - intros o1 o2 d1 d2 H _ (g & qs & n & ps & q & h & -> & C). apply G in H as (q' & [= -> _]). discriminate.
Qed.
Example ex_params : snd (generate_random_ansatz_params (X := Z) (fun s : unit => Ok 2%Z) (fun _ lo hi n => Ok (repeat lo (Z.to_nat n))) (Some tt) None 5%Z 7%Z None []) = Ok tt
  /\ fst (combine_params "theta" "theta" disk0) = disk0 ++ [("combined-params.json"%string, Numbers [1; 2; 1; 2]%Z)].
Proof. split; reflexivity. Qed.

Print Assumptions C96_concatenate. Print Assumptions C96_concatenate_clash. Print Assumptions C96_batch. Print Assumptions C96_batch_missing. Print Assumptions C96_build_ansatz.
