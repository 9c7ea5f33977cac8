(** Independent vocabulary for the properties of circuits (C01-C04, C11). *)
From Coq Require Import String QArith.
From Verif Require Import Base CircuitModel.
Open Scope list_scope.

Section Spec.
  Context {Num : Type} (O : sympy_oracle Num).
  Open Scope Z_scope.

  (** Circuits a user can build with the constructor. *)
  Definition valid_circuit (c : circuit Num) : Prop := exists ops n, mk_circuit ops n = Ok c.

  (** All operations act inside the circuit. *)
  Definition fits (c : circuit Num) : Prop :=
    forall o q, In o (c_ops c) -> In q (qubit_indices o) -> Z.of_nat q < c_nq c.

  (** Number of qubits spanned by a list of indices: least n with every index < n. *)
  Definition least_bound (l : list nat) (n : Z) : Prop :=
    0 <= n /\ (forall q, In q l -> Z.of_nat q < n) /\
    (forall m, 0 <= m -> (forall q, In q l -> Z.of_nat q < m) -> n <= m).

  (** Modifiers that can be applied to a gate. *)
  Inductive modifier := MDagger | MControlled (k : Z).
  Definition apply_modifier (g : gate Num) (m : modifier) : result (gate Num) :=
    match m with MDagger => dagger g | MControlled k => controlled g k end.
  Definition apply_modifiers (g : gate Num) (ms : list modifier) : result (gate Num) :=
    foldM apply_modifier ms g.

  (** Plain gates: as produced by the built-in and custom gate factories. *)
  Definition plain (g : gate Num) : Prop := match g with MFG _ _ _ _ _ => True | _ => False end.
  Definition hermitian_flag (g : gate Num) : bool := match g with MFG _ _ _ _ h => h | _ => false end.

  (** Gates a user can build from plain ones by modifiers, binding and parameter replacement. *)
  Inductive api_gate : gate Num -> Prop :=
  | api_plain g : plain g -> api_gate g
  | api_dagger g g' : api_gate g -> dagger g = Ok g' -> api_gate g'
  | api_controlled g g' k : api_gate g -> controlled g k = Ok g' -> api_gate g'
  | api_bind g g' m : api_gate g -> gate_bind O g m = Ok g' -> api_gate g'
  | api_replace g g' ps : api_gate g -> replace_params g ps = Ok g' -> api_gate g'.

  Definition api_op (o : operation Num) : Prop :=
    match o with GateOp g _ => api_gate g | MultiPhase ps => mk_multiphase O ps = Ok (MultiPhase ps) end.

  (** The normal form with [d] = "is inverted" and [k] control qubits. *)
  Definition normal_form (g : gate Num) (d : bool) (k : Z) : gate Num :=
    let w := if d then Dagger g else g in if k =? 0 then w else Controlled w k.

  (** What a sequence of modifiers amounts to: inversion flips unless the gate is its own inverse, control
      counts add up and must stay at least 1. *)
  Fixpoint modifiers_effect (herm : bool) (ms : list modifier) (d : bool) (k : Z) : result (bool * Z) :=
    match ms with
    | [] => Ok (d, k)
    | MDagger :: ms' => modifiers_effect herm ms' (if herm then d else negb d) k
    | MControlled j :: ms' => if k + j <? 1 then Err ValueError else modifiers_effect herm ms' d (k + j)
    end.

  (** Same gate up to parameters. *)
  Fixpoint gate_skeleton (g : gate Num) : gate Num :=
    match g with
    | MFG n f _ q h => MFG n f [] q h
    | Controlled w k => Controlled (gate_skeleton w) k
    | Dagger w => Dagger (gate_skeleton w)
    end.
  Definition op_skeleton (o : operation Num) : operation Num :=
    match o with GateOp g qs => GateOp (gate_skeleton g) qs | MultiPhase _ => MultiPhase [] end.

  (** Value of an expression under an assignment. *)
  Record interp (V : Type) := { i_num : Num -> V; i_fun : string -> list V -> V }.
  Fixpoint eval {V} (I : interp V) (rho : sym -> V) (e : expr Num) : V :=
    match e with
    | ENum n => i_num _ I n
    | ESym s => rho s
    | EApp f args => i_fun _ I f (map (eval I rho) args)
    end.
  Definition eval_param {V} (I : interp V) rho (p : param Num) : V :=
    match p with PNum n => i_num _ I n | PExpr e => eval I rho e end.

  (** Assignment overridden by a symbol map. *)
  Definition override {V} (I : interp V) (m : symbols_map Num) (rho : sym -> V) : sym -> V :=
    fun s => match dget String.eqb s m with Some v => eval_param I rho v | None => rho s end.

  (** A Python dict binding symbols to numbers. *)
  Definition number_map (m : symbols_map Num) : Prop :=
    NoDup (map fst m) /\ Forall (fun kv => exists n, snd kv = PNum n) m.

  (** What is assumed of sympy. *)
  Definition sympy_order_ok : Prop := forall m kv, In kv (order O m) <-> In kv m.
  Definition sympy_simp_no_new_symbols : Prop := forall e, incl (expr_syms (simp O e)) (expr_syms e).
  Definition sympy_simp_same_symbols : Prop := forall e s, In s (expr_syms (simp O e)) <-> In s (expr_syms e).
  Definition sympy_simp_sound {V} (I : interp V) : Prop := forall rho e, eval I rho (simp O e) = eval I rho e.

  Definition occurs_in_circuit (s : sym) (c : circuit Num) : Prop :=
    exists o p, In o (c_ops c) /\ In p (op_params o) /\ In s (param_syms p).
End Spec.
