(** Model of the structural part of [circuits/]: parameters, gates and their modifiers, operations,
    circuits.  Matrices are in [GateMatModel.v], serialization in [SerdeModel.v]. *)
From Coq Require Import String QArith.
From Verif Require Import Base.
Open Scope list_scope.

Definition sym := string.

(** Parameter expressions (sympy.Expr): numbers, symbols, and n-ary function applications
    (Add, Mul, Pow, sin, ...).  [Num] is the type of numbers.  Sympy's automatic evaluation of
    applications is not built in; it is the argument [simp] of [subs] below. *)
Inductive expr (Num : Type) : Type :=
| ENum (n : Num)
| ESym (s : sym)
| EApp (f : string) (args : list (expr Num)).
Arguments ENum {Num} n.
Arguments ESym {Num} s.
Arguments EApp {Num} f args.

(** Induction principle with the nested argument list. *)
Section ExprInd.
  Context {Num : Type} (P : expr Num -> Prop)
    (Hnum : forall n, P (ENum n)) (Hsym : forall s, P (ESym s))
    (Happ : forall f args, Forall P args -> P (EApp f args)).
  Fixpoint expr_ind' (e : expr Num) : P e :=
    match e with
    | ENum n => Hnum n
    | ESym s => Hsym s
    | EApp f args =>
        Happ f args ((fix go l : Forall P l :=
          match l with [] => Forall_nil P | a :: l' => Forall_cons a (expr_ind' a) (go l') end) args)
    end.
End ExprInd.

(** Gate parameter: Python number or sympy expression (typing.py:12, [Parameter]). *)
Inductive param (Num : Type) : Type :=
| PNum (n : Num)                 (* Python number *)
| PExpr (e : expr Num).          (* sympy.Expr, including sympy.Symbol *)
Arguments PNum {Num} n.
Arguments PExpr {Num} e.

Section Params.
  Context {Num : Type}.

  (** [expr.free_symbols] (as a list with repetitions). *)
  Fixpoint expr_syms (e : expr Num) : list sym :=
    match e with
    | ENum _ => []
    | ESym s => [s]
    | EApp _ args => flat_map expr_syms args
    end.

  (** Substitution of a single symbol. *)
  Fixpoint subst1 (s : sym) (v : expr Num) (e : expr Num) : expr Num :=
    match e with
    | ENum n => ENum n
    | ESym s' => if String.eqb s s' then v else ESym s'
    | EApp f args => EApp f (map (subst1 s v) args)
    end.

  (** A bound value as an expression (sympify). *)
  Definition expr_of_param (p : param Num) : expr Num :=
    match p with PNum n => ENum n | PExpr e => e end.

  Definition symbols_map := list (sym * param Num).

  (** How sympy processes a substitution: [order] is the order in which [Expr.subs(dict)] performs the
      single substitutions (sympy sorts them by complexity), [simp] the automatic simplification of the result;
      [num_is_real] decides whether a number has no imaginary part. *)
  Record sympy_oracle := {
    order : symbols_map -> symbols_map;
    simp : expr Num -> expr Num;
    num_is_real : Num -> bool;
  }.

  Context (O : sympy_oracle).

  (** sympy [Expr.subs(symbols_map)]: sequential substitution. *)
  Definition subs (m : symbols_map) (e : expr Num) : expr Num :=
    fold_left (fun e kv => simp O (subst1 (fst kv) (expr_of_param (snd kv)) e)) (order O m) e.

  (** _operations.py:61-84 [sub_symbols] and its three registered implementations. *)
  Definition sub_symbols (p : param Num) (m : symbols_map) : param Num :=
    match p with
    | PNum n => PNum n                                            (* 66-70 *)
    | PExpr (ESym s) =>                                           (* 80-84 *)
        match dget String.eqb s m with Some v => v | None => PExpr (ESym s) end
    | PExpr e => PExpr (subs m e)                                 (* 73-77 *)
    end.

  Definition param_syms (p : param Num) : list sym :=
    match p with PNum _ => [] | PExpr e => expr_syms e end.

  (** _operations.py:87-94 [get_free_symbols]: sorted list of the set of symbols. *)
  Definition get_free_symbols (ps : list (param Num)) : list sym :=
    sort_by String.leb (uniq String.eqb (flat_map param_syms ps)).
End Params.
Arguments symbols_map Num : clear implicits.
Arguments sympy_oracle Num : clear implicits.

(** [CustomGateDefinition] (_gates.py:376-402); the matrix is a list of rows. *)
Record custom_def (Num : Type) : Type := {
  cd_name : string;
  cd_matrix : list (list (expr Num));
  cd_ordering : list sym;
}.
Arguments cd_name {Num} _.
Arguments cd_matrix {Num} _.
Arguments cd_ordering {Num} _.

(** [matrix_factory]: a built-in factory is identified by the name of the function in _matrices.py. *)
Inductive factory (Num : Type) : Type :=
| FBuiltin (function_name : string)
| FCustom (d : custom_def Num).
Arguments FBuiltin {Num} function_name.
Arguments FCustom {Num} d.

(** Gates: [MatrixFactoryGate] (_gates.py:152-242), [ControlledGate] (248-297), [Dagger] (303-334). *)
Inductive gate (Num : Type) : Type :=
| MFG (name : string) (fac : factory Num) (params : list (param Num)) (nq : Z) (is_hermitian : bool)
| Controlled (wrapped : gate Num) (num_control_qubits : Z)
| Dagger (wrapped : gate Num).
Arguments MFG {Num} name fac params nq is_hermitian.
Arguments Controlled {Num} wrapped num_control_qubits.
Arguments Dagger {Num} wrapped.

Section Gates.
  Context {Num : Type} (O : sympy_oracle Num).
  Open Scope Z_scope.

  (** [ControlledGate.__post_init__] _gates.py:253-257 *)
  Definition mk_controlled (g : gate Num) (k : Z) : result (gate Num) :=
    if k <? 1 then Err ValueError else Ok (Controlled g k).

  (** The [.dagger] properties: _gates.py:206-208, 284-289, 332-334. *)
  Fixpoint dagger (g : gate Num) : result (gate Num) :=
    match g with
    | MFG _ _ _ _ h => Ok (if h then g else Dagger g)
    | Controlled w k => let! w' := dagger w in mk_controlled w' k
    | Dagger w => Ok w
    end.

  (** The [.controlled] methods: _gates.py:203-204, 278-282, 323-324. *)
  Fixpoint controlled (g : gate Num) (k : Z) : result (gate Num) :=
    match g with
    | MFG _ _ _ _ _ => mk_controlled g k
    | Controlled w j => mk_controlled w (j + k)
    | Dagger w => let! c := controlled w k in dagger c
    end.

  (** [num_qubits]: _gates.py:183, 263-265, 315-317. *)
  Fixpoint num_qubits (g : gate Num) : Z :=
    match g with
    | MFG _ _ _ n _ => n
    | Controlled w k => num_qubits w + k
    | Dagger w => num_qubits w
    end.

  (** [params]: _gates.py:182, 274-276, 311-313. *)
  Fixpoint gate_params (g : gate Num) : list (param Num) :=
    match g with
    | MFG _ _ ps _ _ => ps
    | Controlled w _ => gate_params w
    | Dagger w => gate_params w
    end.

  (** [name]: _gates.py:180, 259-261, 319-321. *)
  Definition gate_name (g : gate Num) : string :=
    match g with
    | MFG n _ _ _ _ => n
    | Controlled _ _ => "Control"
    | Dagger _ => "Dagger"
    end.

  (** [replace_params]: _gates.py:200-201, 294-297, 329-330. *)
  Fixpoint replace_params (g : gate Num) (ps : list (param Num)) : result (gate Num) :=
    match g with
    | MFG n f _ q h => Ok (MFG n f ps q h)
    | Controlled w k => let! w' := replace_params w ps in controlled w' k
    | Dagger w => let! w' := replace_params w ps in dagger w'
    end.

  (** [bind]: _gates.py:195-198, 291-292, 326-327. *)
  Fixpoint gate_bind (g : gate Num) (m : symbols_map Num) : result (gate Num) :=
    match g with
    | MFG n f ps q h => Ok (MFG n f (map (fun p => sub_symbols O p m) ps) q h)
    | Controlled w k => let! w' := gate_bind w m in controlled w' k
    | Dagger w => let! w' := gate_bind w m in dagger w'
    end.

  (** [free_symbols]: _gates.py:53-66, 237-240. *)
  Definition gate_free_symbols (g : gate Num) : list sym := get_free_symbols (gate_params g).
End Gates.

(** Operations: [GateOperation] (_gates.py:106-145) and [MultiPhaseOperation]
    (_wavefunction_operations.py:26-87).  Qubit indices are naturals (the code does not check for negative ones). *)
Inductive operation (Num : Type) : Type :=
| GateOp (g : gate Num) (qubits : list nat)
| MultiPhase (params : list (param Num)).
Arguments GateOp {Num} g qubits.
Arguments MultiPhase {Num} params.

Record circuit (Num : Type) : Type := { c_ops : list (operation Num); c_nq : Z }.
Arguments c_ops {Num} _.
Arguments c_nq {Num} _.
Arguments Build_circuit {Num} c_ops c_nq.

(** Right operand of [circuit + other]. *)
Inductive addend (Num : Type) : Type :=
| AddOp (o : operation Num)
| AddCircuit (c : circuit Num).
Arguments AddOp {Num} o.
Arguments AddCircuit {Num} c.

Section Circuits.
  Context {Num : Type} (O : sympy_oracle Num).
  Open Scope Z_scope.

  (** [qubit_indices]: _gates.py:111; _wavefunction_operations.py:43-46 (range(int(log2(len(params))));
      an empty parameter list, for which numpy raises OverflowError, gives no qubits here). *)
  Definition qubit_indices (o : operation Num) : list nat :=
    match o with
    | GateOp _ qs => qs
    | MultiPhase ps => seq 0 (Nat.log2 (length ps))
    end.

  Definition op_params (o : operation Num) : list (param Num) :=
    match o with GateOp g _ => gate_params g | MultiPhase ps => ps end.

  (** [free_symbols] of operations: _gates.py:140-142; _wavefunction_operations.py:74-87. *)
  Definition op_free_symbols (o : operation Num) : list sym := get_free_symbols (op_params o).

  (** [MultiPhaseOperation.__post_init__] _wavefunction_operations.py:37-41 (sympy numbers are real). *)
  Definition mk_multiphase (ps : list (param Num)) : result (operation Num) :=
    if existsb (fun p => match p with PNum n => negb (num_is_real O n) | PExpr _ => false end) ps
    then Err ValueError else Ok (MultiPhase ps).

  (** [replace_params]: _gates.py:120-121; _wavefunction_operations.py:53-56. *)
  Definition op_replace_params (o : operation Num) (ps : list (param Num)) : result (operation Num) :=
    match o with
    | GateOp g qs => let! g' := replace_params g ps in Ok (GateOp g' qs)
    | MultiPhase _ => mk_multiphase ps
    end.

  (** [bind]: _gates.py:117-118; _wavefunction_operations.py:48-51. *)
  Definition op_bind (o : operation Num) (m : symbols_map Num) : result (operation Num) :=
    match o with
    | GateOp g qs => let! g' := gate_bind O g m in Ok (GateOp g' qs)
    | MultiPhase ps => mk_multiphase (map (fun p => sub_symbols O p m) ps)
    end.

  (** Python's [max] of an iterable of integers: ValueError when empty. *)
  Definition py_max (l : list nat) : result nat :=
    match l with [] => Err ValueError | _ => Ok (max_nat l) end.

  (** _circuit.py:15-25 *)
  Definition circuit_size_by_operations (ops : list (operation Num)) : result Z :=
    match ops with
    | [] => Ok 0
    | _ => let! m := py_max (flat_map qubit_indices ops) in Ok (Z.of_nat m + 1)
    end.

  (** Truncation towards zero, Python's [int(x)] for a rational x. *)
  Definition py_int (q : Q) : Z := Z.quot (Qnum q) (Zpos (Qden q)).

  (** [Circuit.__init__] _circuit.py:40-58.  [n] is the optional n_qubits argument. *)
  Definition mk_circuit (ops : list (operation Num)) (n : option Q) : result (circuit Num) :=
    match n with
    | Some q =>
        if Qeq_bool q 0 then
          let! s := circuit_size_by_operations ops in Ok (Build_circuit ops s)
        else
          let c := py_int q in
          if negb (Qeq_bool q (inject_Z c)) then Err ValueError
          else if c <=? 0 then Err ValueError
          else Ok (Build_circuit ops c)
    | None => let! s := circuit_size_by_operations ops in Ok (Build_circuit ops s)
    end.

  Definition mk_circuit_Z (ops : list (operation Num)) (n : Z) : result (circuit Num) :=
    mk_circuit ops (Some (inject_Z n)).

  (** [Circuit.__add__] and the registered implementations, _circuit.py:96-97, 151-170.
      MultiPhaseOperation is not registered, so appending one raises NotImplementedError. *)
  Definition circuit_add (c : circuit Num) (a : addend Num) : result (circuit Num) :=
    match a with
    | AddOp (GateOp g qs) =>
        let! m := py_max qs in
        mk_circuit_Z (c_ops c ++ [GateOp g qs]) (Z.max (c_nq c) (Z.of_nat m + 1))
    | AddOp (MultiPhase _) => Err NotImplementedError
    | AddCircuit c2 => mk_circuit_Z (c_ops c ++ c_ops c2) (Z.max (c_nq c) (c_nq c2))
    end.

  (** [Circuit.bind] _circuit.py:131-141 *)
  Definition circuit_bind (c : circuit Num) (m : symbols_map Num) : result (circuit Num) :=
    let! ops := mapM (fun o => op_bind o m) (c_ops c) in mk_circuit_Z ops (c_nq c).

  (** [Circuit.free_symbols] _circuit.py:72-85 *)
  Definition circuit_free_symbols (c : circuit Num) : list sym :=
    uniq String.eqb (flat_map op_free_symbols (c_ops c)).

  (** itertools.groupby with a boolean key. *)
  Fixpoint groupby {A} (p : A -> bool) (l : list A) : list (bool * list A) :=
    match l with
    | [] => []
    | a :: l' =>
        match groupby p l' with
        | (b, g) :: rest => if Bool.eqb (p a) b then (b, a :: g) :: rest else (p a, [a]) :: (b, g) :: rest
        | [] => [(p a, [a])]
        end
    end.

  (** [split_circuit] _circuit.py:173-192 *)
  Definition split_circuit (c : circuit Num) (p : operation Num -> bool) : result (list (bool * circuit Num)) :=
    mapM (fun bg => let! c' := mk_circuit_Z (snd bg) (c_nq c) in Ok (fst bg, c')) (groupby p (c_ops c)).

  (** ** _generators.py *)

  (** [for ...: circuit += op], _generators.py:63-68, 83-85 *)
  Definition append_all (c : circuit Num) (ops : list (operation Num)) : result (circuit Num) :=
    foldM (fun c o => circuit_add c (AddOp o)) ops c.

  (** [apply_gate_to_qubits] _generators.py:37-70.  [set_order l] is the order in which Python iterates over
      [set(l)]; [gf ps] builds the gate from parameters.  The warning on duplicates is not modelled. *)
  Definition apply_gate_to_qubits (set_order : list nat -> list nat) (c : circuit Num) (qs : list nat)
      (gf : list (param Num) -> gate Num) (parameters : option (list (list (param Num)))) : result (circuit Num) :=
    let u := set_order qs in
    match parameters with
    | Some ps =>
        if negb (Nat.eqb (length ps) (length u)) then Err AssertionError
        else append_all c (map (fun qp => GateOp (gf (snd qp)) [fst qp]) (combine u ps))
    | None => append_all c (map (fun q => GateOp (gf []) [q]) u)
    end.

  (** [create_layer_of_gates] _generators.py:14-34 *)
  Definition create_layer_of_gates (set_order : list nat -> list nat) (n : nat)
      (gf : list (param Num) -> gate Num) (parameters : option (list (list (param Num)))) : result (circuit Num) :=
    let! c0 := mk_circuit [] None in
    apply_gate_to_qubits set_order c0 (seq 0 n) gf parameters.

  (** The built-in identity gate, _builtin_gates.py:39-41 *)
  Definition gate_I : gate Num := MFG "I" (FBuiltin "i_matrix") [] 1 true.

  (** [add_ancilla_register] _generators.py:73-86 *)
  Definition add_ancilla_register (c : circuit Num) (n : nat) : result (circuit Num) :=
    append_all c (map (fun i => GateOp gate_I [(Z.to_nat (c_nq c) + i)%nat]) (seq 0 n)).
End Circuits.
