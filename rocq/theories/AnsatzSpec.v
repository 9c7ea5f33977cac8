(** Specification of ansatz objects: what a property is worth, and code that leaves the properties alone. *)
From Coq Require Import List ZArith String Bool.
From Verif Require Import Base CostModel CircuitModel AnsatzModel.
Import ListNotations.
Open Scope list_scope.

Section Spec.
  Context {V Num Circ : Type}.
  Notation at_ := (attrs V Circ).
  Notation ac := (action V Num Circ).
  (** The value of a declared property: the stored one, or the default. *)
  Definition worth (d : at_) (p : string * V) : slot V Circ :=
    match getattr (attrname (fst p)) d with Some v => v | None => SVal (snd p) end.
  (** Code that changes neither a declared property nor the cached circuit *)
  Definition unchanged (decls : list (string * V)) (d d' : at_) : Prop :=
    map (worth d') decls = map (worth d) decls /\ getattr cache d' = getattr cache d.
  Definition harmless {A} (decls : list (string * V)) (m : M at_ A) : Prop := forall d, unchanged decls d (fst (m d)).
  (** A circuit that is a function of the declared properties *)
  Definition determined {A} (decls : list (string * V)) (m : M at_ A) : Prop :=
    forall d d', map (worth d) decls = map (worth d') decls -> snd (m d) = snd (m d').
  (** What users may do: assign and read declared properties; call invalidating setters and methods, which do not change anything if
      they raise; run code that does not change properties; ask for circuits. *)
  Definition allowed (decls : list (string * V)) (a : ac) : Prop :=
    match a with
    | ASet n v => True
    | AGet n v => In (n, v) decls
    | AInvalidating b => forall d e, snd (b d) = Err e -> unchanged decls d (fst (b d))
    | AOther b => harmless decls b
    | ACircuit | AParams | AExecute _ => True
    end.
  (** Actions that do not invalidate *)
  Definition only_reads (decls : list (string * V)) (a : ac) : Prop :=
    match a with ASet _ _ | AInvalidating _ => False | _ => allowed decls a end.
  (** The last value assigned to a property in a list of assignments and reads *)
  Fixpoint last_assigned (n : string) (l : list ac) (v : V) : V :=
    match l with
    | [] => v
    | ASet m w :: l' => last_assigned n l' (if String.eqb m n then w else v)
    | _ :: l' => last_assigned n l' v
    end.
End Spec.

(** The circuit of the mock ansatz: for every layer, RX by the parameter of the layer on every qubit *)
Definition rx_layers {Num} (ps : list (param Num)) (n : nat) : list (operation Num) :=
  flat_map (fun p => map (fun q => GateOp (MFG "RX"%string (FBuiltin "rx_matrix"%string) [p] 1%Z false) [q]) (seq 0 n)) ps.
