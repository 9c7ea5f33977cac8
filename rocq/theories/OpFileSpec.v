(** What files of operators are for. *)
From Coq Require Import String Ascii ZArith Permutation.
From Verif Require Import Base MatModel OpModel OpSpec OpTextModel OpTextSpec OpFileModel.
Open Scope list_scope.

(** The name of the file: ".data" is put at the end, unless it is there. *)
Inductive data_name : string -> string -> Prop :=
| dn_with n : data_name (n ++ ".data")%string (n ++ ".data")%string
| dn_without n : (forall m, n <> (m ++ ".data")%string) -> data_name n (n ++ ".data")%string.
(** The path: the directory, a slash and the name. *)
Definition at_path (default_directory : string) (name : string) (directory : option string) (path : string) : Prop :=
  name <> ""%string /\ exists n, data_name name n /\ path = ((match directory with Some d => d | None => default_directory end) ++ "/" ++ n)%string.

Section Spec.
  Context {K : cring} (im : K) (small symbolic : K -> bool) (float_of complex_of : text -> option K) (show : K -> text).
  (** An operator with numbers as coefficients and simplified terms, each of which it has once. *)
  Definition tidy_terms {A} (simplify : term A -> K -> K * term A) (cls : op_class A) (a : sop A K) : Prop :=
    wf_op a /\ forall t c, In (t, c) a -> symbolic c = false /\ simplified simplify t /\ forall f, In f t -> In (snd f) (actions cls).
  Definition tidy (o : operator) : Prop :=
    match o with
    | Fermi a => tidy_terms fermion_simplify fermion_class a
    | Qubit a => tidy_terms (qubit_simplify im) qubit_class a
    | _ => False
    end.
  (** Its coefficients, as they are printed, can be read again. *)
  Definition printable_terms {A} (a : sop A K) : Prop :=
    (exists t c, In (t, c) a /\ small c = false) /\ forall t c, In (t, c) a -> small c = false -> printed_exactly float_of complex_of show c /\ ~ In ":"%char (show c).
  Definition printable (o : operator) : Prop := match o with Fermi a => printable_terms a | Qubit a => printable_terms a | _ => False end.
  (** The same operator, without the terms of small coefficients. *)
  Definition all_but_small (o o' : operator) : Prop :=
    match o, o' with
    | Fermi a, Fermi b => Permutation b (filter (fun tc => negb (small (snd tc))) a)
    | Qubit a, Qubit b => Permutation b (filter (fun tc => negb (small (snd tc))) a)
    | _, _ => False
    end.
  (** Only one file differs. *)
  Definition only (path : string) (fs fs' : files (K := K)) : Prop := forall p, p <> path -> dget String.eqb p fs' = dget String.eqb p fs.
End Spec.
