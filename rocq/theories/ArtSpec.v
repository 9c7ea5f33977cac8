(** What is expected of files in which results are kept. *)
From Coq Require Import String.
From Verif Require Import Base Json CostModel ArtModel.
Open Scope list_scope.

Section Spec.
  Context {K : Type}.
  Implicit Types fs : files K.
  (** only the file [name] may differ *)
  Definition only (name : string) fs fs' : Prop := forall n, n <> name -> dget String.eqb n fs' = dget String.eqb n fs.
  (** Ways to refer to the file [name] when loading: a string, or an open file with its text; with [any], also bytes or a path object. *)
  Inductive refers (any : bool) fs (name : string) : source K -> Prop :=
  | by_string : refers any fs name (At (Str name))
  | by_path : any = true -> refers any fs name (At (PathLike name))
  | by_stream c : dget String.eqb name fs = Some c -> refers any fs name (Stream c).
  (** Saving succeeds in any state of the files, changes the named file only, and loading what it holds then gives an object that is [good], and changes nothing. *)
  Definition kept_in_file {A} (any : bool) (save : path -> M (files K) unit) (ld : source K -> M (files K) A) (good : A -> Prop) : Prop :=
    forall p fs, exists fs', save p fs = (fs', Ok tt) /\ only (name_of p) fs fs' /\
      exists x, good x /\ forall src, refers any fs' (name_of p) src -> ld src fs' = (fs', Ok x).
  (** The Python object that json reads *)
  Fixpoint object_of (j : json K) : pyobj K :=
    match j with
    | JNull => PNone | JBool b => PBool b | JNum x => PNum x | JStr s => PStr s
    | JArr l => PList (map object_of l)
    | JObj d => PDict (map (fun kv => (fst kv, object_of (snd kv))) d)
    end.
End Spec.
