(** Which values survive encoding and decoding, and as what. *)
From Coq Require Import List ZArith QArith String Bool.
From Verif Require Import Base UtilsModel DistModel DistSpec EncModel.
Import ListNotations.
Open Scope nat_scope.
Open Scope string_scope.
Open Scope list_scope.

(** Tuples become lists, other namedtuples dictionaries; the precision of an estimate becomes a Python number. *)
Fixpoint as_loaded (v : pv) : pv :=
  match v with
  | VList l | VTuple l => VList (map as_loaded l)
  | VDict d | VNamed d => VDict (map (fun kv => (fst kv, as_loaded (snd kv))) d)
  | VOptResult d => VOptResult (map (fun kv => (fst kv, as_loaded (snd kv))) d)
  | VEntry n p x a => VEntry (as_loaded n) (as_loaded p) (as_loaded x) (option_map as_loaded a)
  | VEst e => VEst {| ve_value := ve_value e; ve_precision := option_map (fun p => PyFloat (pyval p)) (ve_precision e) |}
  | _ => v
  end.
Definition is_number (v : pv) : Prop := match v with VNum _ | VBool _ | VEst _ => True | _ => False end.
Definition lacks (k : string) (d : list (string * pv)) : Prop := forall v, ~ In (k, v) d.
(** A dictionary that is not mistaken for something else: no key "real", not both "call_number" and "value", not a non-empty dictionary of
    numbers, no "schema" of an estimate or a result (or that cannot be hashed) *)
Definition plain_dict (d : list (string * pv)) : Prop :=
  lacks "real" d /\ (lacks "call_number" d \/ lacks "value" d) /\ (d = [] \/ exists k v, In (k, v) d /\ ~ is_number v) /\
  forall v, In ("schema", v) d -> match v with VStr s => s <> "zapata-v1-value_estimate" /\ s <> "zapata-v1-optimization_result" | VNone | VBool _ | VNum _ => True | _ => False end.
(** shapes that can be read off nested lists: nothing follows a dimension of size 0 *)
Definition shape_kept (sh : list nat) : Prop := forall a b, sh = a ++ 0 :: b -> b = [].
Inductive faithful : pv -> Prop :=
| f_none : faithful VNone
| f_bool b : faithful (VBool b)
| f_num q : faithful (VNum q)
| f_str s : faithful (VStr s)
| f_list l : Forall faithful l -> faithful (VList l)
| f_tuple l : Forall faithful l -> faithful (VTuple l)
| f_dict d : Forall (fun kv => faithful (snd kv)) d -> plain_dict d -> NoDup (map fst d) -> faithful (VDict d)
| f_named d : Forall (fun kv => faithful (snd kv)) d -> plain_dict d -> NoDup (map fst d) -> faithful (VNamed d)
| f_result d : Forall (fun kv => faithful (snd kv)) d -> lacks "real" d -> (lacks "call_number" d \/ lacks "value" d) -> lacks "schema" d -> NoDup (map fst d) -> faithful (VOptResult d)
| f_entry n p x : faithful n -> faithful p -> faithful x -> faithful (VEntry n p x None)
| f_entry_artifacts n p x a : faithful n -> faithful p -> faithful x -> faithful a -> faithful (VEntry n p x (Some a))
| f_estimate e : faithful (VEst e)
(** distributions of several variables, or of one with values up to 9 *)
| f_dist d : proper_dist d -> (forall k v, In (k, v) d -> length k <> 1 \/ forall z, In z k -> (z <= 9)%Z) -> faithful (VDist d)
| f_array sh re : length re = prod_nat sh -> shape_kept sh -> faithful (VArr sh re None)
| f_complex sh re im : length re = prod_nat sh -> length im = prod_nat sh -> shape_kept sh -> faithful (VArr sh re (Some im)).
(** Values without tuples, other namedtuples and numpy numbers as precision *)
Inductive untupled : pv -> Prop :=
| u_atom v : match v with VNone | VBool _ | VNum _ | VStr _ | VDist _ | VArr _ _ _ => True | _ => False end -> untupled v
| u_list l : Forall untupled l -> untupled (VList l)
| u_dict d : Forall (fun kv => untupled (snd kv)) d -> untupled (VDict d)
| u_result d : Forall (fun kv => untupled (snd kv)) d -> untupled (VOptResult d)
| u_entry n p x : untupled n -> untupled p -> untupled x -> untupled (VEntry n p x None)
| u_entry_artifacts n p x a : untupled n -> untupled p -> untupled x -> untupled a -> untupled (VEntry n p x (Some a))
| u_estimate x p : match p with Some (NpFloat _) => False | _ => True end -> untupled (VEst {| ve_value := x; ve_precision := p |}).
(** Values built from what the encoder knows *)
Inductive encodable : pv -> Prop :=
| e_atom v : match v with VNone | VBool _ | VNum _ | VStr _ | VDist _ | VArr _ _ _ | VEst _ => True | _ => False end -> encodable v
| e_list l : Forall encodable l -> encodable (VList l)
| e_tuple l : Forall encodable l -> encodable (VTuple l)
| e_dict d : Forall (fun kv => encodable (snd kv)) d -> encodable (VDict d)
| e_named d : Forall (fun kv => encodable (snd kv)) d -> encodable (VNamed d)
| e_result d : Forall (fun kv => encodable (snd kv)) d -> encodable (VOptResult d)
| e_entry n p x : encodable n -> encodable p -> encodable x -> encodable (VEntry n p x None)
| e_entry_artifacts n p x a : encodable n -> encodable p -> encodable x -> encodable a -> encodable (VEntry n p x (Some a)).
(** Values that contain, at any depth, an object the encoder does not know *)
Inductive has_unknown : pv -> Prop :=
| h_other : has_unknown VOther
| h_list l v : In v l -> has_unknown v -> has_unknown (VList l)
| h_tuple l v : In v l -> has_unknown v -> has_unknown (VTuple l)
| h_dict d k v : In (k, v) d -> has_unknown v -> has_unknown (VDict d)
| h_named d k v : In (k, v) d -> has_unknown v -> has_unknown (VNamed d)
| h_result d k v : In (k, v) d -> k <> "schema" -> has_unknown v -> has_unknown (VOptResult d)
| h_entry n p x a v : v = n \/ v = p \/ v = x \/ Some v = a -> has_unknown v -> has_unknown (VEntry n p x a).
