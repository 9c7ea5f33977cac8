(** Model of serialization.py: the JSON encoder and decoder for results of computations. *)
From Coq Require Import List ZArith QArith String Bool.
From Verif Require Import Base Json UtilsModel DistModel.
Import ListNotations.
Open Scope nat_scope.
Open Scope string_scope.
Open Scope list_scope.

(** Python values that occur in results. Dictionaries have string keys; integers and floats are not distinguished.
    [VNamed]: a namedtuple other than the two kinds of history entries. [VArr]: numpy arrays with their shape, real and (for complex arrays)
    imaginary parts in row-major order. [VOther]: any other object, e.g. a numpy integer or a circuit. *)
Inductive pv :=
| VNone | VBool (b : bool) | VNum (q : Q) | VStr (s : string)
| VList (l : list pv) | VTuple (l : list pv) | VDict (d : list (string * pv))
| VOptResult (d : list (string * pv)) | VNamed (fields : list (string * pv))
| VEntry (call_number params value : pv) (artifacts : option pv)
| VEst (e : value_estimate (K := Q)) | VDist (d : dist)
| VArr (shape : list nat) (re : list Q) (im : option (list Q)) | VOther.

(** utils.py SCHEMA_VERSION = "zapata-v1", with the suffixes of utils.py:287 and serialization.py:45 *)
Definition ve_schema : string := "zapata-v1-value_estimate".
Definition opt_schema : string := "zapata-v1-optimization_result".

(** utils.py:284-298 [ValueEstimate.to_dict] *)
Definition ve_dict (e : value_estimate (K := Q)) : list (string * pv) :=
  [("schema", VStr ve_schema); ("value", VNum (ve_value e)); ("precision", match ve_precision e with None => VNone | Some p => VNum (pyval p) end)].
(** _asdict of the namedtuples history/recorder.py:41-55 *)
Definition entry_dict (call_number params value : pv) (artifacts : option pv) : list (string * pv) :=
  [("call_number", call_number); ("params", params); ("value", value)] ++ match artifacts with Some a => [("artifacts", a)] | None => [] end.
(** serialization.py:35-57 [preprocess] *)
Fixpoint preprocess_tree (v : pv) : pv :=
  match v with
  | VDict d => VDict (map (fun kv => (fst kv, preprocess_tree (snd kv))) d)
  | VOptResult d => VDict (dset String.eqb "schema" (VStr opt_schema) (map (fun kv => (fst kv, preprocess_tree (snd kv))) d))
  | VNamed d => VDict (map (fun kv => (fst kv, preprocess_tree (snd kv))) d)
  | VEntry n p x a => VDict (entry_dict (preprocess_tree n) (preprocess_tree p) (preprocess_tree x) (option_map preprocess_tree a))
  | VEst e => VDict (ve_dict e)
  | VList l | VTuple l => VList (map preprocess_tree l)
  | VDist d => VDict (map (fun kv => (fst kv, VNum (snd kv))) (comma_keys d))
  | _ => v
  end.

(** ndarray.tolist *)
Fixpoint nested (shape : list nat) (data : list Q) : json Q :=
  match shape with
  | [] => match data with x :: _ => JNum x | [] => JNull end
  | n :: shape' => JArr (map (nested shape') (pieces n (prod_nat shape') data))
  end.
(** utils.py:43-60 [convert_array_to_dict] *)
Definition array_dict (shape : list nat) (re : list Q) (im : option (list Q)) : jdict Q :=
  ("real", nested shape re) :: match im with Some i => [("imag", nested shape i)] | None => [] end.
(** What json.JSONEncoder does with the preprocessed value; 67-70 [default] is called for objects json does not know, and returns unknown
    objects as they are, which json reports as a circular reference (ValueError). *)
Fixpoint to_json (v : pv) : result (json Q) :=
  let fix list_to_json l := match l with [] => Ok [] | x :: l' => let! j := to_json x in let! js := list_to_json l' in Ok (j :: js) end in
  let fix dict_to_json d := match d with [] => Ok [] | (k, x) :: d' => let! j := to_json x in let! js := dict_to_json d' in Ok ((k, j) :: js) end in
  match v with
  | VNone => Ok JNull
  | VBool b => Ok (JBool b)
  | VNum q => Ok (JNum q)
  | VStr s => Ok (JStr s)
  | VList l | VTuple l => let! js := list_to_json l in Ok (JArr js)
  | VDict d | VOptResult d => let! js := dict_to_json d in Ok (JObj js)
  | VNamed d => let! js := dict_to_json d in Ok (JArr (map snd js))
  | VEntry n p x a =>
      let! jn := to_json n in let! jp := to_json p in let! jx := to_json x in
      match a with None => Ok (JArr [jn; jp; jx]) | Some a => let! ja := to_json a in Ok (JArr [jn; jp; jx; ja]) end
  | VEst e => Ok (JNum (ve_value e))
  | VDist d => Err TypeError
  | VArr sh re im => Ok (JObj (array_dict sh re im))
  | VOther => Err ValueError
  end.
(** json.dump with 75-76 [OrquestraEncoder.iterencode] *)
Definition dump (v : pv) : result (json Q) := to_json (preprocess_tree v).
(** json.dumps with 72-73 [OrquestraEncoder.encode]: json's encode calls [iterencode] (except for strings, which are not changed), so the
    value is preprocessed twice *)
Definition dumps (v : pv) : result (json Q) := to_json (preprocess_tree (preprocess_tree v)).

(** ** Decoding *)
(** np.array of a nest of lists of numbers: shape and entries *)
Fixpoint infer (v : pv) : list nat :=
  match v with VList [] => [0] | VList (x :: l) => S (length l) :: infer x | _ => [] end.
Fixpoint flat (shape : list nat) (v : pv) : option (list Q) :=
  match shape with
  | [] => match v with VNum x => Some [x] | _ => None end
  | n :: shape' =>
      match v with
      | VList l => if Nat.eqb (length l) n then
                     (fix go l := match l with [] => Some [] | x :: l' => match flat shape' x, go l' with Some a, Some b => Some (a ++ b) | _, _ => None end end) l
                   else None
      | _ => None
      end
  end.
Definition numeric_array (v : pv) : option (list nat * list Q) := match flat (infer v) v with Some l => Some (infer v, l) | None => None end.
(** 96-100. An array that is not numeric is [VOther]; adding an imaginary part to it, or one of another shape, is an error.
    Simplification: for finite numbers adding 1j times an array sets the imaginary parts. *)
Definition decode_array (re : pv) (im : option pv) : result pv :=
  match im with
  | None => match numeric_array re with Some (sh, l) => Ok (VArr sh l None) | None => Ok VOther end
  | Some im =>
      match numeric_array re, numeric_array im with
      | Some (sh, l), Some (sh', l') => if list_eqb Nat.eqb sh sh' then Ok (VArr sh l (Some l')) else Err ValueError
      | _, _ => Err TypeError
      end
  end.
(** 101-103: the class is called with the dictionary as keyword arguments, which must be its fields *)
Definition decode_entry (d : list (string * pv)) : result pv :=
  match dget String.eqb "call_number" d, dget String.eqb "params" d, dget String.eqb "value" d, dget String.eqb "artifacts" d with
  | Some n, Some p, Some x, None => if Nat.eqb (length d) 3 then Ok (VEntry n p x None) else Err TypeError
  | Some n, Some p, Some x, Some a => if Nat.eqb (length d) 4 then Ok (VEntry n p x (Some a)) else Err TypeError
  | _, _, _, _ => Err TypeError
  end.
(** 31-32 [has_numerical_values]: bool and ValueEstimate (a subclass of float) are Numbers *)
Definition number_of (v : pv) : option Q :=
  match v with VNum q => Some q | VBool b => Some (if b then 1 else 0)%Q | VEst e => Some (ve_value e) | _ => None end.
Fixpoint numerical_values (d : list (string * pv)) : option (list (key * Q)) :=
  match d with
  | [] => Some []
  | (k, v) :: d' => match number_of v, numerical_values d' with Some q, Some l => Some ((KStr k, q) :: l) | _, _ => None end
  end.
(** utils.py:300-309 [ValueEstimate.from_dict]: float(value). Strings that spell numbers, and precisions that are not numbers, are not modelled. *)
Definition decode_estimate (d : list (string * pv)) : result pv :=
  match dget String.eqb "value" d with
  | None => Err KeyError
  | Some v =>
      match number_of v with
      | None => match v with VStr _ => Err ValueError | _ => Err TypeError end
      | Some x =>
          match dget String.eqb "precision" d with
          | None | Some VNone => Ok (VEst {| ve_value := x; ve_precision := None |})
          | Some (VNum p) => Ok (VEst {| ve_value := x; ve_precision := Some (PyFloat p) |})
          | Some _ => Err TypeError
          end
      end
  end.
(** obj.pop("schema") *)
Definition without (k : string) (d : list (string * pv)) : list (string * pv) := filter (fun kv => negb (String.eqb (fst kv) k)) d.
(** 82-85, 108-111: unhashable values of "schema" raise *)
Definition decode_schema (d : list (string * pv)) : result pv :=
  match dget String.eqb "schema" d with
  | None => Ok (VDict d)
  | Some (VStr s) =>
      if String.eqb s ve_schema then decode_estimate (without "schema" d)
      else if String.eqb s opt_schema then Ok (VOptResult (without "schema" d))
      else Ok (VDict d)
  | Some VNone | Some (VBool _) | Some (VNum _) => Ok (VDict d)
  | Some _ => Err TypeError
  end.
Definition has (k : string) (d : list (string * pv)) : bool := match dget String.eqb k d with Some _ => true | None => false end.
(** 90-111 [object_hook] *)
Definition object_hook (d : list (string * pv)) : result pv :=
  match dget String.eqb "real" d with
  | Some re => decode_array re (dget String.eqb "imag" d)
  | None =>
      if has "call_number" d && has "value" d then decode_entry d
      else match numerical_values d with
           | None => decode_schema d
           | Some input =>
               let! pre := preprocess input in
               if is_measurement_outcome_distribution pre then let! x := mk_dist input false in Ok (VDist x) else decode_schema d
           end
  end.
(** json.loads with this hook: it is applied to every object, inner ones first; of equal keys the last one counts *)
Fixpoint decode (j : json Q) : result pv :=
  let fix decode_list l := match l with [] => Ok [] | x :: l' => let! v := decode x in let! vs := decode_list l' in Ok (v :: vs) end in
  let fix decode_dict d := match d with [] => Ok [] | (k, x) :: d' => let! v := decode x in let! vs := decode_dict d' in Ok ((k, v) :: vs) end in
  match j with
  | JNull => Ok VNone
  | JBool b => Ok (VBool b)
  | JNum q => Ok (VNum q)
  | JStr s => Ok (VStr s)
  | JArr l => let! vs := decode_list l in Ok (VList vs)
  | JObj d => let! vs := decode_dict d in object_hook (dict_of String.eqb vs)
  end.

(** 114-117 [save_optimization_results]: the dictionary afterwards, and what is written *)
Definition save_optimization_results (d : list (string * pv)) : list (string * pv) * result (json Q) :=
  let d' := dset String.eqb "schema" (VStr opt_schema) d in (d', dump (VDict d')).
(** 120-122 *)
Definition load_optimization_results (j : json Q) : result pv := decode j.
