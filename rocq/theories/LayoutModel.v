(** Model of circuits/layouts.py. *)
From Coq Require Import String ZArith.
From Verif Require Import Base Json.
Open Scope list_scope.
Local Open Scope nat_scope.

(** Python's range(a, b, 2) *)
Definition range2 (a b : nat) : list nat := map (fun k => a + 2 * k) (seq 0 ((b - a + 1) / 2)).

(** groups of qubits are pairs here; [CircuitConnectivity] and [CircuitLayers] (18-33, 98-117) hold them as lists *)
Definition edge := (nat * nat)%type.

(** 251-268 *)
Definition nearest_neighbors (n_qubits : nat) : list edge * list (list edge) :=
  let even_layer := map (fun i => (i, i + 1)) (range2 0 (n_qubits - 1)) in
  let odd_layer := map (fun i => (i, i + 1)) (range2 1 (n_qubits - 1)) in
  (even_layer ++ odd_layer, [even_layer; odd_layer]).

(** two-dimensional numpy arrays: entries as a function of row and column *)
Definition array2 := nat -> nat -> Z.
Definition aset (A : array2) (i j : nat) (v : Z) : array2 :=
  fun i' j' => if Nat.eqb i i' && Nat.eqb j j' then v else A i' j'.
Definition mod2 (n : nat) : Z := Z.of_nat (n mod 2).

(** State of the inner loop 194-215 *)
Record row_state := { rs_up : list edge; rs_down : list edge; rs_px : nat; rs_pattern : array2 }.
(** 194-215: one iteration *)
Definition row_step (x_dimension y_dimension m y_index py_index : nat) (s : row_state) (x_index : nat) : row_state :=
  let node := y_index * x_dimension + x_index in
  let v := mod2 (x_index + m) in
  let v1 := mod2 (x_index + m + 1) in
  let px := rs_px s in
  if Nat.eqb x_index (x_dimension - 1) then
    let up := rs_up s ++ [(node, node - x_dimension)] in
    let p := aset (rs_pattern s) py_index px v in
    let '(down, p) :=
      if y_index <? y_dimension - 1 then
        (rs_down s ++ [(node, node + x_dimension)], aset p (py_index + 1) px v1)
      else (rs_down s, p) in
    {| rs_up := up; rs_down := down; rs_px := px + 1; rs_pattern := p |}
  else
    let up := rs_up s ++ [(node, node - x_dimension); (node, node - x_dimension + 1)] in
    let p := aset (aset (rs_pattern s) py_index px v) py_index (px + 1) v in
    let '(down, p) :=
      if y_index <? y_dimension - 1 then
        (rs_down s ++ [(node, node + x_dimension); (node, node + x_dimension + 1)],
         aset (aset p (py_index + 1) px v1) (py_index + 1) (px + 1) v1)
      else (rs_down s, p) in
    {| rs_up := up; rs_down := down; rs_px := px + 2; rs_pattern := p |}.
(** 189-219: the loop over odd rows; state: connectivity, pattern1, py_index *)
Definition rows_step (x_dimension y_dimension : nat) (s : list (list edge) * array2 * nat) (my : nat * nat) : list (list edge) * array2 * nat :=
  let '(connectivity, pattern1, py_index) := s in
  let r := fold_left (row_step x_dimension y_dimension (fst my) (snd my) py_index) (seq 0 x_dimension)
             {| rs_up := []; rs_down := []; rs_px := 0; rs_pattern := pattern1 |} in
  (connectivity ++ [rs_up r; rs_down r], rs_pattern r, py_index + 2).
Definition enumerate {A} (l : list A) : list (nat * A) := combine (seq 0 (length l)) l.

(** 221-229: mask.copy() with every second entry of each row set to -1 *)
Definition masked (pattern : array2) (n : nat) : array2 :=
  fun m j => if Nat.eqb (j mod 2) ((m + n) mod 2) then (-1)%Z else pattern m j.
(** 233-242: entries of the connectivity picked by a value of the mask, column by column *)
Definition pick (x_dimension y_dimension : nat) (connectivity : list (list edge)) (mask : array2) (value : Z) : result (list edge) :=
  rmap (@concat edge) (mapM (fun x => rmap (@concat edge) (mapM (fun y =>
      if Z.eqb (mask y x) value then
        match nth_error connectivity y with
        | Some row => match nth_error row x with Some e => Ok [e] | None => Err IndexError end
        | None => Err IndexError
        end
      else Ok []) (seq 0 (y_dimension - 1)))) (seq 0 (2 * x_dimension - 1))).
(** 171-248; np.zeros rejects negative dimensions (x_dimension = 0 or y_dimension = 0) with ValueError *)
Definition sycamore (x_dimension y_dimension : nat) : result (list edge * list (list edge)) :=
  if Nat.eqb x_dimension 0 || Nat.eqb y_dimension 0 then Err ValueError
  else
    let pattern2 : array2 := fun m _ => mod2 m in
    let '(connectivity, pattern1, _) :=
      fold_left (rows_step x_dimension y_dimension) (enumerate (range2 1 y_dimension)) ([], (fun _ _ => 0%Z), 0) in
    let masks := [masked pattern1 0; masked pattern2 0; masked pattern1 1; masked pattern2 1] in
    let! layers := mapM (fun mask =>
        let! layer1 := pick x_dimension y_dimension connectivity mask 0 in
        let! layer2 := pick x_dimension y_dimension connectivity mask 1 in
        Ok [layer1; layer2]) masks in
    Ok (concat connectivity, concat layers).

(** 151-168; for an unknown layer type the ValueError is created but not raised: None.  [y_dimension] None makes the sycamore
    layout a TypeError. *)
Definition build_circuit_layers_and_connectivity (x_dimension : nat) (y_dimension : option nat) (layer_type : string)
  : result (option (list edge * list (list edge))) :=
  if String.eqb layer_type "sycamore" then
    match y_dimension with
    | Some y => rmap Some (sycamore x_dimension y)
    | None => Err TypeError
    end
  else if String.eqb layer_type "nearest-neighbor" then Ok (Some (nearest_neighbors x_dimension))
  else Ok None.

(** ** Dictionaries: tuples become lists in JSON and are made tuples again on reading.  Groups may have any length. *)
Definition jgroup (g : list nat) : json nat := JArr (map JNum g).
Definition as_group (j : json nat) : result (list nat) :=
  match j with JArr l => mapM (fun x => match x with JNum n => Ok n | _ => Err TypeError end) l | _ => Err TypeError end.
(** 27-33 *)
Definition layers_to_dict (layers : list (list (list nat))) : json nat := JObj [("layers"%string, JArr (map (fun l => JArr (map jgroup l)) layers))].
Definition layers_from_dict (j : json nat) : result (list (list (list nat))) :=
  match j with
  | JObj d =>
      let! v := jitem "layers" d in
      match v with
      | JArr ls => mapM (fun l => match l with JArr gs => mapM as_group gs | _ => Err TypeError end) ls
      | _ => Err TypeError
      end
  | _ => Err TypeError
  end.
(** 111-117 *)
Definition connectivity_to_dict (c : list (list nat)) : json nat := JObj [("connectivity"%string, JArr (map jgroup c))].
Definition connectivity_from_dict (j : json nat) : result (list (list nat)) :=
  match j with
  | JObj d => let! v := jitem "connectivity" d in match v with JArr gs => mapM as_group gs | _ => Err TypeError end
  | _ => Err TypeError
  end.
(** 36-64, 120-148: saving adds the schema, loading ignores it *)
Definition with_schema (schema : string) (j : json nat) : json nat :=
  match j with JObj d => JObj (jset "schema" (JStr schema) d) | _ => j end.
(** 67-95: an ordering is stored under its own key *)
Definition ordering_to_dict (o : list nat) : json nat := with_schema "zapata-v1-circuit_ordering" (JObj [("ordering"%string, jgroup o)]).
Definition ordering_from_dict (j : json nat) : result (list nat) :=
  match j with JObj d => let! v := jitem "ordering" d in as_group v | _ => Err TypeError end.
