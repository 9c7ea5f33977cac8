(** Model of the remaining parts of measurement.py: ExpectationValues and Parities as objects. *)
From Coq Require Import String QArith.
From Verif Require Import Base MatModel Json UtilsModel MeasModel.
Local Open Scope list_scope.
Local Open Scope nat_scope.

(** ** Dictionaries *)
Section Dict.
  Context {K : cring} (isz : K -> bool).
  (** measurement.py:123-131 and 231-235 *)
  Record ev_obj := { eo_values : ndarray K; eo_correlations : option (list (ndarray K)); eo_covariances : option (list (ndarray K)) }.
  Record par_obj := { po_values : ndarray K; po_correlations : option (list (ndarray K)) }.
  (** [if self.correlations:] : None and the empty list are both skipped *)
  Definition list_field (name : string) (l : option (list (ndarray K))) : jdict K :=
    match l with
    | None | Some [] => []
    | Some l => [(name, JArr (map (fun a => JObj (convert_array_to_dict a)) l))]
    end.
  (** 133-155 [ExpectationValues.to_dict] *)
  Definition ev_to_dict (e : ev_obj) : jdict K :=
    [("schema"%string, JStr "zapata-v1-expectation_values"); ("frames"%string, JArr []);
     ("expectation_values"%string, JObj (convert_array_to_dict (eo_values e)))]
    ++ list_field "correlations" (eo_correlations e) ++ list_field "estimator_covariances" (eo_covariances e).
  Definition array_of (j : json K) : result (ndarray K) :=
    match j with JObj d => convert_dict_to_array isz d | _ => Err TypeError end.
  (** 162-175: [if dictionary.get(name)] *)
  Definition read_field (name : string) (d : jdict K) : result (option (list (ndarray K))) :=
    match jget name d with
    | None => Ok None
    | Some j => if truthy isz j then match j with JArr l => rmap Some (mapM array_of l) | _ => Err TypeError end else Ok None
    end.
  (** 157-176 [ExpectationValues.from_dict] *)
  Definition ev_from_dict (d : jdict K) : result ev_obj :=
    let! v := jitem "expectation_values" d in
    let! values := array_of v in
    let! corr := read_field "correlations" d in
    let! cov := read_field "estimator_covariances" d in
    Ok {| eo_values := values; eo_correlations := corr; eo_covariances := cov |}.
  (** 237-243 [Parities.to_dict] and 256-266 [save_parities], which adds the schema *)
  Definition par_to_dict (p : par_obj) : jdict K :=
    [("values"%string, JObj (convert_array_to_dict (po_values p)))] ++ list_field "correlations" (po_correlations p).
  Definition save_parities (p : par_obj) : jdict K := jset "schema" (JStr "zapata-v1-parities") (par_to_dict p).
  (** 245-253 [Parities.from_dict] *)
  Definition par_from_dict (d : jdict K) : result par_obj :=
    let! v := jitem "values" d in
    let! values := array_of v in
    let! corr := read_field "correlations" d in
    Ok {| po_values := values; po_correlations := corr |}.
  (** 69-97: wavefunctions are stored the same way; the reader of the amplitudes is the constructor in WfModel.v *)
  Definition save_wavefunction (amplitudes : ndarray K) : jdict K :=
    [("schema"%string, JStr "zapata-v1-wavefunction"); ("amplitudes"%string, JObj (convert_array_to_dict amplitudes))].
  Definition load_wavefunction {W} (mk : ndarray K -> result W) (d : jdict K) : result W :=
    let! v := jitem "amplitudes" d in let! a := array_of v in mk a.
End Dict.
Arguments ev_obj K : clear implicits.
Arguments par_obj K : clear implicits.

(** ** Expectation values from parities *)
(** 286-325 [get_expectation_values_from_parities]: values and 1x1 covariances.  The precision is only used squared, so
    the square roots cancel: (2 sqrt(p(1-p)) / sqrt(N))^2 = 4 p (1-p) / N. *)
Definition ev_of_tally (nn : Z * Z) : result (Q * Q) :=
  let n0 := fst nn in let n := (fst nn + snd nn)%Z in
  if Z.eqb n 0 then Err ValueError
  else
    let p := (inject_Z n0 / inject_Z n)%Q in
    let value := (2 * p - 1)%Q in
    let precision2 :=
      if (100 <=? n)%Z && Qle_bool (1 # 10) p && Qle_bool p (9 # 10)
      then (4 * (p * (1 - p)) / inject_Z n)%Q
      else (1 / inject_Z n)%Q in
    Ok (value, precision2).
Definition get_expectation_values_from_parities (p : parities) : result expectation_values :=
  let! l := mapM ev_of_tally (par_values p) in
  Ok {| ev_values := map fst l; ev_correlations := None; ev_covariances := Some (map (fun vc => Some [[snd vc]]) l) |}.

(** ** Concatenation *)
(** Objects refer to lists of matrices by reference: the heap is a list of list objects, a reference is a position. *)
Section Heap.
  Context {K : Type} {M : Type}.
  Record ev_ref := { er_values : list K; er_correlations : option nat; er_covariances : option nat }.
  Definition heap := list (list M).
  Definition hget (h : heap) (r : nat) : list M := nth r h [].
  Fixpoint hset (h : heap) (r : nat) (l : list M) : heap :=
    match h, r with [], _ => [] | _ :: h', O => l :: h' | x :: h', S r' => x :: hset h' r' l end.
  (** Python's truth value of an optional list *)
  Definition hnonempty (h : heap) (r : option nat) : bool :=
    match r with None => false | Some r => match hget h r with [] => false | _ => true end end.
  (** [if src: (if not dst: dst = []); dst += src] *)
  Definition extend_field (h : heap) (dst src : option nat) : heap * option nat :=
    match src with
    | Some s =>
        if hnonempty h src then
          match dst with
          | Some t => if hnonempty h dst then (hset h t (hget h t ++ hget h s), dst)
                      else (h ++ [[] ++ hget h s], Some (length h))
          | None => (h ++ [[] ++ hget h s], Some (length h))
          end
        else (h, dst)
    | None => (h, dst)
    end.
  (** 799-828 [concatenate_expectation_values] *)
  Fixpoint concatenate_from (h : heap) (acc : ev_ref) (l : list ev_ref) : heap * ev_ref :=
    match l with
    | [] => (h, acc)
    | e :: l' =>
        let (h1, corr) := extend_field h (er_correlations acc) (er_correlations e) in
        let (h2, cov) := extend_field h1 (er_covariances acc) (er_covariances e) in
        concatenate_from h2 {| er_values := er_values acc ++ er_values e; er_correlations := corr; er_covariances := cov |} l'
    end.
  Definition concatenate_expectation_values (h : heap) (l : list ev_ref) : heap * ev_ref :=
    concatenate_from h {| er_values := []; er_correlations := None; er_covariances := None |} l.
End Heap.

(** 391-412 [expectation_values_to_real]: complex values are replaced by their real part in the object itself; the
    elements of [correlations] are arrays, never [complex], and stay.  Values are pairs (real part, imaginary part, if any). *)
Inductive scalar (K : Type) := SReal (x : K) | SCplx (re im : K).
Arguments SReal {K} x. Arguments SCplx {K} re im.
Definition expectation_values_to_real {K C} (values : list (scalar K)) (correlations : C) : list (scalar K) * C :=
  (map (fun v => match v with SCplx re _ => SReal re | SReal x => SReal x end) values, correlations).
