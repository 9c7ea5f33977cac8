(** Model of distribution/clipped_negative_log_likelihood.py, jensen_shannon_divergence.py, mmd.py and
    evaluate_distribution_distance, over the real numbers. *)
From Coq Require Import String Ascii QArith Qreals Reals.
From Verif Require Import Base UtilsModel DistModel.
Local Open Scope list_scope.
Local Open Scope nat_scope.

(** [set(target_keys).union(measured_keys)]; the order in which the set is iterated is [setorder] *)
Definition all_keys (setorder : list outcome -> list outcome) (target measured : dist) : list outcome :=
  setorder (uniq outcome_eqb (map fst target ++ map fst measured)).
(** [distribution_dict.get(bitstring, 0)] *)
Definition get_or_0 (d : dist) (k : outcome) : R := match dget outcome_eqb k d with Some q => Q2R q | None => 0%R end.

(** math.log raises ValueError on arguments that are not positive *)
Definition math_log (x : R) : result R := if Rle_dec x 0 then Err ValueError else Ok (ln x).
(** clipped_negative_log_likelihood.py:11-51; [epsilon] is the parameter or its default 1e-9 *)
Definition default_epsilon : R := (/ 1000000000)%R.
Definition clipped_nll (setorder : list outcome -> list outcome) (epsilon : R) (target measured : dist) : result R :=
  let! value := foldM (fun value k => let! l := math_log (Rmax epsilon (get_or_0 measured k)) in Ok (value + get_or_0 target k * l)%R)
                  (all_keys setorder target measured) 0%R in
  Ok (- value)%R.
(** jensen_shannon_divergence.py:12-48; every call iterates its own set *)
Definition jensen_shannon (setorder1 setorder2 : list outcome -> list outcome) (epsilon : R) (target measured : dist) : result R :=
  let! a := clipped_nll setorder1 epsilon target measured in
  let! b := clipped_nll setorder2 epsilon measured target in
  Ok (a / 2 + b / 2)%R.

(** [int(s, 2)] on a string of digits *)
Fixpoint int_base2_from (acc : Z) (l : list ascii) : result Z :=
  match l with
  | [] => Ok acc
  | c :: l' => if Ascii.eqb c "0" then int_base2_from (2 * acc) l' else if Ascii.eqb c "1" then int_base2_from (2 * acc + 1) l' else Err ValueError
  end.
Definition int_base2 (s : string) : result Z :=
  match list_ascii_of_string s with [] => Err ValueError | l => int_base2_from 0 l end.
(** mmd.py:120-122 *)
Definition key_number (k : outcome) : result Z := int_base2 (String.concat EmptyString (map str_of_int k)).

(** mmd.py:36-55 [compute_rbf_kernel]: one entry, for a Python float sigma *)
Definition rbf_gamma (sigma : R) : result R := if Req_EM_T sigma 0 then Err ZeroDivisionError else Ok (1 / (2 * sigma))%R.
Definition rbf (gamma : R) (x y : Z) : R := exp (- gamma * IZR ((Z.abs (x - y)) ^ 2)).
(** 58-84 [compute_multi_rbf_kernel]: one entry *)
Definition sum_Rl (l : list R) : R := fold_right Rplus 0%R l.
Definition multi_rbf (gammas : list R) (x y : Z) : R := (sum_Rl (map (fun g => rbf g x y) gammas) / INR (length gammas))%R.
Inductive sigma_param := Single (s : R) | Multi (s : list R).
(** 123-126.  Without any sigma numpy divides by zero and returns NaN with a warning; this is written as an error here. *)
Definition kernel_of (sigma : sigma_param) : result (Z -> Z -> R) :=
  match sigma with
  | Single s => let! g := rbf_gamma s in Ok (rbf g)
  | Multi [] => Err ZeroDivisionError
  | Multi l => let! gs := mapM rbf_gamma l in Ok (multi_rbf gs)
  end.
(** 87-129 [compute_mmd] *)
Definition compute_mmd (setorder : list outcome -> list outcome) (sigma : sigma_param) (target measured : dist) : result R :=
  let keys := all_keys setorder target measured in
  let target_values := map (get_or_0 target) keys in
  let measured_values := map (get_or_0 measured) keys in
  let! basis := mapM key_number keys in
  let! kernel := kernel_of sigma in
  let diff := map (fun tm => fst tm - snd tm)%R (combine target_values measured_values) in
  let rows := map (fun x => sum_Rl (map (fun yd => kernel x (fst yd) * snd yd)%R (combine basis diff))) basis in
  Ok (sum_Rl (map (fun dr => fst dr * snd dr)%R (combine diff rows))).

(** _measurement_outcome_distribution.py:364-415 [evaluate_distribution_distance] on distribution objects *)
Definition evaluate_distribution_distance {V} (target measured : dist) (distance : dist -> dist -> result V) : result V :=
  let! nt := get_number_of_subsystems target in
  let! nm := get_number_of_subsystems measured in
  if negb (Nat.eqb nt nm) then Err RuntimeError
  else if xorb (is_normalized target) (is_normalized measured) then Err RuntimeError
  else distance target measured.
