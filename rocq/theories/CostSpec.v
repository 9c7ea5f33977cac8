(** Specification of cost functions and gradients, independent of how they are computed. *)
From Coq Require Import List ZArith String Bool Reals.
From Verif Require Import Base EvModel EstModel CostModel.
Import ListNotations.
Open Scope list_scope.

(** Applying functions one after the other, each to the result of the previous one, all of them successfully. *)
Inductive applied {S A} : list (A -> M S A) -> A -> S -> A -> S -> Prop :=
| ap_nil a s : applied [] a s a s
| ap_cons f fs a s b s1 c s2 : f a s = (s1, Ok b) -> applied fs b s1 c s2 -> applied (f :: fs) a s c s2.

(** Evaluating a function at some points, in this order. *)
Inductive evaluations {S} (f : list R -> M S R) : list (list R) -> S -> list R -> S -> Prop :=
| ev_nil s : evaluations f [] s [] s
| ev_cons p ps s v s1 vs s2 : f p s = (s1, Ok v) -> evaluations f ps s1 vs s2 -> evaluations f (p :: ps) s (v :: vs) s2.

(** The point p + d e_i *)
Definition shifted (i : nat) (d : R) (p : list R) : list R :=
  map (fun j => if Nat.eqb j i then (nth j p 0 + d)%R else nth j p 0%R) (seq 0 (length p)).
Definition gradient_points (step : R) (p : list R) : list (list R) :=
  flat_map (fun i => [shifted i step p; shifted i (- step) p]) (seq 0 (length p)).

(** Sum over the indices 0, ..., n-1 *)
Fixpoint sum_over (n : nat) (t : nat -> R) : R := match n with O => 0%R | S n' => (sum_over n' t + t n')%R end.
(** c + b.x + x^T A x *)
Definition quadratic (n : nat) (c : R) (b : nat -> R) (A : nat -> nat -> R) (x : list R) : R :=
  (c + sum_over n (fun j => b j * nth j x 0) + sum_over n (fun j => sum_over n (fun k => A j k * nth j x 0 * nth k x 0)))%R.

(** Arrays of covariances of an object (no list is the same as an empty list), and references that exist *)
Definition frames {K M} (h : list (list M)) (e : @ev_ref K) : list M :=
  match er_covariances e with None => [] | Some r => nth r h [] end.
Definition proper {K M} (h : list (list M)) (e : @ev_ref K) : Prop :=
  (forall r, er_correlations e = Some r -> r < length h) /\ (forall r, er_covariances e = Some r -> r < length h).
(** sum of the real parts of all values of all objects; sum of all entries of all arrays of covariances *)
Definition total_value {K} (re : K -> R) (l : list (@ev_ref K)) : R := rsum (map re (flat_map er_values l)).
Definition total_variance (fs : list (list (list R))) : R := rsum (concat (concat fs)).
Definition estimates (e : evs) (v : estimate) : Prop :=
  est_value v = total_value real_part (snd e) /\
  est_precision v = match flat_map (frames (fst e)) (snd e) with
                    | [] => NoPrecision
                    | fs => if Rlt_dec (total_variance fs) 0 then NaN else Precision (sqrt (total_variance fs))
                    end.

(** the next numbers of a generator *)
Fixpoint stream {G} (normal : G -> R -> R -> nat -> G * list R) (g : G) (sd : R) (sizes : list nat) : list (list R) :=
  match sizes with [] => [] | n :: l => let (g', x) := normal g 0%R sd n in x :: stream normal g' sd l end.
