(** What a polynomial tensor denotes, independently of how the operations are computed. *)
From Verif Require Import Base MatModel TensorModel.
Local Open Scope list_scope.
Local Open Scope nat_scope.

(** The number a tensor holds for a key and an index: zero when the key is absent. *)
Definition value {K : cring} (h : heap K) (a : ptensor K) (k : key) (i : list nat) : K :=
  match dget key_eqb k (n_body_tensors a) with Some e => element h e i | None => k0 end.
Definition has_key {K : cring} (a : ptensor K) (k : key) : Prop := In k (dkeys (n_body_tensors a)).
(** Distinct keys hold distinct arrays. *)
Definition unshared {K : cring} (d : list (key * entry K)) : Prop := forall k1 k2 r, In (k1, Arr r) d -> In (k2, Arr r) d -> k1 = k2.
(** No array is held by both. *)
Definition disjoint_arrays {K : cring} (d1 d2 : list (key * entry K)) : Prop := forall k1 k2 r, In (k1, Arr r) d1 -> In (k2, Arr r) d2 -> False.
(** A tensor as the constructors make them: each key once, the constant a number, the other values arrays that exist, are of the tensor's size and are not
    held twice, and at least one array. *)
Definition tensor_ok {K : cring} (h : heap K) (a : ptensor K) : Prop :=
  NoDup (dkeys (n_body_tensors a)) /\ unshared (n_body_tensors a) /\ (exists k r, In (k, Arr r) (n_body_tensors a)) /\
  forall k e, In (k, e) (n_body_tensors a) -> match e with Num _ => k = [] | Arr r => k <> [] /\ r < length h /\ shape0 (read h r) = n_qubits a end.
(** Two objects denote the same numbers. *)
Definition same_values {K : cring} (h1 : heap K) (a : ptensor K) (h2 : heap K) (b : ptensor K) : Prop :=
  n_qubits a = n_qubits b /\ forall k i, value h1 a k i = value h2 b k i.
(** The arrays that existed before are as they were. *)
Definition preserved {K : cring} (h h' : heap K) : Prop := forall r, r < length h -> read h' r = read h r.

(** The order in which a tensor is iterated: shorter products first, then by the pattern of creation operators read as a binary number, then by indices. *)
Inductive lex_before {X} (lt : X -> X -> Prop) : list X -> list X -> Prop :=
| lex_first x y l m : lt x y -> length l = length m -> lex_before lt (x :: l) (y :: m)
| lex_rest x l m : lex_before lt l m -> lex_before lt (x :: l) (x :: m).
Definition iterated_before (t u : list (nat * bool)) : Prop :=
  length t < length u \/ lex_before (fun a b => a = false /\ b = true) (map snd t) (map snd u) \/ (map snd t = map snd u /\ lex_before Nat.lt (map fst t) (map fst u)).
