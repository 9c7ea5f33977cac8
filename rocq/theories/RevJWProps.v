(** Theorems for C70 (reverse_jordan_wigner, number_operator), stated over RevJWModel.v, FermiSpec.v, OpSpec.v and RevJWSpec.v. *)
From Coq Require Import ZArith Permutation Sorted Ring.
From Verif Require Import Base BaseFacts MatModel MatFacts LiftSpec LiftProofs OpModel OpSpec OpProofs PauliProofs OpProofs2 ConjProofs
  FermiModel FermiSpec FermiProofs FermiProofs2 FermiProofs3 FermiProofs4 FermiProofs6 FermiProofs7 PauliBasis ReindexProofs2 FermiProps FermiProps2
  RevJWModel RevJWSpec RevJWProofs GaussQ.
Open Scope list_scope.
Local Open Scope nat_scope.

(** the number of qubits asked for is enough *)
Definition enough {K : cring} (a : qop K) (n_qubits : option nat) : Prop := match n_qubits with None => True | Some m => on_qubits m a end.

Section C70.
  (** scalars with an imaginary unit; 1, -2 and -i are not below the pruning threshold *)
  Context {K : cring} (im : K) (Him : kmul im im = kopp k1) (small : K -> bool).
  Context (Hs1 : small k1 = false) (Hs2 : small (kopp (kadd k1 k1)) = false) (Hs3 : small (kopp im) = false).
  Add Ring Kring_rjp : (kth K).
  Open Scope K_scope.
  Notation rjw := (reverse_jordan_wigner im small).

  (** The result acts on occupation-number states of n modes as the given operator acts on n qubits, up to at most 2^n small terms for each term. *)
  Theorem C70_acts n (a : qop K) nq : stored_form a -> on_qubits n a -> enough a nq ->
    exists b r : fop K, rjw a nq = Ok b /\ on_qubits n b /\ all_small small r /\ (length r <= length a * 2 ^ n)%nat /\
      meq (madd (fop_matrix n b) (fop_matrix n r)) (qop_matrix im n a).
  Proof.
    intros [W Ca] On He. unfold reverse_jordan_wigner.
    set (m := match nq with None => sorted_count_qubits a | Some m => m end).
    assert (L : (m <? sorted_count_qubits a)%nat = false).
    { apply Nat.ltb_ge. unfold m. destruct nq as [m'|]; [|lia]. apply (sorted_count_spec a m' Ca). exact He. }
    rewrite L. destruct (sum_ok im Him small Hs1 Hs2 Hs3 n m a Ca On []) as (b & r & E & Ob & Sr & Lr & _ & Mr); [intros ? ? []|].
    exists b, r. split; [exact E|]. split; [auto|]. split; [auto|]. split; [auto|]. etransitivity; [exact Mr|].
    apply (meq_qop n); try apply qop_matrix_shape; try reflexivity. intros i j Hi Hj. cbn [ent madd fop_matrix fold_right zeros]. ring.
  Qed.
  Theorem C70_exact n (a : qop K) nq : stored_form a -> on_qubits n a -> enough a nq -> only_zero small ->
    exists b, rjw a nq = Ok b /\ meq (fop_matrix n b) (qop_matrix im n a).
  Proof.
    intros Ha On He Hz. destruct (C70_acts n a nq Ha On He) as (b & r & E & _ & Sr & _ & M). exists b. split; [exact E|].
    apply (fop_exact small n _ _ r); auto; apply fop_shape.
  Qed.
  (** Asking for too few qubits is an error; otherwise the number asked for does not matter. *)
  Theorem C70_too_few (a : qop K) m : stored_form a -> ~ on_qubits m a -> rjw a (Some m) = Err ValueError.
  Proof.
    intros [_ Ca] H. unfold reverse_jordan_wigner. destruct (Nat.ltb_spec m (sorted_count_qubits a)) as [L|L]; [reflexivity|]. exfalso. apply H, (sorted_count_spec a m Ca). lia.
  Qed.
  Lemma loop_width m m' : forall fuel p w acc, transform_loop im small fuel m p w acc = transform_loop im small fuel m' p w acc.
  Proof.
    induction fuel as [|fuel IH]; intros p w acc; [reflexivity|]. destruct p as [p|]; [|reflexivity]. cbn [transform_loop].
    assert (E : transform_pauli im small m p w = transform_pauli im small m' p w) by (unfold transform_pauli; destruct (snd p); reflexivity).
    rewrite E. destruct (transform_pauli im small m' p w) as [[tp w']|]; [|reflexivity]. cbn [rbind snd fst]. destruct (next_pauli p w') as [p'|]; [|reflexivity]. cbn [rbind]. apply IH.
  Qed.
  Theorem C70_width (a : qop K) m : stored_form a -> on_qubits m a -> rjw a (Some m) = rjw a None.
  Proof.
    intros [_ Ca] H. unfold reverse_jordan_wigner. rewrite Nat.ltb_irrefl. destruct (Nat.ltb_spec m (sorted_count_qubits a)) as [L|L]; [apply (sorted_count_spec a m Ca) in H; lia|].
    generalize (sorted_count_qubits a) as m'. intros m'.
    assert (G : forall (l : qop K) (o : fop K), foldM (fun o (tc : term pauli * K) => let! f := transform_term im small m (fst tc) in Ok (fermion_add small o (op_scale f (snd tc)))) l o =
      foldM (fun o (tc : term pauli * K) => let! f := transform_term im small m' (fst tc) in Ok (fermion_add small o (op_scale f (snd tc)))) l o).
    { clear. induction l as [|[t c] l IH]; intros o; cbn [foldM fst snd]; [reflexivity|].
      assert (E : transform_term im small m t = transform_term im small m' t) by (unfold transform_term; destruct (rev t) as [|p u]; [reflexivity|apply loop_width]).
      rewrite E. destruct (transform_term im small m' t) as [f|]; cbn [rbind]; [apply IH|reflexivity]. }
    apply G.
  Qed.
  (** It inverts the Jordan-Wigner transform: the qubit operator comes back term by term ... *)
  Context (half : K) (Hhalf : kadd half half = k1).
  Context (Hs4 : small half = false) (Hs5 : small (kmul half im) = false) (Hs6 : small (kopp (kmul half im)) = false).
  Notation jw := (jordan_wigner im half small).
  Theorem C70_from_qubits (a : qop K) : stored_form a -> only_zero small ->
    exists b, rjw a None = Ok b /\ forall t, coef pauli_eqb (jw b) t = coef pauli_eqb a t.
  Proof.
    intros [W Ca] Hz. set (n := sorted_count_qubits a). assert (On : on_qubits n a) by (apply (sorted_count_spec a n Ca); reflexivity).
    destruct (C70_acts n a None (conj W Ca) On I) as (b & r & E & Ob & Sr & _ & M). exists b. split; [exact E|]. intros t.
    assert (Ej : meq (qop_matrix im n (jw b)) (fop_matrix n b)) by (apply (C47_acts_exact im half Him Hhalf small Hs4 Hs5 Hs6 n b Ob Hz)).
    apply (pauli_independent im Him half Hhalf n); auto.
    - apply (image_wf im small).
    - apply (C47_acts im half Him Hhalf small Hs4 Hs5 Hs6 n b Ob).
    - apply (image_canonical im small).
    - etransitivity; [exact Ej|]. apply (fop_exact small n _ _ r); auto; apply fop_shape.
  Qed.
  (** ... and a fermion operator comes back with the same normal-ordered form, so as the same operator. *)
  Theorem C70_from_fermions n (a : fop K) : on_qubits n a -> only_zero small ->
    exists b, rjw (jw a) None = Ok b /\ meq (fop_matrix n b) (fop_matrix n a) /\ forall t, coef Bool.eqb (normal_ordered small b) t = coef Bool.eqb (normal_ordered small a) t.
  Proof.
    intros On Hz. destruct (C47_acts im half Him Hhalf small Hs4 Hs5 Hs6 n a On) as [Oj _].
    assert (Sj : stored_form (jw a)) by (split; [apply (image_wf im small)|apply (image_canonical im small)]).
    destruct (C70_acts n (jw a) None Sj Oj I) as (b & r & E & Ob & Sr & _ & M). exists b. split; [exact E|].
    assert (X : meq (fop_matrix n b) (fop_matrix n a)).
    { transitivity (qop_matrix im n (jw a)); [apply (fop_exact small n _ _ r); auto; apply fop_shape|]. apply (C47_acts_exact im half Him Hhalf small Hs4 Hs5 Hs6 n a On Hz). }
    split; [exact X|]. apply (C46_unique small n); auto.
  Qed.
End C70.

(** ** The number operator *)
Section Number.
  Context {K : cring} (small : K -> bool).
  Add Ring Kring_rjn : (kth K).
  Open Scope K_scope.
  (** Of one mode: the coefficient on the states where the mode is occupied, zero on the others. *)
  Lemma number_ent n m c b d : (m < n)%nat -> length b = n -> length d = n ->
    ent (fop_matrix (K := K) n [([(m, true); (m, false)], c)]) (bval b) (bval d) = if list_eqb Bool.eqb b d then if nth m d false then c else 0 else 0.
  Proof.
    intros Hm Hb Hd. rewrite fop_ent. cbn [lval fst snd]. rewrite single_ent by (auto; intros f Hf; cbn in Hf; intuition (subst; exact Hm)).
    cbn [fact]. unfold mcomp, ladder_act. cbn [fst snd]. rewrite setb_setb, nth_setb_same, odd_count_setb, Nat.ltb_irrefl by lia. cbn [negb Bool.eqb].
    pose proof (sgn_sq (K := K) (odd_count (firstn m d))) as Q. destruct (nth m d false) eqn:E; cbn [negb Bool.eqb].
    - rewrite <- E, setb_nth. destruct (list_eqb Bool.eqb b d); [|ring]. transitivity (c * (sgn (odd_count (firstn m d)) * sgn (odd_count (firstn m d)))); [ring|rewrite Q; ring].
    - destruct (list_eqb Bool.eqb b d), (list_eqb Bool.eqb b (setb m true d)); ring.
  Qed.
  Lemma diagonal_ent n v b d : length b = n -> length d = n -> ent (diagonal (K := K) n v) (bval b) (bval d) = if list_eqb Bool.eqb b d then v d else 0.
  Proof.
    intros Hb Hd. cbn [ent diagonal]. rewrite eqb_bval by congruence. rewrite bits_bval_n by auto. destruct (list_eqb Bool.eqb b d) eqn:E; [|reflexivity]. apply (list_eqb_spec _ bool_eqb_spec) in E. subst d. reflexivity.
  Qed.
  Theorem C70_number_mode n n_modes m (c : K) : m < n ->
    exists a, number_operator small n_modes (Some m) c (-1) = Ok a /\ meq (fop_matrix n a) (diagonal n (fun b => if nth m b false then c else 0)).
  Proof.
    intros Hm. eexists. split; [reflexivity|]. apply (meq_bits n); [apply fop_shape|apply fop_shape|reflexivity|reflexivity|]. intros b d Hb Hd.
    rewrite diagonal_ent by auto. apply (number_ent n m c b d); auto.
  Qed.
  (** Of all modes: the coefficient times the number of occupied modes among the first n_modes. *)
  Notation number m c := (([(m, true); (m, false)] : term bool), (c : K)).
  Lemma number_sum n_modes (c : K) : number_operator small n_modes None c (-1) = Ok (if small (0 + c) then [] else map (fun m => number m (0 + c)) (seq 0 n_modes)).
  Proof.
    unfold number_operator. cbn [Z.eqb Pos.eqb negb]. f_equal.
    induction n_modes as [|m IH]; [destruct (small _); reflexivity|]. rewrite seq_S, fold_left_app, IH. cbn [Nat.add fold_left map app].
    unfold fermion_op, mk_op, fermion_simplify, fermion_add, op_add, merge_term. cbn [fold_left fst snd].
    assert (D : forall l : list nat, ~ In m l -> dget (term_eqb Bool.eqb) [(m, true); (m, false)] (map (fun m0 => number m0 (0 + c)) l) = None /\
              forall v, dset (term_eqb Bool.eqb) [(m, true); (m, false)] v (map (fun m0 => number m0 (0 + c)) l) = map (fun m0 => number m0 (0 + c)) l ++ [([(m, true); (m, false)], v)]).
    { induction l as [|x l IHl]; intros Hn; [split; [reflexivity|intros; reflexivity]|]. destruct IHl as [I1 I2]; [intros H; apply Hn; right; auto|].
      assert (E : term_eqb Bool.eqb [(m, true); (m, false)] [(x, true); (x, false)] = false).
      { destruct (term_eqb Bool.eqb [(m, true); (m, false)] [(x, true); (x, false)]) eqn:E; [|reflexivity]. apply (term_eqb_spec _ bool_eqb_spec) in E. inversion E; subst. exfalso. apply Hn; left; auto. }
      cbn [map dget dset]. rewrite E. split; [exact I1|]. intros v. rewrite I2. reflexivity. }
    destruct (small (0 + c)) eqn:S.
    - cbn [dget dset]. rewrite S. cbn [ddel]. rewrite (proj2 (term_eqb_spec Bool.eqb bool_eqb_spec _ _) eq_refl). reflexivity.
    - destruct (D (seq 0 m)) as [D1 D2]; [intros H; apply in_seq in H; lia|]. etransitivity; [|symmetry; apply map_app]. cbn [map]. etransitivity; [|exact (D2 (0 + c))].
      match goal with |- (if small (?x + c) then _ else _) = _ => assert (X : x = 0) by (etransitivity; [|exact (f_equal (fun o => match o with Some y => y | None => 0 end) D1)]; reflexivity) end.
      rewrite X, S. reflexivity.
  Qed.
  Lemma occupied_S m d : (m < length d)%nat -> occupied (S m) d = (if nth m d false then S (occupied m d) else occupied m d).
  Proof.
    intros H. unfold occupied. revert m H. induction d as [|x d IH]; intros m H; [cbn in H; lia|]. destruct m as [|m].
    - destruct x; reflexivity.
    - change (firstn (S (S m)) (x :: d)) with (x :: firstn (S m) d). change (firstn (S m) (x :: d)) with (x :: firstn m d). cbn [filter nth]. specialize (IH m ltac:(cbn in H; lia)).
      destruct x; cbn [length]; rewrite IH; destruct (nth m d false); reflexivity.
  Qed.
  Theorem C70_number_total n n_modes (c : K) : n_modes <= n ->
    exists a, number_operator small n_modes None c (-1) = Ok a /\ wf_op a /\
      if small c then a = [] else meq (fop_matrix n a) (diagonal n (fun b => times (occupied n_modes b) c)).
  Proof.
    intros Hn. assert (Ec : 0 + c = c) by ring. eexists. split; [apply number_sum|]. rewrite Ec. destruct (small c); [split; [constructor|reflexivity]|]. split.
    - unfold wf_op, dkeys. rewrite map_map. cbn [fst]. apply FinFun.Injective_map_NoDup; [|apply seq_NoDup]. intros x y E. inversion E; auto.
    - apply (meq_bits n); [apply fop_shape|apply fop_shape|reflexivity|reflexivity|]. intros b d Hb Hd. rewrite diagonal_ent by auto.
      induction n_modes as [|m IH].
      + cbn. destruct (list_eqb _ _ _); reflexivity.
      + rewrite seq_S, map_app, fop_ent, lval_app, <- !fop_ent. cbn [Nat.add map].
        transitivity ((if list_eqb Bool.eqb b d then times (occupied m d) c else 0) + (if list_eqb Bool.eqb b d then if nth m d false then c else 0 else 0)).
        * apply f_equal2; [apply IH; lia|exact (number_ent n m c b d ltac:(lia) Hb Hd)].
        * destruct (list_eqb Bool.eqb b d); [|ring]. rewrite occupied_S by lia. destruct (nth m d false); [|ring]. change (times (S (occupied m d)) c) with (c + times (occupied m d) c). ring.
  Qed.
  (** Any other parity is an error, also the documented bosonic one. *)
  Theorem C70_number_parity n_modes mode (c : K) parity : parity <> (-1)%Z -> number_operator small n_modes mode c parity = Err ValueError.
  Proof. intros H. unfold number_operator. apply Z.eqb_neq in H. rewrite H. reflexivity. Qed.
End Number.

(** Concrete cases: 2 X0 Y2 + 3 Z1 over the Gaussian rationals. *)
Definition xy_op : qop GQ := [([(0, Px); (2, Py)], gq 2 0); ([(1, Pz)], gq 3 0)].
Example C70_case : match reverse_jordan_wigner qi gq_zero xy_op None with
  | Ok b => andb (Nat.eqb (length b) 10) (gq_same pauli_eqb (jordan_wigner qi qhalf gq_zero b) xy_op)
  | Err _ => false end = true /\ reverse_jordan_wigner qi gq_zero xy_op (Some 2) = Err ValueError.
Proof. split; vm_compute; reflexivity. Qed.
Example C70_instance : stored_form xy_op /\ on_qubits 3 xy_op /\ gq_zero (@k1 GQ) = false /\ gq_zero (kopp (kadd (@k1 GQ) k1)) = false /\ gq_zero (kopp qi) = false.
Proof.
  split; [split; [repeat constructor; cbn; intuition discriminate|]|split; [|split; [|split]; vm_compute; reflexivity]].
  - intros t c [H|[H|[]]]; inversion H; subst; cbn; repeat split; auto; discriminate.
  - intros t c [H|[H|[]]] f Hf; inversion H; subst; cbn in Hf; intuition (subst; cbn; lia).
Qed.
Example C70_number_case : match number_operator gq_zero 3 None (gq 5 0) (-1) with Ok a => length a | Err _ => 0 end = 3 /\ occupied 3 [true; false; true; true] = 2.
Proof. split; vm_compute; reflexivity. Qed.

Print Assumptions C70_acts.
Print Assumptions C70_exact.
Print Assumptions C70_too_few.
Print Assumptions C70_width.
Print Assumptions C70_from_qubits.
Print Assumptions C70_from_fermions.
Print Assumptions C70_number_mode.
Print Assumptions C70_number_total.
Print Assumptions C70_number_parity.
