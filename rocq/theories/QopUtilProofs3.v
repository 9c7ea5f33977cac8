(** Proofs about helpers for qubit operators: evaluation, expectation values, circuits of Pauli strings. *)
From Coq Require Import String Ascii ZArith Lia Lra Ring Reals.
From Verif Require BackendProofs.
From Verif Require Import Base BaseFacts MatModel MatFacts LiftModel LiftSpec LiftProofs Cplx CircuitModel CircuitSpec CircuitProofs GateMatModel GateMatProofs ConjProofs
  OpModel OpSpec OpProofs PauliProofs OpProofs2 OpTextModel FermiSpec FermiProofs6 FermiProofs7 EstProofs3 EvolModel EvolSpec EvolProofs2 EvolProofs3 SectorSpec WfModel QopUtilModel QopUtilSpec.
Open Scope list_scope.
Local Open Scope nat_scope.

Section Mean.
  Context {K : cring} (im : K).
  Add Ring Kring_qm : (kth K).
  Open Scope K_scope.
  Lemma mean_qop n (a : qop K) v : mean (qop_matrix im n a) v = lval (fun t => mean (term_matrix im n t) v) a.
  Proof.
    unfold mean. induction a as [|[t c] a IH]; cbn [lval fst snd].
    - apply bigsum_0. intros i _. cbn [qop_matrix fold_right zeros ent]. rewrite bigsum_0; [ring|]. intros j _. ring.
    - rewrite <- IH. rewrite bigsum_mul_l, <- bigsum_add. apply bigsum_ext. intros i _.
      transitivity (kconj (vent v i) * (c * bigsum (vlen v) (fun j => ent (term_matrix im n t) i j * vent v j) + bigsum (vlen v) (fun j => ent (qop_matrix im n a) i j * vent v j))); [|ring].
      f_equal. rewrite bigsum_mul_l, <- bigsum_add. apply bigsum_ext. intros j _. cbn [qop_matrix fold_right madd mscale ent fst snd]. fold (qop_matrix im n a). ring.
  Qed.
  Lemma mean_ext (A B : mat K) v : meq A B -> nr A = vlen v -> nc A = vlen v -> mean A v = mean B v.
  Proof.
    intros (_ & _ & H) Hr Hc. unfold mean. apply bigsum_ext. intros i Hi. f_equal. apply bigsum_ext. intros j Hj. rewrite H by lia. reflexivity.
  Qed.
  Lemma mean_of_one n t v : mean (qop_matrix im n [(t, 1)]) v = mean (term_matrix im n t) v.
  Proof. rewrite mean_qop. cbn [lval fst snd]. ring. Qed.
End Mean.

Section Evaluate.
  Context {K : cring} (re : K -> K).
  Add Ring Kring_qe : (kth K).
  Open Scope K_scope.
  (** The sum of the real parts of coefficient times value, in order. *)
  Definition weighted (a : qop K) (values : list K) : K := fold_right (fun (x : (term pauli * K) * K) s => re (snd (fst x) * snd x) + s) 0 (combine a values).
  Lemma evaluate_run (a : qop K) : forall pre values total, (length a <= length values)%nat ->
    evaluate_terms re a (pre ++ values) (total, length pre) = Ok (total + weighted a values, (length pre + length a)%nat).
  Proof.
    induction a as [|[t c] a IH]; intros pre values total L; unfold evaluate_terms, weighted; cbn [foldM combine fold_right length].
    - rewrite Nat.add_0_r. f_equal. f_equal. ring.
    - destruct values as [|v values]; [cbn in L; lia|]. rewrite nth_error_app2 by lia. rewrite Nat.sub_diag. cbn [nth_error rbind fst snd].
      specialize (IH (pre ++ [v]) values (total + re (c * v)) ltac:(cbn in L; lia)). unfold evaluate_terms in IH. rewrite <- app_assoc in IH. cbn [app] in IH. rewrite app_length in IH. cbn [length] in IH. rewrite Nat.add_1_r in IH.
      rewrite IH. cbn [combine fold_right fst snd]. f_equal. f_equal; [fold (weighted a values); ring|lia].
  Qed.
  Lemma evaluate_short (a : qop K) : forall pre values total, (length values < length a)%nat -> evaluate_terms re a (pre ++ values) (total, length pre) = Err IndexError.
  Proof.
    induction a as [|[t c] a IH]; intros pre values total L; [cbn in L; lia|]. unfold evaluate_terms. cbn [foldM]. rewrite nth_error_app2 by lia. rewrite Nat.sub_diag.
    destruct values as [|v values]; [reflexivity|]. cbn [nth_error rbind fst snd].
    specialize (IH (pre ++ [v]) values (total + re (c * v)) ltac:(cbn in L; lia)). unfold evaluate_terms in IH. rewrite <- app_assoc in IH. cbn [app] in IH. rewrite app_length in IH. cbn [length] in IH. rewrite Nat.add_1_r in IH. exact IH.
  Qed.
  Lemma evaluate_concat (l : list (qop K)) values s : foldM (fun s a => evaluate_terms re a values s) l s = evaluate_terms re (concat l) values s.
  Proof.
    revert s. induction l as [|a l IH]; intros s; [reflexivity|]. cbn [foldM concat]. 
    transitivity (let! s' := evaluate_terms re a values s in evaluate_terms re (concat l) values s'); [|symmetry; unfold evaluate_terms; apply BackendProofs.foldM_app].
    destruct (evaluate_terms re a values s) as [s'|e]; [|reflexivity]. cbn [rbind]. apply IH.
  Qed.
  Context (Hre : forall x y, re (kadd x y) = kadd (re x) (re y)).
  Lemma re_0 : re 0 = 0.
  Proof. assert (H : re 0 + re 0 = re 0) by (rewrite <- Hre; f_equal; ring). transitivity (re 0 + re 0 - re 0); [ring|]. rewrite H. ring. Qed.
  Lemma weighted_map (phi : term pauli -> K) (a : qop K) : weighted a (map (fun tc => phi (fst tc)) a) = re (lval phi a).
  Proof.
    unfold weighted. induction a as [|[t c] a IH]; cbn [map combine fold_right lval fst snd]; [symmetry; apply re_0|]. rewrite Hre, IH. reflexivity.
  Qed.
End Evaluate.

Section PauliCircuits.
  Context {Num : Type} (O : sympy_oracle Num) (IR : interp (Num := Num) R) (IC : interp (Num := Num) C) (rho : sym -> R).
  Definition gate_of (p : pauli) : gate Num :=
    match p with
    | Px => MFG "X"%string (FBuiltin "x_matrix"%string) [] 1 true
    | Py => MFG "Y"%string (FBuiltin "y_matrix"%string) [] 1 true
    | _ => MFG "Z"%string (FBuiltin "z_matrix"%string) [] 1 true
    end.
  Definition pauli_ops (t : term pauli) : list (operation Num) := map (fun f => GateOp (gate_of (snd f)) [fst f]) t.
  Lemma pauli_gate f n : fst f < n -> snd f <> Pid -> implements O IR IC rho n [GateOp (gate_of (snd f)) [fst f]] (embed n [fst f] (pauli_matrix (K := CC) ci (snd f))).
  Proof.
    destruct f as [q p]; cbn [fst snd]. intros Hq Hp. destruct p; [congruence| | |].
    - eapply implements_meq; [apply implements_gate; [reflexivity|apply wf_lift_one; [exact Hq|split; reflexivity]]|]. apply embed_ext; [reflexivity..|].
      split; [reflexivity|]. split; [reflexivity|]. intros [|[|i]] [|[|j]] Hi Hj; cbn in Hi, Hj; try lia; reflexivity.
    - eapply implements_meq; [apply implements_gate; [reflexivity|apply wf_lift_one; [exact Hq|split; reflexivity]]|]. apply embed_ext; [reflexivity..|].
      split; [reflexivity|]. split; [reflexivity|]. intros [|[|i]] [|[|j]] Hi Hj; cbn in Hi, Hj; try lia; try reflexivity; cbn; unfold ji, ci, copp; cbn; f_equal; try ring; lra.
    - eapply implements_meq; [apply implements_gate; [reflexivity|apply wf_lift_one; [exact Hq|split; reflexivity]]|]. apply embed_ext; [reflexivity..|].
      split; [reflexivity|]. split; [reflexivity|]. intros [|[|i]] [|[|j]] Hi Hj; cbn in Hi, Hj; try lia; try reflexivity; cbn; unfold rc, c1, copp; cbn; f_equal; try ring; lra.
  Qed.
  Lemma pauli_self f n : meq (adjoint (embed n [fst f] (pauli_matrix (K := CC) ci (snd f)))) (embed n [fst f] (pauli_matrix (K := CC) ci (snd f))).
  Proof.
    etransitivity; [apply embed_adjoint|]. apply embed_ext; [destruct (snd f); reflexivity..|].
    destruct (snd f); split; try reflexivity; (split; [reflexivity|]); intros [|[|i]] [|[|j]] Hi Hj; cbn in Hi, Hj; try lia; cbn; unfold cconj, c0, c1, ci, copp; cbn; f_equal; try ring; lra.
  Qed.
  Lemma pauli_ops_implement n (t : term pauli) : canonical t -> (forall f, In f t -> fst f < n) -> implements O IR IC rho n (pauli_ops t) (term_matrix (K := CC) ci n t).
  Proof.
    intros Ct Hn. assert (G : implements O IR IC rho n (pauli_ops t) (adjoint (term_matrix (K := CC) ci n t))).
    { assert (Hp : forall f, In f t -> snd f <> Pid) by (intros f; now apply canonical_not_id). clear Ct. induction t as [|f t IH].
      - eapply implements_meq; [apply implements_nil|]. symmetry. apply adjoint_eye.
      - change (pauli_ops (f :: t)) with ([GateOp (gate_of (snd f)) [fst f]] ++ pauli_ops t). eapply implements_meq.
        + apply implements_app; [apply pauli_gate; [apply Hn; now left|apply Hp; now left]|apply IH; intros; [apply Hn|apply Hp]; now right].
        + cbn [term_matrix fold_right]. fold (term_matrix (K := CC) ci n t). symmetry. etransitivity; [apply adjoint_mmul; cbn [embed nc]; symmetry; apply term_matrix_shape|].
          apply (mmul_sq (2 ^ n)); [apply sq_adjoint, term_matrix_shape|apply sq_adjoint, sq_embed|reflexivity|apply pauli_self]. }
    eapply implements_meq; [exact G|]. apply (term_hermitian (K := CC) n ci); [apply injective_projections; cbn; ring|now apply canonical_nodup|exact Hn].
  Qed.
End PauliCircuits.
