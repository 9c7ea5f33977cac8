(** Terms with as many creation as annihilation operators conserve the number of particles. *)
From Coq Require Import Ring.
From Verif Require Import Base BaseFacts MatModel MatFacts LiftSpec LiftProofs OpModel OpSpec OpProofs PauliProofs OpProofs2 FermiModel FermiSpec FermiProofs FermiProofs2 FermiProofs3 SectorSpec SectorProofs.
Open Scope list_scope.
Local Open Scope nat_scope.

Definition b2n (b : bool) : nat := if b then 1 else 0.
Lemma particles_setb p d : forall c, p < length c -> particles (setb p d c) + b2n (nth p c false) = particles c + b2n d.
Proof.
  induction p as [|p IH]; intros [|x c] H; cbn [length] in H; try lia.
  - cbn [nth]. unfold setb. cbn. destruct x, d; cbn; lia.
  - cbn [nth]. change (setb (S p) d (x :: c)) with (x :: setb p d c). cbn [particles]. specialize (IH c ltac:(lia)). lia.
Qed.

Section S.
  Context {K : cring}.
  Add Ring Kring_sec2 : (kth K).
  Open Scope K_scope.
  Lemma fact_particles n t : forall c, on_modes n t -> length c = n ->
    fst (fact (K := K) t c) = 0 \/ (particles (snd (fact (K := K) t c)) + length (annihilators t) = particles c + length (creators t))%nat.
  Proof.
    induction t as [|[p d] t IH]; intros c H Hc; cbn [fact]; [right; cbn; lia|].
    assert (Hp : (p < n)%nat) by (apply (H (p, d)); left; auto). destruct (IH c) as [E|E]; auto; [intros f Hf; apply H; right; auto| |].
    - left. unfold mcomp. cbn [fst]. rewrite E. ring.
    - unfold mcomp, ladder_act. cbn [fst snd]. set (e := snd (fact (K := K) t c)) in *.
      assert (Le : length e = n) by (unfold e; rewrite fact_length; auto).
      destruct (Bool.eqb (nth p e false) (negb d)) eqn:B; [|left; ring]. right. apply Bool.eqb_prop in B.
      pose proof (particles_setb p d e ltac:(lia)) as P. rewrite B in P. destruct d; cbn [b2n negb] in P; unfold creators, annihilators in *; cbn [filter map snd negb length fst]; lia.
  Qed.
  Lemma fop_conserves n (a : fop K) : (forall t c, In (t, c) a -> on_modes n t /\ length (creators t) = length (annihilators t)) -> conserves_number n (fop_matrix n a).
  Proof.
    intros H x y Hx Hy N. rewrite fop_ent. induction a as [|[t c] a IH]; [reflexivity|]. cbn [lval fst snd]. rewrite IH by (intros u d Hu; apply (H u d); right; auto). clear IH.
    destruct (H t c (or_introl eq_refl)) as [Ht Hb]. destruct (fterm_mono (K := K) n t Ht) as (_ & _ & E). rewrite E.
    2,3: rewrite ?(proj1 (fterm_shape n t)), ?(proj2 (fterm_shape n t)); first [rewrite <- Hx; apply bval_lt|rewrite <- Hy; apply bval_lt].
    rewrite mono_ent by (auto; rewrite fact_length; auto). destruct (list_eqb Bool.eqb x _) eqn:L; [|ring]. apply (list_eqb_spec _ bool_eqb_spec) in L.
    destruct (fact_particles n t y Ht Hy) as [Z|Z]; [rewrite Z; ring|]. exfalso. apply N. rewrite L. lia.
  Qed.
End S.
