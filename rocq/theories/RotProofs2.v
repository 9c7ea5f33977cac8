(** Proofs for C83: the loop over the arrays. *)
From Coq Require Import Ring.
From Verif Require Import Base BaseFacts MatModel MatFacts LiftSpec OpModel OpSpec FermiModel FermiSpec TensorModel TensorSpec DiagSpec ConvModel RotModel RotSpec RdmProofs RotProofs.
Open Scope list_scope.
Local Open Scope nat_scope.

Section S.
  Context {K : cring}.
  Add Ring Kring_rot2 : (kth K).
  Open Scope K_scope.
  Definition entries_ok (n : nat) (lo : nat) (h : heap K) (l : list (key * entry K)) : Prop :=
    forall k e, In (k, e) l -> match e with Num _ => k = [] | Arr r => k <> [] /\ (lo <= r)%nat /\ (r < length h)%nat /\ shape0 (read h r) = n end.
  Lemma rd_app (h g : heap K) r : (r < length h)%nat -> read (h ++ g) r = read h r.
  Proof. intros H. unfold read. apply app_nth1. exact H. Qed.
  Section Loop.
    Context (n : nat) (R : mat K) (Hr : nr (enlarged n R) = n) (Hc : nc (enlarged n R) = n).
    Notation L := (rotated_ladder n (enlarged n R)).
    Notation sums h F l i j := (fold_right (fun kv s => sum_over n (length (fst kv)) (fun q => element h (snd kv) q * ent (F (combine q (fst kv))) i j) + s) 0 l).
    Lemma change_ok (x : ndarray K) k : shape0 x = n -> (length k <= 26)%nat ->
      exists y, general_basis_change x R k = Ok y /\ shape0 y = n /\ forall new, data y new = fold_left (fun s old => s + data x old * rotation_factors (enlarged n R) k old new) (indices (shape0 x) (length k)) 0.
    Proof.
      intros Sx Lk. unfold general_basis_change. rewrite Sx. cbn zeta. destruct (Nat.ltb_spec 26 (length k)); [lia|]. rewrite Hr, Nat.eqb_refl. eexists. split; [reflexivity|]. cbn [shape0 data]. split; [exact Hc|]. reflexivity.
    Qed.
    Lemma rotate_loop l : forall h, entries_ok n 0 h l -> (forall k e, In (k, e) l -> (length k <= 26)%nat) ->
      exists h' d, rotate_entries h R l = (h', d, Ok tt) /\ (exists g, h' = h ++ g) /\ dkeys d = dkeys l /\ entries_ok n (length h) h' d /\ unshared d /\
        (forall i j, (i < 2 ^ n)%nat -> (j < 2 ^ n)%nat -> sums h' (fterm_matrix (K := K) n) d i j = sums h (replaced_term n L) l i j).
    Proof.
      induction l as [|[k e] l IH]; intros h He Hl.
      - exists h, []. cbn [rotate_entries]. split; [reflexivity|]. split; [exists []; symmetry; apply app_nil_r|]. split; [reflexivity|]. split; [intros k e []|]. split; [intros k1 k2 r []|]. reflexivity.
      - assert (He' : entries_ok n 0 h l) by (intros k' e' H; apply (He k' e'); right; exact H). assert (Hl' : forall k e, In (k, e) l -> (length k <= 26)%nat) by (intros k' e' H; apply (Hl k' e'); right; exact H).
        destruct e as [c|r].
        + pose proof (He k (Num c) (or_introl eq_refl)) as Ek. cbn in Ek. subst k. destruct (IH h He' Hl') as (h' & d & E & G & D & O & U & Q). exists h', (([], Num c) :: d). cbn [rotate_entries]. rewrite E.
          split; [reflexivity|]. split; [exact G|]. split; [unfold dkeys in *; cbn [map fst]; rewrite D; reflexivity|]. split.
          * intros k' e' [H|H]; [injection H as <- <-; reflexivity|]. apply (O k' e' H).
          * split; [intros k1 k2 r [H|H] [H'|H']; try discriminate; apply (U k1 k2 r H H')|]. intros i j Hi Hj. cbn [fold_right fst snd length sum_over combine]. rewrite Q by auto. reflexivity.
        + destruct (He k (Arr r) (or_introl eq_refl)) as (Nk & _ & Lr & Sr). destruct (change_ok (read h r) k Sr (Hl k (Arr r) (or_introl eq_refl))) as (y & Ey & Sy & Dy).
          destruct (IH (h ++ [y])) as (h' & d & E & [g G] & D & O & U & Q); [|exact Hl'|].
          { intros k' e' H. specialize (He' k' e' H). destruct e' as [|r']; [exact He'|]. destruct He' as (X1 & X2 & X3 & X4). rewrite app_length, rd_app by exact X3. cbn [length]. repeat split; auto; lia. }
          exists h', ((k, Arr (length h)) :: d). assert (Ex : rotate_entries h R ((k, Arr r) :: l) = (h', (k, Arr (length h)) :: d, Ok tt)) by (cbn [rotate_entries]; destruct k; [congruence|]; rewrite Ey, E; reflexivity).
          split; [exact Ex|]. split; [exists (y :: g); rewrite G, <- app_assoc; reflexivity|]. split; [unfold dkeys in *; cbn [map fst]; rewrite D; reflexivity|].
          assert (Ry : read h' (length h) = y). { rewrite G, rd_app by (rewrite app_length; cbn; lia). unfold read. rewrite app_nth2, Nat.sub_diag by lia. reflexivity. }
          rewrite app_length in O. cbn [length] in O. split; [|split].
          * intros k' e' [H|H].
            -- injection H as <- <-. rewrite Ry. repeat split; auto. rewrite G, !app_length. cbn; lia.
            -- specialize (O k' e' H). destruct e' as [|r']; [exact O|]. destruct O as (X1 & X2 & X3 & X4). repeat split; auto; lia.
          * intros k1 k2 r' [H|H] [H'|H'].
            -- congruence.
            -- injection H as <- <-. specialize (O _ _ H'). cbn in O. lia.
            -- injection H' as <- <-. specialize (O _ _ H). cbn in O. lia.
            -- apply (U k1 k2 r' H H').
          * intros i j Hi Hj. cbn [fold_right fst snd element]. rewrite Q by auto. rewrite Ry. f_equal; [apply rotated_sum; auto|].
            clear - He'. induction l as [|[k' e'] l IHl]; [reflexivity|]. cbn [fold_right fst snd]. rewrite IHl by (intros k2 e2 H; apply (He' k2 e2); right; exact H). f_equal.
            apply so_ext. intros q _ _. destruct e' as [|r']; [reflexivity|]. destruct (He' k' (Arr r') (or_introl eq_refl)) as (_ & _ & X & _). cbn [element]. rewrite rd_app by exact X. reflexivity.
    Qed.
  End Loop.
End S.
