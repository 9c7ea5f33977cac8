(** C72: the diagonal part of an operator, and the particle number operator. *)
From Coq Require Import Ring.
From Verif Require Import Base BaseFacts MatModel MatFacts LiftSpec LiftProofs OpModel OpSpec OpProofs PauliProofs FermiModel FermiSpec TensorModel TensorSpec TensorProofs TensorProps ConvModel ConvProofs ConvSpec
  DiagModel DiagSpec DiagProofs DiagProofs2.
Open Scope list_scope.
Local Open Scope nat_scope.

Section C72.
  Context {K : cring}.
  Add Ring Kring_c72 : (kth K).
  Open Scope K_scope.
  Notation dict := (list (key * entry K)).

  Definition made (n : nat) (h h' : heap K) (diagonal : bool) (kv kv' : key * entry K) : Prop :=
    fst kv' = fst kv /\ sized n h' (snd kv') /\ live h' (snd kv') /\
    forall i, addresses n (fst kv) i -> element h' (snd kv') i = if Bool.eqb (term_is_diagonal (fst kv) i) diagonal then element h (snd kv) i else 0.
  Lemma made_psum n h h' b (d d' : dict) x y : length x = n -> length y = n -> Forall2 (made n h h' b) d d' ->
    psum h' n x y d' = if Bool.eqb (list_eqb Bool.eqb x y) b then psum h n x y d else 0.
  Proof.
    intros Hx Hy. induction 1 as [|[k e] [k' e'] d d' (E & _ & _ & H) _ IH]; [destruct (Bool.eqb _ _); reflexivity|]. cbn [fst snd] in *. subst k'. cbn [psum fold_right]. fold (psum h' n x y d'). fold (psum h n x y d). rewrite IH. destruct b.
    - rewrite (part_diag n h h' k e e' x y) by (auto; intros i Hi; rewrite H by auto; destruct (term_is_diagonal k i); reflexivity). destruct (list_eqb Bool.eqb x y); cbn [Bool.eqb]; ring.
    - rewrite (part_rem n h h' k e e' x y) by (auto; intros i Hi; rewrite H by auto; destruct (term_is_diagonal k i); reflexivity). destruct (list_eqb Bool.eqb x y); cbn [Bool.eqb]; ring.
  Qed.
  Lemma made_get n h h' b (d d' : dict) k i : Forall2 (made n h h' b) d d' -> addresses n k i ->
    vald h' d' k i = if Bool.eqb (term_is_diagonal k i) b then vald h d k i else 0.
  Proof.
    intros H A. unfold vald. induction H as [|[k1 e] [k' e'] d d' (E & _ & _ & H) _ IH]; [cbn; destruct (Bool.eqb _ _); reflexivity|]. cbn [fst snd] in *. subst k'. cbn [dget].
    destruct (key_eqb k k1) eqn:Q; [|exact IH]. apply key_eqb_spec in Q. subst k1. apply H, A.
  Qed.
  Lemma made_keys n h h' b (d d' : dict) : Forall2 (made n h h' b) d d' -> dkeys d' = dkeys d.
  Proof. induction 1 as [|kv kv' d d' (E & _) _ IH]; [reflexivity|]. cbn. rewrite E. f_equal. exact IH. Qed.
  Lemma others_keys (d : dict) k : In k (dkeys (others d)) <-> In k (dkeys d) /\ k <> [].
  Proof.
    unfold others. induction d as [|[k' e] d IH]; [cbn; tauto|]. cbn [filter fst]. destruct k' as [|b k']; cbn [key_eqb list_eqb negb dkeys map fst In]; fold (dkeys (filter (fun kv : key * entry K => negb (key_eqb (fst kv) [])) d)); fold (dkeys d); rewrite ?IH; intuition congruence.
  Qed.
  Lemma others_NoDup (d : dict) : NoDup (dkeys d) -> NoDup (dkeys (others d)).
  Proof.
    induction d as [|[k e] d IH]; [auto|]. intros N. inversion N as [|? ? Hk Hn]; subst. cbn [others filter fst]. fold (others d). destruct (negb (key_eqb k [])); [|auto]. cbn [dkeys map fst]. constructor; auto.
    intros X. apply others_keys in X. apply Hk. apply X.
  Qed.
  Lemma others_get (d : dict) k : k <> [] -> dget key_eqb k (others d) = dget key_eqb k d.
  Proof.
    intros N. unfold others. induction d as [|[k' e] d IH]; [reflexivity|]. cbn [filter fst dget]. destruct k' as [|b k']; cbn [key_eqb list_eqb negb].
    - destruct (key_eqb k []) eqn:Q; [apply key_eqb_spec in Q; congruence|]. exact IH.
    - cbn [dget]. destruct (key_eqb k (b :: k')); [reflexivity|exact IH].
  Qed.
  Lemma part_constant (h : heap K) n x y e : length x = n -> length y = n -> part h n x y ([], e) = if list_eqb Bool.eqb x y then element h e [] else 0.
  Proof.
    intros Hx Hy. unfold part. cbn [fst snd length sum_over combine fterm_matrix fold_right ent eye]. rewrite eqb_bval by congruence. destruct (list_eqb Bool.eqb x y); cbn [delta]; ring.
  Qed.
  Lemma psum_others (h : heap K) n x y (d : dict) : length x = n -> length y = n -> NoDup (dkeys d) -> psum h n x y d = (if list_eqb Bool.eqb x y then vald h d [] [] else 0) + psum h n x y (others d).
  Proof.
    intros Hx Hy. induction d as [|[k e] d IH]; intros N; [cbn; destruct (list_eqb Bool.eqb x y); ring|]. inversion N as [|? ? Hk Hn]; subst. specialize (IH Hn).
    cbn [psum fold_right others filter fst]. fold (psum h (length x) x y d). fold (others d). destruct k as [|b k]; cbn [key_eqb list_eqb negb].
    - assert (O : psum h (length x) x y d = psum h (length x) x y (others d)).
      { rewrite IH. assert (Z : vald h d [] [] = 0). { unfold vald. destruct (dget key_eqb [] d) eqn:G; [|reflexivity]. exfalso. apply Hk. apply (dget_In _ key_eqb_spec) in G. apply in_map_iff. exists ([], e0). auto. }
        rewrite Z. destruct (list_eqb Bool.eqb x y); ring. }
      rewrite O, part_constant by auto. unfold vald. cbn [dget key_eqb list_eqb]. destruct (list_eqb Bool.eqb x y); reflexivity.
    - cbn [psum fold_right]. fold (psum h (length x) x y (others d)). rewrite IH. unfold vald. cbn [dget key_eqb list_eqb]. ring.
  Qed.
  Lemma made_valid n h h' b (d d' : dict) : Forall2 (made n h h' b) d d' -> valid h' d' /\ forall k e, In (k, e) d' -> sized n h' e.
  Proof.
    induction 1 as [|kv [k' e'] d d' (_ & S1 & L & _) _ [I1 I2]]; [split; intros k e []|]. cbn [snd] in *. split; intros k e [E|H]; try (inversion E; subst; assumption); eauto.
  Qed.

  Definition arrays (d : dict) : Prop := unshared d /\ forall k e, In (k, e) d -> exists r, e = Arr r.
  Lemma placed_arrays s l : arrays (placed s l).
  Proof. split; [apply placed_unshared|]. intros k e H. destruct (placed_bounds _ _ _ _ H) as (r & E & _). eauto. Qed.
  (** The split, from the two lists of new arrays. *)
  Lemma split_ok h (a : ptensor K) c h' (dd dr : dict) extra : tensor_ok h a -> constant a = Ok c -> preserved h h' ->
    arrays dd -> arrays dr ->
    Forall2 (made (n_qubits a) h h' true) (others (n_body_tensors a)) dd -> Forall2 (made (n_qubits a) h h' false) (others (n_body_tensors a)) dr ->
    extra = [] \/ extra = [([], Num 0)] ->
    exists d r, polynomial_tensor h' (([], Num c) :: dd) = Ok d /\ polynomial_tensor h' (extra ++ dr) = Ok r /\ is_split h a h' d r.
  Proof.
    intros Ok Hc P [Ud Ad] [Ur Ar] Fd Fr Hex. set (n := n_qubits a) in *. set (l := others (n_body_tensors a)) in *.
    destruct (ok_parts h a Ok) as (N & U & V & Sz & Kd). pose proof (made_valid _ _ _ _ _ _ Fd) as [Vd Sd]. pose proof (made_valid _ _ _ _ _ _ Fr) as [Vr Sr].
    assert (Nl : exists k e l', l = (k, e) :: l').
    { destruct Ok as (_ & _ & (k & r & Hin) & Hk). pose proof (Hk _ _ Hin) as (Hne & _). assert (X : In k (dkeys l)) by (apply others_keys; split; [apply in_map_iff; exists (k, Arr r); auto|auto]).
      destruct l as [|[k1 e1] l']; [destruct X|eauto]. }
    assert (Ll : forall k, In k (dkeys l) -> k <> []) by (intros k Hk; apply (proj1 (others_keys (n_body_tensors a) k) Hk)).
    assert (ND : NoDup (dkeys l)) by (apply others_NoDup; exact N).
    assert (Kd1 : dkeys dd = dkeys l) by apply (made_keys _ _ _ _ _ _ Fd). assert (Kr1 : dkeys dr = dkeys l) by apply (made_keys _ _ _ _ _ _ Fr).
    destruct Nl as (k0 & e0 & l' & El).
    assert (Kk : forall (d : dict) k e, dkeys d = dkeys l -> (forall k e, In (k, e) d -> exists r, e = Arr r) -> In (k, e) d -> kind e = negb (key_eqb k [])).
    { intros d k e Hd Ha Hin. destruct (Ha _ _ Hin) as (r & ->). cbn. assert (k <> []) by (apply Ll; rewrite <- Hd; apply in_map_iff; exists (k, Arr r); auto). destruct k; [congruence|reflexivity]. }
    assert (Hd0 : exists s1 dd', dd = (k0, Arr s1) :: dd').
    { rewrite El in Kd1. destruct dd as [|[k1 e1] dd']; [discriminate|]. destruct (Ad k1 e1) as (r & ->); [left; auto|]. cbn in Kd1. inversion Kd1; subst. eauto. }
    assert (Hr0 : exists s2 dr', dr = (k0, Arr s2) :: dr').
    { rewrite El in Kr1. destruct dr as [|[k1 e1] dr']; [discriminate|]. destruct (Ar k1 e1) as (r & ->); [left; auto|]. cbn in Kr1. inversion Kr1; subst. eauto. }
    destruct Hd0 as (s1 & dd' & Ed). destruct Hr0 as (s2 & dr' & Er).
    assert (Pd : polynomial_tensor h' (([], Num c) :: dd) = Base.Ok {| n_qubits := n; n_body_tensors := ([], Num c) :: dd |}).
    { assert (Rd : shape0 (read h' s1) = n) by (apply (Sd k0 (Arr s1)); rewrite Ed; left; reflexivity). unfold polynomial_tensor. rewrite Ed. cbn [rbind n_qubits]. rewrite Rd. reflexivity. }
    assert (Pr : polynomial_tensor h' (extra ++ dr) = Base.Ok {| n_qubits := n; n_body_tensors := extra ++ dr |}).
    { assert (k0 <> []) by (apply Ll; rewrite El; left; reflexivity). assert (Rr : shape0 (read h' s2) = n) by (apply (Sr k0 (Arr s2)); rewrite Er; left; reflexivity).
      unfold polynomial_tensor. rewrite Er. destruct Hex as [-> | ->]; cbn [app]; [destruct k0; [congruence|]|]; cbn [rbind n_qubits]; rewrite Rr; reflexivity. }
    exists {| n_qubits := n; n_body_tensors := ([], Num c) :: dd |}, {| n_qubits := n; n_body_tensors := extra ++ dr |}. split; [exact Pd|]. split; [exact Pr|].
    assert (Hcv : c = vald h (n_body_tensors a) [] []).
    { unfold constant in Hc. unfold vald. destruct (dget key_eqb [] (n_body_tensors a)) as [[v|r]|]; inversion Hc; reflexivity. }
    assert (Z : forall i, vald h' dr [] i = 0 /\ vald h (n_body_tensors a) [] i = c).
    { intros i. split.
      - unfold vald. destruct (dget key_eqb [] dr) eqn:G; [|reflexivity]. exfalso. apply (dget_In _ key_eqb_spec) in G. apply (Ll []); [|reflexivity]. rewrite <- Kr1. apply in_map_iff. exists ([], e). auto.
      - unfold constant in Hc. unfold vald. destruct (dget key_eqb [] (n_body_tensors a)) as [[v|r]|]; inversion Hc; reflexivity. }
    assert (Nod : forall d : dict, dkeys d = dkeys l -> NoDup (dkeys (([], Num c) :: d))).
    { intros d Hd. change (NoDup ([] :: dkeys d)). rewrite Hd. constructor; [intros X; apply (Ll [] X); reflexivity|exact ND]. }
    split; [exact P|]. split; [|split; [|split; [reflexivity|split; [reflexivity|split]]]].
    - apply ok_build.
      + apply Nod, Kd1.
      + intros k1 k2 r H1 H2. destruct H1 as [H1|H1]; [discriminate|]. destruct H2 as [H2|H2]; [discriminate|]. eapply Ud; eauto.
      + exists k0, s1. right. rewrite Ed. left. reflexivity.
      + intros k e [E|H]; [inversion E; exact I|eauto].
      + intros k e [E|H]; [inversion E; subst; split; [exact I|reflexivity]|]. split; [eauto|]. apply (Kk dd); auto.
    - apply ok_build.
      + destruct Hex as [-> | ->]; cbn [app]; [rewrite Kr1; exact ND|]. change (NoDup ([] :: dkeys dr)). rewrite Kr1. constructor; [intros X; apply (Ll [] X); reflexivity|exact ND].
      + assert (Q : forall k r, In (k, Arr r) (extra ++ dr) -> In (k, Arr r) dr) by (intros k r; destruct Hex as [-> | ->]; cbn [app In]; [auto|intros [X|X]; [discriminate|auto]]).
        intros k1 k2 r H1 H2. apply Q in H1, H2. eapply Ur; eauto.
      + exists k0, s2. apply in_or_app. right. rewrite Er. left. reflexivity.
      + intros k e H. apply in_app_or in H as [H|H]; [|eauto]. destruct Hex as [-> | ->]; [destruct H|]. destruct H as [H|[]]. inversion H. exact I.
      + intros k e H. apply in_app_or in H as [H|H]; [|split; [eauto|apply (Kk dr); auto]]. destruct Hex as [-> | ->]; [destruct H|]. destruct H as [H|[]]. inversion H; subst. split; [exact I|reflexivity].
    - intros k i A. unfold value. cbn [n_body_tensors]. fold (vald h' (([], Num c) :: dd) k i). fold (vald h' (extra ++ dr) k i). fold (vald h (n_body_tensors a) k i). destruct k as [|b k].
      + rewrite (proj2 (Z i)). assert (X : vald h' (extra ++ dr) [] i = 0) by (destruct Hex as [-> | ->]; [apply (proj1 (Z i))|reflexivity]). rewrite X. unfold vald. cbn [dget key_eqb list_eqb]. cbn [element]. ring.
      + assert (X : vald h' (extra ++ dr) (b :: k) i = vald h' dr (b :: k) i) by (destruct Hex as [-> | ->]; reflexivity).
        rewrite X. change (vald h' (([], Num c) :: dd) (b :: k) i) with (vald h' dd (b :: k) i). rewrite (made_get _ _ _ _ _ _ _ _ Fd A), (made_get _ _ _ _ _ _ _ _ Fr A). unfold vald. unfold l. rewrite others_get by congruence.
        destruct (term_is_diagonal (b :: k) i); cbn [Bool.eqb]; ring.
    - intros x y Hx Hy. change (length x = n) in Hx. change (length y = n) in Hy.
      change (tensor_entry h' {| n_qubits := n; n_body_tensors := ([], Num c) :: dd |} x y) with (part h' n x y ([], Num c) + psum h' n x y dd).
      change (tensor_entry h' {| n_qubits := n; n_body_tensors := extra ++ dr |} x y) with (psum h' n x y (extra ++ dr)).
      change (tensor_entry h a x y) with (psum h n x y (n_body_tensors a)).
      rewrite (made_psum n h h' true l dd x y Hx Hy Fd), (psum_others h n x y (n_body_tensors a)) by auto. fold l. rewrite part_constant by auto. cbn [element].
      assert (X : psum h' n x y (extra ++ dr) = psum h' n x y dr).
      { destruct Hex as [-> | ->]; [reflexivity|]. change (psum h' n x y ([([], Num 0)] ++ dr)) with (part h' n x y ([], Num 0) + psum h' n x y dr). rewrite part_constant by auto. cbn [element]. destruct (list_eqb Bool.eqb x y); ring. }
      rewrite X, (made_psum n h h' false l dr x y Hx Hy Fr). rewrite <- Hcv. destruct (list_eqb Bool.eqb x y); cbn [Bool.eqb]; split; ring.
  Qed.

  Lemma arranged_made n h h' s l : arranged n h h' s l -> Forall2 (made n h h' false) l (placed s l) /\ Forall2 (made n h h' true) l (placed (S s) l).
  Proof.
    induction 1 as [s|s kv l Hs (S1 & S2 & E) Ha IH]; [split; constructor|]. destruct IH as [I1 I2]. split; cbn [placed]; constructor; auto; unfold made; cbn [fst snd].
    - split; [reflexivity|]. split; [exact S1|]. split; [cbn; lia|]. intros i Hi. rewrite (proj2 (E i Hi)). destruct (term_is_diagonal (fst kv) i); reflexivity.
    - split; [reflexivity|]. split; [exact S2|]. split; [cbn; lia|]. intros i Hi. rewrite (proj1 (E i Hi)). destruct (term_is_diagonal (fst kv) i); reflexivity.
  Qed.
  (** Any polynomial tensor. *)
  Theorem C72_tensor h (a : ptensor K) : tensor_ok h a -> exists h' d r, get_diagonal_component TensorClass h a = Ok (h', (d, r)) /\ is_split h a h' d r.
  Proof.
    intros Ha. destruct (ok_parts h a Ha) as (N & U & V & Sz & Kd). pose proof (constant_value h a Ha) as Hc. set (c := value h a [] []) in *.
    destruct (key_loop (n_qubits a) h c (n_body_tensors a) [] []) as (t & E & Lt & A); auto; [apply others_NoDup, N|constructor|]. rewrite app_nil_r in E. cbn [placed app] in E, A.
    destruct (arranged_made _ _ _ _ _ A) as [Fr Fd].
    destruct (split_ok h a c (h ++ t) (placed (S (length h)) (others (n_body_tensors a))) (placed (length h) (others (n_body_tensors a))) []) as (d & r & Pd & Pr & S); auto; try apply placed_arrays; [apply preserved_app|].
    exists (h ++ t), d, r. split; [|exact S]. cbn [get_diagonal_component]. unfold diagonal_polynomial. rewrite Hc. cbn [rbind]. match goal with |- context [fold_left ?f ?l ?z] => match type of E with _ = ?R => assert (E' : fold_left f l z = R) by exact E; rewrite E' end end. rewrite Pd. cbn [rbind]. cbn [app] in Pr. rewrite Pr. reflexivity.
  Qed.

  (** Interaction operators. *)
  Lemma diagonal_two p q r s : term_is_diagonal [true; true; false; false] [p; q; r; s] = (Nat.eqb p r && Nat.eqb q s) || (Nat.eqb p s && Nat.eqb q r).
  Proof.
    apply eq_true_iff_eq. rewrite diagonal_counts. cbn [combine]. unfold num. cbn [filter fst snd Bool.eqb andb]. split.
    - intros H. pose proof (H p) as Hp. pose proof (H q) as Hq. pose proof (H r) as Hr. rewrite !Nat.eqb_refl in *. rewrite (Nat.eqb_sym r p), (Nat.eqb_sym s p), (Nat.eqb_sym r q), (Nat.eqb_sym s q), (Nat.eqb_sym q p), (Nat.eqb_sym s r) in *.
      destruct (Nat.eqb_spec p q), (Nat.eqb_spec p r), (Nat.eqb_spec p s), (Nat.eqb_spec q r), (Nat.eqb_spec q s), (Nat.eqb_spec r s); cbn in *; try reflexivity; try discriminate; try congruence.
    - intros H m. apply orb_true_iff in H as [H|H]; apply andb_true_iff in H as [H1 H2]; apply Nat.eqb_eq in H1, H2; subst; destruct (Nat.eqb s m), (Nat.eqb r m); reflexivity.
  Qed.
  Lemma diagonal_one p q : term_is_diagonal [true; false] [p; q] = Nat.eqb p q.
  Proof.
    apply eq_true_iff_eq. rewrite diagonal_counts. cbn [combine]. unfold num. cbn [filter fst snd Bool.eqb andb]. split.
    - intros H. specialize (H p). rewrite Nat.eqb_refl in H. rewrite Nat.eqb_sym. destruct (Nat.eqb q p); [reflexivity|discriminate].
    - intros H m. apply Nat.eqb_eq in H. subst. destruct (Nat.eqb _ m); reflexivity.
  Qed.
  Definition hit2 (i : list nat) (pq : nat * nat) : bool := list_eqb Nat.eqb i [fst pq; snd pq; fst pq; snd pq] || list_eqb Nat.eqb i [fst pq; snd pq; snd pq; fst pq].
  Lemma two_fold (x : TensorModel.ndarray K) l : forall d r, let dr := fold_left (two_body_step x) l (d, r) in shape0 (fst dr) = shape0 d /\ shape0 (snd dr) = shape0 r /\
    forall i, data (fst dr) i = (if existsb (hit2 i) l then data x i else data d i) /\ data (snd dr) i = (if existsb (hit2 i) l then 0 else data r i).
  Proof.
    induction l as [|[p q] l IH]; intros d r; cbn zeta; cbn [fold_left existsb]; [auto|]. cbn [two_body_step]. 
    match goal with |- context [fold_left _ l (?d1, ?r1)] => destruct (IH d1 r1) as (S1 & S2 & E) end. split; [exact S1|]. split; [exact S2|]. intros i. destruct (E i) as [E1 E2]. rewrite E1, E2. cbn [assign data]. change (hit2 i (p, q)) with (list_eqb Nat.eqb i [p; q; p; q] || list_eqb Nat.eqb i [p; q; q; p]).
    destruct (existsb (hit2 i) l); [rewrite !orb_true_r; auto|]. rewrite !orb_false_r.
    destruct (list_eqb Nat.eqb i [p; q; q; p]) eqn:Q1; [apply index_eqb_spec in Q1; subst i; rewrite orb_true_r; auto|]. rewrite orb_false_r.
    destruct (list_eqb Nat.eqb i [p; q; p; q]) eqn:Q2; [apply index_eqb_spec in Q2; subst i; auto|auto].
  Qed.
  Lemma one_fold (x : TensorModel.ndarray K) l : forall d r, let dr := fold_left (one_body_step x) l (d, r) in shape0 (fst dr) = shape0 d /\ shape0 (snd dr) = shape0 r /\
    forall i, data (fst dr) i = (if existsb (fun p => list_eqb Nat.eqb i [p; p]) l then data x i else data d i) /\ data (snd dr) i = (if existsb (fun p => list_eqb Nat.eqb i [p; p]) l then 0 else data r i).
  Proof.
    induction l as [|p l IH]; intros d r; cbn zeta; cbn [fold_left existsb]; [auto|]. cbn [one_body_step].
    match goal with |- context [fold_left _ l (?d1, ?r1)] => destruct (IH d1 r1) as (S1 & S2 & E) end. split; [exact S1|]. split; [exact S2|]. intros i. destruct (E i) as [E1 E2]. rewrite E1, E2. cbn [assign data].
    destruct (existsb _ l); [rewrite !orb_true_r; auto|]. rewrite !orb_false_r. destruct (list_eqb Nat.eqb i [p; p]) eqn:Q; [apply index_eqb_spec in Q; subst i; auto|auto].
  Qed.
  Lemma hits_two n i : addresses n [true; true; false; false] i -> existsb (hit2 i) (flat_map (fun p => map (pair p) (seq 0 n)) (seq 0 n)) = term_is_diagonal [true; true; false; false] i.
  Proof.
    intros [Hl Hn]. destruct i as [|p [|q [|r [|s [|]]]]]; try discriminate. repeat match goal with H : Forall _ (_ :: _) |- _ => inversion H; clear H; subst end. rewrite diagonal_two. apply eq_true_iff_eq. split.
    - intros H. apply existsb_exists in H as ([u v] & _ & H). unfold hit2 in H. cbn [fst snd] in H. apply orb_true_iff in H as [H|H]; apply index_eqb_spec in H; inversion H; subst; rewrite !Nat.eqb_refl, ?orb_true_r; reflexivity.
    - intros H. apply existsb_exists. exists (p, q). split.
      + apply in_flat_map. exists p. split; [apply in_seq; lia|]. apply in_map. apply in_seq. lia.
      + unfold hit2. cbn [fst snd]. apply orb_true_iff in H as [H|H]; apply andb_true_iff in H as [Q1 Q2]; apply Nat.eqb_eq in Q1, Q2; subst; cbn [list_eqb]; rewrite !Nat.eqb_refl; cbn [andb]; rewrite ?orb_true_r; reflexivity.
  Qed.
  Lemma hits_one n i : addresses n [true; false] i -> existsb (fun p => list_eqb Nat.eqb i [p; p]) (seq 0 n) = term_is_diagonal [true; false] i.
  Proof.
    intros [Hl Hn]. destruct i as [|p [|q [|]]]; try discriminate. repeat match goal with H : Forall _ (_ :: _) |- _ => inversion H; clear H; subst end. rewrite diagonal_one. apply eq_true_iff_eq. split.
    - intros H. apply existsb_exists in H as (u & _ & H). apply index_eqb_spec in H. inversion H; subst. apply Nat.eqb_refl.
    - intros H. apply Nat.eqb_eq in H. subst q. apply existsb_exists. exists p. split; [apply in_seq; lia|]. apply index_eqb_spec. reflexivity.
  Qed.
  Lemma pair_arrays s : arrays [([true; false], Arr s); ([true; true; false; false], Arr (S s))].
  Proof.
    split; [|intros k e [E|[E|[]]]; inversion E; eauto]. intros k1 k2 r [E1|[E1|[]]] [E2|[E2|[]]]; inversion E1; inversion E2; subst; try reflexivity; lia.
  Qed.
  Theorem C72_interaction h (a : ptensor K) : interaction_ok h a -> exists h' d r, get_diagonal_component InteractionClass h a = Ok (h', (d, r)) /\ is_split h a h' d r.
  Proof.
    intros [Ha Hk]. destruct (ok_parts h a Ha) as (N & U & V & Sz & Kd). pose proof (constant_value h a Ha) as Hc. set (c := value h a [] []) in *.
    destruct (n_body_tensors a) as [|[k0 e0] [|[k1 e1] [|[k2 e2] [|]]]] eqn:Ea; try discriminate. cbn [dkeys map fst] in Hk. inversion Hk; subst k0 k1 k2. clear Hk.
    assert (X1 : exists r1, e1 = Arr r1). { pose proof (Kd [true; false] e1) as Q. cbn in Q. destruct e1 as [v|r1]; [specialize (Q ltac:(auto)); discriminate|eauto]. }
    assert (X2 : exists r2, e2 = Arr r2). { pose proof (Kd [true; true; false; false] e2) as Q. cbn in Q. destruct e2 as [v|r2]; [specialize (Q ltac:(auto)); discriminate|eauto]. }
    destruct X1 as [r1 ->]. destruct X2 as [r2 ->].
    assert (Z1 : shape0 (read h r1) = n_qubits a) by (apply (Sz [true; false] (Arr r1)); cbn; auto). assert (Z2 : shape0 (read h r2) = n_qubits a) by (apply (Sz [true; true; false; false] (Arr r2)); cbn; auto).
    set (x1 := read h r1) in *. set (x2 := read h r2) in *. set (n := n_qubits a) in *.
    pose proof (two_fold x2 (flat_map (fun p => map (pair p) (seq 0 n)) (seq 0 n)) (zeros_array n) x2) as F2. pose proof (one_fold x1 (seq 0 n) (zeros_array n) x1) as F1. cbn zeta in F1, F2.
    destruct (fold_left (two_body_step x2) (flat_map (fun p => map (pair p) (seq 0 n)) (seq 0 n)) (zeros_array n, x2)) as [d2 t2] eqn:G2. destruct (fold_left (one_body_step x1) (seq 0 n) (zeros_array n, x1)) as [d1 t1] eqn:G1.
    cbn [fst snd zeros_array shape0 data] in F1, F2. destruct F1 as (A1 & A2 & A3). destruct F2 as (B1 & B2 & B3). set (h' := h ++ [d1; d2; t1; t2]).
    assert (R1 : read h' (length h) = d1) by apply read_new.
    assert (R2 : read h' (S (length h)) = d2). { replace (S (length h)) with (length (h ++ [d1])) by (rewrite app_length; cbn [length]; lia). unfold h'. replace (h ++ [d1; d2; t1; t2]) with ((h ++ [d1]) ++ d2 :: [t1; t2]) by (rewrite <- app_assoc; reflexivity). apply read_new. }
    assert (R3 : read h' (length h + 2) = t1). { replace (length h + 2)%nat with (length (h ++ [d1; d2])) by (rewrite app_length; cbn [length]; lia). unfold h'. replace (h ++ [d1; d2; t1; t2]) with ((h ++ [d1; d2]) ++ t1 :: [t2]) by (rewrite <- app_assoc; reflexivity). apply read_new. }
    assert (R4 : read h' (S (length h + 2)) = t2). { replace (S (length h + 2))%nat with (length (h ++ [d1; d2; t1])) by (rewrite app_length; cbn [length]; lia). unfold h'. replace (h ++ [d1; d2; t1; t2]) with ((h ++ [d1; d2; t1]) ++ t2 :: []) by (rewrite <- app_assoc; reflexivity). apply read_new. }
    assert (L : length h' = (length h + 4)%nat) by (unfold h'; rewrite app_length; reflexivity).
    assert (O : others (n_body_tensors a) = [([true; false], Arr r1); ([true; true; false; false], Arr r2)]) by (rewrite Ea; reflexivity).
    destruct (split_ok h a c h' [([true; false], Arr (length h)); ([true; true; false; false], Arr (S (length h)))] [([true; false], Arr (length h + 2)%nat); ([true; true; false; false], Arr (S (length h + 2)))] [([], Num 0)]) as (d & r & Pd & Pr & Sp); auto; try apply pair_arrays.
    - apply preserved_app.
    - rewrite O. constructor; [|constructor; [|constructor]]; unfold made; cbn [fst snd sized live element]; fold n; rewrite ?R1, ?R2; (split; [reflexivity|]); (split; [assumption|]); (split; [lia|]); intros i Hi.
      + rewrite (proj1 (A3 i)), (hits_one n) by exact Hi. destruct (term_is_diagonal [true; false] i); reflexivity.
      + rewrite (proj1 (B3 i)), (hits_two n) by exact Hi. destruct (term_is_diagonal [true; true; false; false] i); reflexivity.
    - rewrite O. constructor; [|constructor; [|constructor]]; unfold made; cbn [fst snd sized live element]; fold n; rewrite ?R3, ?R4; (split; [reflexivity|]); (split; [congruence|]); (split; [lia|]); intros i Hi.
      + rewrite (proj2 (A3 i)), (hits_one n) by exact Hi. destruct (term_is_diagonal [true; false] i); reflexivity.
      + rewrite (proj2 (B3 i)), (hits_two n) by exact Hi. destruct (term_is_diagonal [true; true; false; false] i); reflexivity.
    - exists h', d, r. split; [|exact Sp]. cbn [get_diagonal_component]. unfold diagonal_interaction, array_at. rewrite Ea. cbn [dget key_eqb list_eqb Bool.eqb andb rbind]. rewrite Hc. cbn [rbind].
      fold x1 x2. rewrite Z1, Z2. fold n. rewrite G2, G1. fold h'. cbn [app] in Pr. rewrite Pd, Pr. reflexivity.
  Qed.
  Theorem C72_other_argument h (a : ptensor K) : get_diagonal_component OtherClass h a = Err TypeError.
  Proof. reflexivity. Qed.
End C72.
