(** Proofs about graphs. *)
From Coq Require Import List ZArith QArith String Bool Lia.
From Verif Require Import Base BaseFacts Json CostModel GraphModel GraphSpec.
Import ListNotations.
Open Scope nat_scope.
Open Scope string_scope.
Open Scope list_scope.

Lemma node_eqb_spec : eqb_spec_of node_eqb.
Proof.
  intros [x|x] [y|y]; cbn; try (split; discriminate).
  - rewrite Z.eqb_eq. split; congruence.
  - rewrite String.eqb_eq. split; congruence.
Qed.
Lemma node_eq a b : node_eqb a b = true <-> a = b.
Proof. apply node_eqb_spec. Qed.
Lemma node_eqb_refl n : node_eqb n n = true.
Proof. apply node_eqb_spec. reflexivity. Qed.
Lemma node_eqb_sym a b : node_eqb a b = node_eqb b a.
Proof. destruct (node_eqb a b) eqn:E; symmetry; [apply node_eqb_spec; apply node_eqb_spec in E; auto|]. destruct (node_eqb b a) eqn:E'; [|reflexivity]. apply node_eqb_spec in E'. subst. rewrite node_eqb_refl in E. discriminate. Qed.
Ltac neq a b := let E := fresh "E" in destruct (node_eqb a b) eqn:E;
  [apply node_eqb_spec in E; subst | apply (eqb_spec_false node_eqb node_eqb_spec) in E].
Notation NS := node_eqb_spec.

(** *** graphs as functions *)
Definition tab (names : list node) (f : node -> list (node * attrs)) := map (fun n => (n, f n)) names.
Lemma tab_keys names f : map fst (tab names f) = names.
Proof. unfold tab. rewrite map_map. apply map_id. Qed.
Lemma tab_get names f n : dget node_eqb n (tab names f) = if memb node_eqb n names then Some (f n) else None.
Proof.
  induction names as [|a names IH]; [reflexivity|]. cbn. neq n a; cbn; [reflexivity|exact IH].
Qed.
Lemma tab_set names f u r : NoDup names -> In u names -> dset node_eqb u r (tab names f) = tab names (fun n => if node_eqb n u then r else f n).
Proof.
  intros ND Hin. induction names as [|a names IH]; [destruct Hin|]. inversion ND; subst. cbn [tab map dset]. fold (tab names f). rewrite (node_eqb_sym u a). neq a u.
  - unfold tab. cbn [map]. rewrite ?node_eqb_refl. f_equal. apply map_ext_in. intros n Hn. neq n u; [contradiction|reflexivity].
  - rewrite IH by (auto; destruct Hin; congruence || auto). reflexivity.
Qed.
Lemma tab_ext names f f' : (forall n, In n names -> f n = f' n) -> tab names f = tab names f'.
Proof. intros H. apply map_ext_in. intros n Hn. rewrite H by auto. reflexivity. Qed.
Lemma memb_true n l : In n l -> memb node_eqb n l = true.
Proof. apply (memb_In node_eqb NS). Qed.
Lemma memb_false n l : ~ In n l -> memb node_eqb n l = false.
Proof. intros H. destruct (memb node_eqb n l) eqn:E; [|reflexivity]. apply (memb_In node_eqb NS) in E. contradiction. Qed.
Lemma tab_entry names f u v a : NoDup names -> In u names -> set_entry u v a (tab names f) = tab names (fun n => if node_eqb n u then dset node_eqb v a (f n) else f n).
Proof.
  intros ND Hin. unfold set_entry. rewrite tab_get, memb_true by auto. rewrite tab_set by auto. apply tab_ext. intros n _. neq n u; reflexivity.
Qed.

Record wf (g : graph) : Prop := {
  wf_multi : multi g = false;
  wf_adj : adj g = tab (nodes g) (row g);
  wf_nodes : NoDup (nodes g);
  wf_rows : forall n, NoDup (map fst (row g n));
  wf_sym : forall u v, edge_between g u v = edge_between g v u }.
Lemma row_outside g n : wf g -> ~ In n (nodes g) -> row g n = [].
Proof. intros W H. unfold row. rewrite (wf_adj g W), tab_get, memb_false by auto. reflexivity. Qed.
Lemma row_inside g names f n : adj g = tab names f -> In n names -> row g n = f n.
Proof. intros E H. unfold row. rewrite E, tab_get, memb_true by auto. reflexivity. Qed.
Lemma row_tab g names f n : adj g = tab names f -> (~ In n names -> f n = []) -> row g n = f n.
Proof. intros E H. unfold row. rewrite E, tab_get. destruct (memb node_eqb n names) eqn:M; [reflexivity|]. symmetry. apply H. intros I. apply memb_true in I. congruence. Qed.
Lemma node_in_dec (n : node) l : {In n l} + {~ In n l}.
Proof. destruct (memb node_eqb n l) eqn:E; [left; apply (memb_In node_eqb NS), E|right; intros I; apply memb_true in I; congruence]. Qed.
Lemma edge_nodes g u v a : wf g -> edge_between g u v = Some a -> In u (nodes g) /\ In v (nodes g).
Proof.
  intros W. assert (G : forall u v, edge_between g u v = Some a -> In u (nodes g)).
  { intros x y E. destruct (node_in_dec x (nodes g)) as [I|I]; [exact I|].
    unfold edge_between in E. rewrite row_outside in E by auto. discriminate. }
  intros E. split; [eapply G; eauto|]. rewrite wf_sym in E by auto. eapply G; eauto.
Qed.
Lemma wf_empty a : wf {| multi := false; gattrs := a; node_dict := []; adj := [] |}.
Proof. constructor; try reflexivity; try constructor. Qed.
Lemma get_node g n : (exists b, dget node_eqb n (node_dict g) = Some b) <-> In n (nodes g).
Proof.
  unfold nodes. destruct (dget node_eqb n (node_dict g)) as [b|] eqn:E.
  - split; [intros _|eauto]. apply (dget_In node_eqb NS) in E. apply in_map_iff. exists (n, b). auto.
  - apply (dget_None node_eqb NS) in E. split; [intros [b [=]]|contradiction].
Qed.
(** the part of [add_node] that matters for the structure *)
Lemma add_node_new g n a : wf g -> ~ In n (nodes g) -> nodes (add_node g n a) = nodes g ++ [n] /\ (forall x, row (add_node g n a) x = row g x) /\ gattrs (add_node g n a) = gattrs g /\
  node_dict (add_node g n a) = node_dict g ++ [(n, update [] a)] /\ adj (add_node g n a) = tab (nodes g ++ [n]) (row g) /\ wf (add_node g n a).
Proof.
  intros W Hn. unfold add_node. destruct (dget node_eqb n (node_dict g)) as [b|] eqn:E; [elim Hn; apply get_node; eauto|]. clear E.
  set (g' := {| multi := multi g; gattrs := gattrs g; node_dict := node_dict g ++ [(n, update [] a)]; adj := adj g ++ [(n, [])] |}).
  assert (EN : nodes g' = nodes g ++ [n]) by (unfold nodes; cbn; rewrite map_app; reflexivity).
  assert (EA : adj g' = tab (nodes g ++ [n]) (row g)). { cbn. rewrite (wf_adj g W) at 1. unfold tab. rewrite map_app. cbn. rewrite (row_outside g n W Hn). reflexivity. }
  assert (ER : forall x, row g' x = row g x).
  { intros x. apply (row_tab _ _ _ _ EA). intros Hx. apply row_outside; auto. intros I. apply Hx, in_or_app. auto. }
  split; [exact EN|]. split; [exact ER|]. split; [reflexivity|]. split; [reflexivity|]. split; [exact EA|]. constructor.
  - apply W.
  - rewrite EA, EN. apply tab_ext. intros x _. symmetry. apply ER.
  - rewrite EN. apply NoDup_app; [apply W|repeat constructor; auto|]. intros x H1 [<-|[]]. contradiction.
  - intros x. rewrite ER. apply W.
  - intros x y. unfold edge_between. rewrite !ER. apply W.
Qed.
Lemma wf_add_node g n a : wf g -> wf (add_node g n a).
Proof.
  intros W. destruct (node_in_dec n (nodes g)) as [I|I]; [|apply add_node_new; auto].
  unfold add_node. destruct (proj2 (get_node g n) I) as [b E]. rewrite E.
  set (g' := {| multi := multi g; gattrs := gattrs g; node_dict := dset node_eqb n (update b a) (node_dict g); adj := adj g |}).
  assert (EN : nodes g' = nodes g).
  { unfold nodes. cbn. change (dkeys (dset node_eqb n (update b a) (node_dict g)) = dkeys (node_dict g)). rewrite dkeys_dset, memb_true by exact I. reflexivity. }
  constructor; try (exact (wf_multi g W) || exact (wf_rows g W) || exact (wf_sym g W)).
  - rewrite EN. exact (wf_adj g W).
  - rewrite EN. apply W.
Qed.
Lemma ensure_wf g n : wf g -> wf (ensure_node g n) /\ In n (nodes (ensure_node g n)) /\ (forall x, In x (nodes g) -> In x (nodes (ensure_node g n))) /\
  (forall x, row (ensure_node g n) x = row g x) /\ (In n (nodes g) -> ensure_node g n = g).
Proof.
  intros W. unfold ensure_node. destruct (dget node_eqb n (node_dict g)) as [b|] eqn:E.
  - assert (In n (nodes g)) by (apply get_node; eauto). repeat split; auto; apply W.
  - assert (I : ~ In n (nodes g)). { intros I. apply get_node in I. destruct I. congruence. }
    destruct (add_node_new g n [] W I) as (EN & ER & _ & _ & _ & W'). split; [exact W'|]. rewrite EN. split; [apply in_or_app; right; left; reflexivity|].
    split; [intros; apply in_or_app; auto|]. split; [exact ER|]. contradiction.
Qed.
Definition pairb (x y u v : node) : bool := (node_eqb x u && node_eqb y v) || (node_eqb x v && node_eqb y u).
Definition put (f : node -> list (node * attrs)) (u v : node) (d : attrs) (n : node) : list (node * attrs) :=
  if node_eqb n v then dset node_eqb u d (if node_eqb n u then dset node_eqb v d (f n) else f n) else if node_eqb n u then dset node_eqb v d (f n) else f n.
Lemma put_get f u v d x y : dget node_eqb y (put f u v d x) = if pairb x y u v then Some d else dget node_eqb y (f x).
Proof.
  unfold put, pairb.
  assert (S : forall k r, dget node_eqb y (dset node_eqb k d r) = if node_eqb y k then Some d else dget node_eqb y r).
  { intros k r. destruct (node_eqb y k) eqn:E; [apply NS in E; subst; apply (dget_dset_same node_eqb NS)|]. apply (dget_dset_other node_eqb NS). apply (eqb_spec_false node_eqb NS), E. }
  destruct (node_eqb x v), (node_eqb x u); rewrite ?S; cbn [andb orb]; try reflexivity; destruct (node_eqb y u), (node_eqb y v); reflexivity.
Qed.
Definition attrs_of (g : graph) (u v : node) : attrs := match edge_between g u v with Some d => d | None => [] end.
(** [add_edge] between existing nodes *)
Lemma add_edge_inside g u v a : wf g -> In u (nodes g) -> In v (nodes g) ->
  node_dict (add_edge g u v a) = node_dict g /\ gattrs (add_edge g u v a) = gattrs g /\
  (forall n, row (add_edge g u v a) n = put (row g) u v (update (attrs_of g u v) a) n) /\ wf (add_edge g u v a).
Proof.
  intros W Hu Hv. unfold add_edge.
  destruct (ensure_wf g u W) as (_ & _ & _ & _ & E). rewrite (E Hu). clear E. destruct (ensure_wf g v W) as (_ & _ & _ & _ & E). rewrite (E Hv). clear E.
  cbv zeta. fold (edge_between g u v). fold (attrs_of g u v). set (d := update (attrs_of g u v) a).
  set (g' := {| multi := multi g; gattrs := gattrs g; node_dict := node_dict g; adj := set_entry v u d (set_entry u v d (adj g)) |}).
  assert (EA : adj g' = tab (nodes g) (put (row g) u v d)).
  { cbn. rewrite (wf_adj g W) at 1. rewrite !tab_entry by (auto; apply W). reflexivity. }
  assert (ER : forall n, row g' n = put (row g) u v d n).
  { intros n. apply (row_tab _ _ _ _ EA). intros Hn. unfold put. neq n v; [contradiction|]. neq n u; [contradiction|]. apply row_outside; auto. }
  split; [reflexivity|]. split; [reflexivity|]. split; [exact ER|]. constructor.
  - apply W.
  - rewrite EA. apply tab_ext. intros n _. symmetry. apply ER.
  - apply W.
  - intros n. rewrite ER. pose proof (wf_rows g W n) as R. unfold put. destruct (node_eqb n v), (node_eqb n u); auto; repeat apply (dset_NoDup node_eqb NS); auto.
  - intros x y. unfold edge_between. rewrite !ER, !put_get. fold (edge_between g x y) (edge_between g y x). rewrite (wf_sym g W x y).
    replace (pairb y x u v) with (pairb x y u v); [reflexivity|]. unfold pairb. rewrite (orb_comm (node_eqb y u && _)). f_equal; apply andb_comm.
Qed.
Lemma add_edge_ensured g u v a : wf g -> add_edge g u v a = add_edge (ensure_node (ensure_node g u) v) u v a.
Proof.
  intros W. destruct (ensure_wf g u W) as (W1 & I1 & _ & _ & _). destruct (ensure_wf (ensure_node g u) v W1) as (W2 & I2 & M & _ & _).
  set (h := ensure_node (ensure_node g u) v) in *. unfold add_edge at 2. destruct (ensure_wf h u W2) as (_ & _ & _ & _ & Eu). rewrite Eu by (apply M; auto).
  destruct (ensure_wf h v W2) as (_ & _ & _ & _ & Ev). rewrite Ev by auto. reflexivity.
Qed.
Lemma wf_add_edge g u v a : wf g -> wf (add_edge g u v a).
Proof.
  intros W. rewrite (add_edge_ensured g u v a W). destruct (ensure_wf g u W) as (W1 & I1 & _ & _ & _). destruct (ensure_wf (ensure_node g u) v W1) as (W2 & I2 & M & _ & _).
  apply add_edge_inside; auto.
Qed.
Lemma built_wf g : built g -> wf g.
Proof. induction 1; [apply wf_empty|apply wf_add_node; auto|apply wf_add_edge; auto]. Qed.

(** *** edges *)
Definition pairE (e f : node * node * attrs) : bool := pairb (fst (fst e)) (snd (fst e)) (fst (fst f)) (snd (fst f)).
Lemma pairb_spec x y u v : pairb x y u v = true <-> (x = u /\ y = v) \/ (x = v /\ y = u).
Proof. unfold pairb. rewrite orb_true_iff, !andb_true_iff, !node_eq. tauto. Qed.
Definition keep (seen : list node) (va : node * attrs) : bool := negb (memb node_eqb (fst va) seen).
Lemma keep_spec seen va : keep seen va = true <-> ~ In (fst va) seen.
Proof. unfold keep. rewrite negb_true_iff. split; [intros E I; apply memb_true in I; congruence|apply memb_false]. Qed.
Lemma edges_tab seen n names f : edges_from seen (tab (n :: names) f) = map (fun va => (n, fst va, snd va)) (filter (keep seen) (f n)) ++ edges_from (n :: seen) (tab names f).
Proof. reflexivity. Qed.
Lemma edges_in seen names f u v a : In (u, v, a) (edges_from seen (tab names f)) -> In u names /\ ~ In v seen /\ In (v, a) (f u).
Proof.
  revert seen. induction names as [|n names IH]; intros seen; [intros []|]. rewrite edges_tab, in_app_iff, in_map_iff. intros [([y b] & [= <- <- <-] & H)|H].
  - apply filter_In in H. destruct H as [H K]. apply keep_spec in K. cbn in *. auto.
  - apply IH in H. destruct H as (H1 & H2 & H3). cbn in *. tauto.
Qed.
Lemma edges_all seen names f u v a : (forall x, In x names -> ~ In x seen) -> NoDup names -> In u names -> In (v, a) (f u) -> ~ In v seen -> (forall x y b, In (y, b) (f x) -> In (x, b) (f y)) ->
  In v names -> In (u, v, a) (edges_from seen (tab names f)) \/ In (v, u, a) (edges_from seen (tab names f)).
Proof.
  intros Hs ND Hu Hva Hv Hsym. revert seen Hs Hv. induction names as [|n names IH]; intros seen Hs Hv Hvn; [destruct Hu|]. inversion ND; subst. rewrite edges_tab, !in_app_iff, !in_map_iff.
  destruct Hu as [->|Hu].
  - left. left. exists (v, a). split; [reflexivity|]. apply filter_In. split; [exact Hva|]. apply keep_spec. exact Hv.
  - destruct Hvn as [->|Hvn].
    + right. left. exists (u, a). split; [reflexivity|]. apply filter_In. split; [apply Hsym, Hva|]. apply keep_spec. cbn. intros I. eapply Hs; [|exact I]. right. exact Hu.
    + destruct (IH H2 Hu (n :: seen)); auto.
      * intros x Hx [<-|I]; [contradiction|]. eapply Hs; [right; exact Hx|exact I].
      * intros [<-|I]; contradiction.
Qed.
Lemma wf_edge_in g u v a : wf g -> In (u, v, a) (edges_data g) -> edge_between g u v = Some a /\ In u (nodes g) /\ In v (nodes g).
Proof.
  intros W H. unfold edges_data in H. rewrite (wf_adj g W) in H. apply edges_in in H. destruct H as (_ & _ & H).
  assert (E : edge_between g u v = Some a). { unfold edge_between. apply (In_dget node_eqb NS); [apply (wf_rows g W)|exact H]. }
  split; [exact E|]. eapply edge_nodes; eauto.
Qed.
Lemma wf_edge_listed g u v a : wf g -> edge_between g u v = Some a -> In (u, v, a) (edges_data g) \/ In (v, u, a) (edges_data g).
Proof.
  intros W E. destruct (edge_nodes g u v a W E) as [Hu Hv]. unfold edges_data. rewrite (wf_adj g W). apply edges_all; auto; try apply W; try tauto.
  - apply (dget_In node_eqb NS), E.
  - intros x y b H. apply (In_dget node_eqb NS) in H; [|apply (wf_rows g W)]. change (edge_between g x y = Some b) in H. rewrite wf_sym in H by auto. apply (dget_In node_eqb NS), H.
Qed.
(** no edge is listed twice *)
Lemma edges_distinct seen names f : NoDup names -> (forall n, NoDup (map fst (f n))) -> ForallOrdPairs (fun e e' => pairE e e' = false) (edges_from seen (tab names f)).
Proof.
  intros ND R. revert seen. induction names as [|n names IH]; intros seen; [constructor|]. inversion ND; subst. rewrite edges_tab. specialize (IH H2 (n :: seen)).
  assert (L : forall y b, In (n, y, b) (map (fun va => (n, fst va, snd va)) (filter (keep seen) (f n))) -> In y (map fst (filter (keep seen) (f n)))).
  { intros y b Hin. apply in_map_iff in Hin. destruct Hin as (va & [= <- <-] & Hin). apply in_map. exact Hin. }
  assert (HR : NoDup (map fst (filter (keep seen) (f n)))).
  { specialize (R n). clear -R. induction (f n) as [|[y b] r IHr]; cbn; [constructor|]. inversion R; subst. destruct (keep seen (y, b)); cbn; [|auto]. constructor; [|auto].
    intros I. apply H1. apply in_map_iff in I. destruct I as (x & E & I). apply filter_In in I. apply in_map_iff. exists x. tauto. }
  assert (HO : forall e, In e (edges_from (n :: seen) (tab names f)) -> fst (fst e) <> n /\ snd (fst e) <> n).
  { intros [[u v] a] Hin. apply edges_in in Hin. destruct Hin as (I & J & _). cbn in *. split; [intros ->; contradiction|intros ->; tauto]. }
  clear L. induction (filter (keep seen) (f n)) as [|[y b] r IHr]; [exact IH|]. cbn [map app fst snd] in *. inversion HR; subst. constructor; [|auto].
  apply Forall_app. split; apply Forall_forall.
  - intros e Hin. apply in_map_iff in Hin. destruct Hin as ([y' b'] & <- & Hin). unfold pairE. cbn [fst snd]. destruct (pairb n y n y') eqn:E; [|reflexivity].
    apply pairb_spec in E. elim H3. assert (y = y') by (destruct E as [[_ E]|[E1 E2]]; congruence). subst. apply in_map_iff. exists (y', b'). auto.
  - intros [[u v] a] Hin. apply HO in Hin. unfold pairE. cbn [fst snd] in *. destruct (pairb n y u v) eqn:E; [|reflexivity]. apply pairb_spec in E. destruct Hin. intuition congruence.
Qed.

(** *** changing attributes *)
Lemma edges_map h names f : forall seen, edges_from seen (tab names (fun n => map (fun va => (fst va, h n (fst va) (snd va))) (f n))) =
  map (fun e => (fst e, h (fst (fst e)) (snd (fst e)) (snd e))) (edges_from seen (tab names f)).
Proof.
  induction names as [|n names IH]; intros seen; [reflexivity|]. rewrite !edges_tab, map_app, <- IH. f_equal.
  induction (f n) as [|[y b] r IHr]; [reflexivity|]. cbn [map filter]. change (keep seen (y, h n y b)) with (keep seen (y, b)).
  change (keep seen (fst (y, b), h n (fst (y, b)) (snd (y, b)))) with (keep seen (y, b)). destruct (keep seen (y, b)); cbn [map fst snd]; rewrite IHr; reflexivity.
Qed.
Lemma dset_existing (v : node) (d : attrs) r : NoDup (map fst r) -> In v (map fst r) -> dset node_eqb v d r = map (fun va => (fst va, if node_eqb (fst va) v then d else snd va)) r.
Proof.
  intros ND Hin. induction r as [|[y b] r IH]; [destruct Hin|]. inversion ND; subst. cbn [dset map fst snd]. rewrite (node_eqb_sym v y). neq y v.
  - f_equal. rewrite <- (map_id r) at 1. apply map_ext_in. intros [z c] Hz. cbn. neq z v; [|reflexivity]. elim H1. apply in_map_iff. exists (v, c). auto.
  - f_equal. apply IH; auto. destruct Hin as [Hy|Hy]; [elim E; exact Hy|exact Hy].
Qed.
Lemma put_existing f u v d n : (forall n, NoDup (map fst (f n))) -> In v (map fst (f u)) -> In u (map fst (f v)) ->
  put f u v d n = map (fun va => (fst va, if pairb n (fst va) u v then d else snd va)) (f n).
Proof.
  intros R Hv Hu. unfold put, pairb. destruct (node_eqb n v) eqn:Env; destruct (node_eqb n u) eqn:Enu; cbn [andb orb]; try apply NS in Env; try apply NS in Enu; try subst v; try subst u.
  - rewrite (dset_existing _ _ (f n)) by auto. rewrite dset_existing; [rewrite map_map; apply map_ext; intros [y b]; cbn; destruct (node_eqb y n); reflexivity| |].
    + rewrite map_map. cbn. apply R.
    + rewrite map_map. cbn. exact Hu.
  - rewrite dset_existing by auto. reflexivity.
  - rewrite dset_existing by auto. apply map_ext. intros [y b]. cbn. rewrite orb_false_r. reflexivity.
  - rewrite <- (map_id (f n)) at 1. apply map_ext. intros []; reflexivity.
Qed.
Lemma add_edge_existing g u v b a : wf g -> edge_between g u v = Some b ->
  let g' := add_edge g u v a in
  node_dict g' = node_dict g /\ gattrs g' = gattrs g /\ wf g' /\
  edges_data g' = map (fun e => (fst e, if pairb (fst (fst e)) (snd (fst e)) u v then update (snd e) a else snd e)) (edges_data g).
Proof.
  intros W E g'. destruct (edge_nodes g u v b W E) as [Hu Hv]. destruct (add_edge_inside g u v a W Hu Hv) as (E1 & E2 & E3 & W').
  split; [exact E1|]. split; [exact E2|]. split; [exact W'|]. unfold attrs_of in E3. rewrite E in E3.
  assert (ER : forall n, row g' n = map (fun va => (fst va, if pairb n (fst va) u v then update b a else snd va)) (row g n)).
  { intros n. unfold g'. rewrite E3. apply put_existing.
    - apply (wf_rows g W).
    - unfold edge_between in E. apply (dget_In node_eqb NS) in E. apply in_map_iff. exists (v, b). auto.
    - rewrite wf_sym in E by auto. unfold edge_between in E. apply (dget_In node_eqb NS) in E. apply in_map_iff. exists (u, b). auto. }
  assert (EN : nodes g' = nodes g) by (unfold nodes; fold g' in E1; rewrite E1; reflexivity).
  transitivity (map (fun e => (fst e, (fun x y c => if pairb x y u v then update b a else c) (fst (fst e)) (snd (fst e)) (snd e))) (edges_data g)).
  - unfold edges_data. rewrite (wf_adj g' W'), (wf_adj g W), EN. rewrite <- (edges_map (fun x y c => if pairb x y u v then update b a else c)). f_equal. apply tab_ext. intros n _. apply ER.
  - apply map_ext_in. intros [[x y] c] Hin. cbn [fst snd]. destruct (pairb x y u v) eqn:P; [|reflexivity]. do 2 f_equal.
    apply (wf_edge_in g x y c W) in Hin. destruct Hin as [Hin _]. apply pairb_spec in P. destruct P as [[-> ->]|[-> ->]]; [congruence|]. rewrite wf_sym in Hin by auto. congruence.
Qed.
Lemma edges_same_between g g' : wf g -> wf g' -> edges_data g' = edges_data g -> forall u v, edge_between g' u v = edge_between g u v.
Proof.
  intros W W' E u v.
  assert (G : forall h h' x y c, wf h -> wf h' -> edges_data h' = edges_data h -> edge_between h x y = Some c -> edge_between h' x y = Some c).
  { intros h h' x y c Wh Wh' Eh Hc. destruct (wf_edge_listed h x y c Wh Hc) as [I|I]; rewrite <- Eh in I; apply (wf_edge_in h' _ _ _ Wh') in I; destruct I as [I _]; [exact I|]. rewrite wf_sym by auto. exact I. }
  destruct (edge_between g u v) as [c|] eqn:Ec; [eapply G; eauto|]. destruct (edge_between g' u v) as [c|] eqn:Ec'; [|reflexivity].
  rewrite (G g' g u v c W' W (eq_sym E) Ec') in Ec. discriminate.
Qed.

(** *** loading *)
Definition incident (n : node) (e : node * node * attrs) : list (node * attrs) :=
  if node_eqb n (fst (fst e)) then [(snd (fst e), snd e)] else if node_eqb n (snd (fst e)) then [(fst (fst e), snd e)] else [].
Definition rows_of (es : list (node * node * attrs)) (n : node) : list (node * attrs) := flat_map (incident n) es.
Lemma rows_of_in es n y a : In (y, a) (rows_of es n) -> In (n, y, a) es \/ In (y, n, a) es.
Proof.
  intros H. apply in_flat_map in H. destruct H as ([[u v] b] & Hin & H). unfold incident in H. cbn [fst snd] in H. neq n u.
  - destruct H as [[= <- <-]|[]]. auto.
  - neq n v; [|destruct H]. destruct H as [[= <- <-]|[]]. auto.
Qed.
Lemma update_nil a : NoDup (map fst a) -> update [] a = a.
Proof. intros ND. unfold update. change (dict_of String.eqb a = a). apply (dict_of_NoDup_id String.eqb string_eqb_spec). exact ND. Qed.
Lemma dset_last (u : node) (a : attrs) r : ~ In u (map fst r) -> dset node_eqb u a (r ++ [(u, a)]) = r ++ [(u, a)].
Proof. induction r as [|[y b] r IH]; cbn; intros H; [rewrite node_eqb_refl; reflexivity|]. neq u y; [tauto|]. rewrite IH by tauto. reflexivity. Qed.
(** the graph after some of the edges have been added *)
Definition partly (g0 : graph) (es : list (node * node * attrs)) (g : graph) : Prop :=
  wf g /\ node_dict g = node_dict g0 /\ gattrs g = gattrs g0 /\ forall n, row g n = rows_of es n.
Lemma add_one g0 es g u v (a : attrs) : partly g0 es g -> In u (nodes g0) -> In v (nodes g0) -> NoDup (map fst a) -> (forall e, In e es -> pairE e (u, v, a) = false) ->
  partly g0 (es ++ [(u, v, a)]) (add_edge g u v a).
Proof.
  intros (W & E1 & E2 & ER) Hu Hv ND Hnew.
  assert (EN : nodes g = nodes g0) by (unfold nodes; rewrite E1; reflexivity). rewrite <- EN in *.
  destruct (add_edge_inside g u v a W Hu Hv) as (F1 & F2 & F3 & W'). split; [exact W'|]. split; [congruence|]. split; [congruence|]. intros n. rewrite F3.
  assert (K : forall x y, pairb x y u v = true -> ~ In y (map fst (row g x))).
  { intros x y P I. rewrite ER in I. apply in_map_iff in I. destruct I as ([y' b] & Ey & I). cbn in Ey. subst y'. apply rows_of_in in I. apply pairb_spec in P.
    destruct I as [I|I]; apply Hnew in I; unfold pairE in I; cbn [fst snd] in I; assert (P' : pairb x y u v = true /\ pairb y x u v = true) by (rewrite !pairb_spec; intuition congruence); destruct P'; congruence. }
  assert (EB : attrs_of g u v = []).
  { unfold attrs_of. destruct (edge_between g u v) as [c|] eqn:Ec; [|reflexivity]. elim (K u v); [apply pairb_spec; auto|]. apply (dget_In node_eqb NS) in Ec. apply in_map_iff. exists (v, c). auto. }
  rewrite EB, update_nil by auto. unfold rows_of. rewrite flat_map_app. cbn [flat_map]. rewrite app_nil_r. fold (rows_of es n). rewrite <- ER.
  unfold put, incident. cbn [fst snd]. destruct (node_eqb n v) eqn:Env; destruct (node_eqb n u) eqn:Enu; try apply NS in Env; try apply NS in Enu; try subst v; try subst u.
  - rewrite (dset_app_new node_eqb NS n a (row g n)) by (apply K, pairb_spec; auto). apply dset_last. apply K, pairb_spec; auto.
  - rewrite (dset_app_new node_eqb NS) by (apply K, pairb_spec; auto). reflexivity.
  - rewrite (dset_app_new node_eqb NS) by (apply K, pairb_spec; auto). reflexivity.
  - rewrite app_nil_r. reflexivity.
Qed.
Lemma rows_of_app a b n : rows_of (a ++ b) n = rows_of a n ++ rows_of b n.
Proof. apply flat_map_app. Qed.
Lemma filter_none {A} (p : A -> bool) l : (forall x, In x l -> p x = false) -> filter p l = [].
Proof. induction l as [|x l IH]; intros H; [reflexivity|]. cbn. rewrite H by (left; auto). apply IH. intros; apply H; right; auto. Qed.
Lemma filter_all {A} (p : A -> bool) l : (forall x, In x l -> p x = true) -> filter p l = l.
Proof. induction l as [|x l IH]; intros H; [reflexivity|]. cbn. rewrite H by (left; auto). f_equal. apply IH. intros; apply H; right; auto. Qed.
Lemma edges_rebuilt f : forall names seen pre, NoDup names -> (forall x, In x names -> ~ In x seen) -> (forall e, In e pre -> In (fst (fst e)) seen) ->
  edges_from seen (tab names (rows_of (pre ++ edges_from seen (tab names f)))) = edges_from seen (tab names f).
Proof.
  induction names as [|n names IH]; intros seen pre ND Hs Hp; [reflexivity|]. inversion ND; subst. rewrite (edges_tab seen n names f).
  set (B := map (fun va => (n, fst va, snd va)) (filter (keep seen) (f n))). set (E := edges_from (n :: seen) (tab names f)).
  rewrite edges_tab. f_equal.
  - unfold B at 2. f_equal. rewrite !rows_of_app, !filter_app.
    rewrite (filter_none _ (rows_of pre n)), (filter_none _ (rows_of E n)).
    + cbn [app]. rewrite app_nil_r. unfold B.
      assert (G : forall l, rows_of (map (fun va => (n, fst va, snd va)) l) n = l).
      { induction l as [|[y b] l IHl]; [reflexivity|]. cbn [map rows_of flat_map]. unfold incident at 1. cbn [fst snd]. rewrite node_eqb_refl. cbn [app]. f_equal. exact IHl. }
      rewrite G. apply filter_all. intros x Hx. apply filter_In in Hx. tauto.
    + intros [y b] Hin. apply rows_of_in in Hin. exfalso. destruct Hin as [Hin|Hin]; apply edges_in in Hin; destruct Hin as (H3 & H4 & _); [contradiction|]. apply H4. left. reflexivity.
    + intros [y b] Hin. apply rows_of_in in Hin. destruct (keep seen (y, b)) eqn:K; [|reflexivity]. apply keep_spec in K. cbn in K. exfalso.
      destruct Hin as [Hin|Hin]; apply Hp in Hin; cbn in Hin; [|contradiction]. eapply Hs; [left; reflexivity|exact Hin].
  - rewrite app_assoc. apply IH; auto.
    + intros x Hx [<-|I]; [contradiction|]. eapply Hs; [right; exact Hx|exact I].
    + intros e He. apply in_app_or in He. destruct He as [He|He]; [right; apply Hp, He|]. left. unfold B in He. apply in_map_iff in He. destruct He as (va & <- & _). reflexivity.
Qed.
Lemma add_all g0 : forall todo es g, partly g0 es g -> (forall u v a, In (u, v, a) todo -> In u (nodes g0) /\ In v (nodes g0) /\ NoDup (map fst a)) ->
  ForallOrdPairs (fun e e' => pairE e e' = false) (es ++ todo) ->
  partly g0 (es ++ todo) (fold_left (fun g e => add_edge g (fst (fst e)) (snd (fst e)) (snd e)) todo g).
Proof.
  induction todo as [|[[u v] a] todo IH]; intros es g P H O; [rewrite app_nil_r; exact P|]. cbn [fold_left fst snd].
  replace (es ++ (u, v, a) :: todo) with ((es ++ [(u, v, a)]) ++ todo) in * by (rewrite <- app_assoc; reflexivity).
  apply IH; [|intros; apply H; right; auto|exact O]. destruct (H u v a (or_introl eq_refl)) as (Hu & Hv & ND). apply add_one; auto.
  intros e He. clear -O He. induction es as [|x es IHes]; [destruct He|]. cbn in O. inversion O; subst. destruct He as [->|He]; [|auto].
  rewrite Forall_forall in H1. apply H1. apply in_or_app. left. apply in_or_app. right. left. reflexivity.
Qed.
Lemma objects_map {A} (h : A -> jdict Q) l : objects (JArr (map (fun x => JObj (h x)) l)) = Ok (map h l).
Proof. cbn. induction l as [|x l IH]; [reflexivity|]. cbn [map mapM rbind]. rewrite IH. reflexivity. Qed.
Lemma node_json_back n : node_of_json (node_json n) = Ok n.
Proof. destruct n; reflexivity. Qed.
Lemma others_app names (a b : attrs) : others names (a ++ b) = others names a ++ others names b.
Proof. apply filter_app. Qed.
Lemma others_free names (a : attrs) : (forall k, In k names -> ~ In k (map fst a)) -> others names a = a.
Proof.
  intros H. apply filter_all. intros [k v] Hin. cbn. apply negb_true_iff. destruct (memb String.eqb k names) eqn:E; [|reflexivity].
  apply (memb_In String.eqb string_eqb_spec) in E. elim (H k E). apply in_map_iff. exists (k, v). auto.
Qed.
Lemma get_app_new k (v : json Q) (a b : attrs) : ~ In k (map fst a) -> jget k (a ++ (k, v) :: b) = Some v.
Proof. unfold jget. induction a as [|[k' x] a IH]; cbn; intros H; [rewrite String.eqb_refl; reflexivity|]. destruct (String.eqb k k') eqn:E; [apply String.eqb_eq in E; subst; tauto|]. apply IH. tauto. Qed.
Lemma dict_of_app (a b : attrs) : NoDup (map fst (a ++ b)) -> dict_of String.eqb (a ++ b) = a ++ b.
Proof. intros H. apply (dict_of_NoDup_id String.eqb string_eqb_spec). exact H. Qed.
Definition node_obj (na : node * attrs) : jdict Q := dict_of String.eqb (snd na ++ [("id", node_json (fst na))]).
Definition link_obj (e : node * node * attrs) : jdict Q := dict_of String.eqb (snd e ++ [("source", node_json (fst (fst e))); ("target", node_json (snd (fst e)))]).
Lemma load_nodes_all : forall nd c g, wf g -> (forall n, row g n = []) -> NoDup (map fst (node_dict g) ++ map fst nd) ->
  (forall n a, In (n, a) nd -> NoDup (map fst a) /\ ~ In "id" (map fst a)) ->
  exists g', load_nodes c (map node_obj nd) g = Ok g' /\ wf g' /\ (forall n, row g' n = []) /\ gattrs g' = gattrs g /\ node_dict g' = node_dict g ++ nd.
Proof.
  induction nd as [|[n a] nd IH]; intros c g W R ND H; [exists g; rewrite app_nil_r; cbn; auto|].
  destruct (H n a (or_introl eq_refl)) as [NDa Hid]. cbn [map load_nodes].
  assert (NDo : NoDup (map fst (a ++ [("id", node_json n)]))).
  { rewrite map_app. cbn. apply NoDup_app; [exact NDa|repeat constructor; auto|]. intros x Hx [<-|[]]. contradiction. }
  assert (EOb : node_obj (n, a) = a ++ [("id", node_json n)]) by (apply dict_of_app; exact NDo). rewrite EOb. rewrite get_app_new by auto. rewrite node_json_back. cbn [rbind].
  match goal with |- context [others ?l ?x] => assert (EO : others l x = a); [|rewrite EO; clear EO] end.
  { etransitivity; [apply others_app|]. rewrite (others_free ["id"] a) by (intros k [<-|[]]; auto). cbn. apply app_nil_r. }
  assert (Hn : ~ In n (nodes g)). { intros I. cbn [map fst] in ND. apply NoDup_remove_2 in ND. apply ND, in_or_app. left. exact I. }
  destruct (add_node_new g n a W Hn) as (EN & ER & EG & ED & _ & W').
  destruct (IH (S c) (add_node g n a)) as (g' & L & Wg & Rg & Gg & Ng).
  - exact W'.
  - intros x. rewrite ER. apply R.
  - rewrite ED, map_app, <- app_assoc. exact ND.
  - intros m b I. apply (H m b). right. exact I.
  - exists g'. split; [exact L|]. split; [exact Wg|]. split; [exact Rg|]. split; [congruence|]. rewrite Ng, ED, update_nil by exact NDa. rewrite <- app_assoc. reflexivity.
Qed.
Lemma load_links_all : forall es g, (forall u v a, In (u, v, a) es -> NoDup (map fst a) /\ ~ In "source" (map fst a) /\ ~ In "target" (map fst a)) ->
  load_links (map link_obj es) g = Ok (fold_left (fun g e => add_edge g (fst (fst e)) (snd (fst e)) (snd e)) es g).
Proof.
  induction es as [|[[u v] a] es IH]; intros g H; [reflexivity|]. destruct (H u v a (or_introl eq_refl)) as (NDa & Hs & Ht).
  cbn [map load_links fold_left fst snd].
  assert (NDo : NoDup (map fst (a ++ [("source", node_json u); ("target", node_json v)]))).
  { rewrite map_app. cbn. apply NoDup_app; [exact NDa|repeat constructor; cbn; intuition discriminate|]. intros x Hx [<-|[<-|[]]]; contradiction. }
  assert (EOb : link_obj (u, v, a) = a ++ [("source", node_json u); ("target", node_json v)]) by (apply dict_of_app; exact NDo). rewrite EOb. unfold jitem. rewrite get_app_new by auto. cbn [rbind].
  change (a ++ [("source", node_json u); ("target", node_json v)]) with (a ++ [("source", node_json u)] ++ [("target", node_json v)]). rewrite app_assoc.
  rewrite get_app_new by (rewrite map_app, in_app_iff; cbn; intuition discriminate). cbn [rbind]. rewrite !node_json_back. cbn [rbind].
  match goal with |- context [others ?l ?x] => assert (EO : others l x = a); [|rewrite EO; clear EO] end.
  { rewrite <- app_assoc. etransitivity; [apply others_app|]. rewrite (others_free _ a) by (intros k [<-|[<-|[]]]; auto). cbn. apply app_nil_r. }
  apply IH. intros; apply (H u0 v0 a0). right. auto.
Qed.
Definition keyed (g : graph) : Prop :=
  (forall n a, In (n, a) (node_dict g) -> NoDup (map fst a)) /\ (forall u v a, edge_between g u v = Some a -> NoDup (map fst a)).
Lemma update_NoDup (a : attrs) : forall d, NoDup (map fst d) -> NoDup (map fst (update d a)).
Proof. unfold update. induction a as [|kv a IH]; intros d H; [exact H|]. cbn. apply IH. apply (dset_NoDup String.eqb string_eqb_spec). exact H. Qed.
Lemma add_node_keyed g n a : wf g -> keyed g -> keyed (add_node g n a).
Proof.
  intros W [K1 K2]. destruct (node_in_dec n (nodes g)) as [I|I].
  - unfold add_node. destruct (proj2 (get_node g n) I) as [b E]. rewrite E. split; [|exact K2]. cbn [node_dict]. intros m c Hin.
    apply (In_dget node_eqb NS) in Hin; [|apply (dset_NoDup node_eqb NS); exact (wf_nodes g W)]. neq m n.
    + rewrite (dget_dset_same node_eqb NS) in Hin. injection Hin as <-. apply update_NoDup. eapply K1. apply (dget_In node_eqb NS), E.
    + rewrite (dget_dset_other node_eqb NS) in Hin by auto. eapply K1. apply (dget_In node_eqb NS), Hin.
  - destruct (add_node_new g n a W I) as (_ & ER & _ & ED & _). split.
    + intros m c. rewrite ED, in_app_iff. intros [Hin|[[= <- <-]|[]]]; [eapply K1; eauto|]. apply update_NoDup. constructor.
    + intros u v c. unfold edge_between. rewrite ER. apply K2.
Qed.
Lemma ensure_keyed g n : wf g -> keyed g -> keyed (ensure_node g n).
Proof. intros W K. unfold ensure_node. destruct (dget node_eqb n (node_dict g)); [exact K|]. apply add_node_keyed; auto. Qed.
Lemma add_edge_keyed g u v a : wf g -> keyed g -> keyed (add_edge g u v a).
Proof.
  intros W K. destruct (ensure_wf g u W) as (W1 & I1 & _ & _ & _). destruct (ensure_wf (ensure_node g u) v W1) as (W2 & I2 & M & _ & _).
  rewrite (add_edge_ensured g u v a W). assert (K' : keyed (ensure_node (ensure_node g u) v)) by (repeat apply ensure_keyed; auto).
  destruct (add_edge_inside _ u v a W2 (M _ I1) I2) as (E1 & _ & E3 & _). split; [rewrite E1; apply K'|].
  intros x y c. unfold edge_between. rewrite E3, put_get. destruct (pairb x y u v); [|apply K']. intros [= <-]. apply update_NoDup.
  unfold attrs_of. destruct (edge_between _ u v) eqn:E; [eapply K'; exact E|constructor].
Qed.
Lemma built_keyed g : built g -> keyed g.
Proof.
  induction 1 as [a|g n a B IH|g u v a B IH].
  - split; [intros n c []|discriminate].
  - apply add_node_keyed; auto using built_wf.
  - apply add_edge_keyed; auto using built_wf.
Qed.
Lemma load_save g : wf g -> keyed g -> storable g -> exists g', load_graph (save_graph g) = Ok g' /\ wf g' /\ same_graph g g'.
Proof.
  intros W (K1 & K2) (S1' & S2').
  assert (S1 : forall n a, In (n, a) (node_dict g) -> NoDup (map fst a) /\ ~ In "id" (map fst a)) by (intros n a I; split; [eapply K1; eauto|eapply S1'; eauto]).
  assert (S2 : forall u v a, In (u, v, a) (edges_data g) -> NoDup (map fst a) /\ ~ In "source" (map fst a) /\ ~ In "target" (map fst a)).
  { intros u v a I. split; [|eapply S2'; eauto]. eapply K2. eapply wf_edge_in; eauto. }
  clear S1' S2'. unfold load_graph, save_graph, node_link_data, node_link_graph. rewrite (wf_multi g W).
  cbn [dset String.eqb Ascii.eqb Bool.eqb]. cbn -[objects load_nodes load_links]. unfold jitem. cbn -[objects load_nodes load_links].
  rewrite objects_map. cbn [rbind].
  destruct (load_nodes_all (node_dict g) 0 {| multi := false; gattrs := gattrs g; node_dict := []; adj := [] |}) as (g1 & L & W1 & R1 & G1 & N1).
  - apply wf_empty.
  - reflexivity.
  - apply (wf_nodes g W).
  - exact S1.
  - match goal with |- context [load_nodes 0 ?m ?h] => change m with (map node_obj (node_dict g)) end. rewrite L. cbn [rbind].
    rewrite objects_map. cbn [rbind]. match goal with |- context [load_links ?m _] => change m with (map link_obj (edges_data g)) end. rewrite load_links_all by exact S2. cbn [node_dict app] in N1. cbn [gattrs] in G1.
    assert (EN : nodes g1 = nodes g) by (unfold nodes; rewrite N1; reflexivity).
    destruct (add_all g1 (edges_data g) [] g1) as (W2 & D2 & G2 & R2).
    + split; [exact W1|]. split; [reflexivity|]. split; [reflexivity|]. exact R1.
    + intros u v a I. rewrite EN. destruct (wf_edge_in g u v a W I) as (_ & Hu & Hv). split; [exact Hu|]. split; [exact Hv|]. apply (S2 u v a I).
    + cbn [app]. unfold edges_data. rewrite (wf_adj g W). apply edges_distinct; apply W.
    + cbn [app] in R2. match goal with |- context [Ok ?x] => set (g2 := x) in * end. exists g2. split; [reflexivity|]. split; [exact W2|].
      assert (EE : edges_data g2 = edges_data g).
      { unfold edges_data. rewrite (wf_adj g2 W2). assert (EN2 : nodes g2 = nodes g) by (unfold nodes; rewrite D2, N1; reflexivity). rewrite EN2.
        rewrite (tab_ext _ _ (rows_of (edges_data g))) by (intros; apply R2). unfold edges_data. rewrite (wf_adj g W). apply (edges_rebuilt (row g) (nodes g) [] []); [apply W|auto|intros e []]. }
      split; [congruence|]. split; [congruence|]. split; [exact EE|]. apply edges_same_between; auto.
Qed.
(** *** comparing *)
Lemma zip_same_spec {A} (eqb : A -> A -> bool) (H : forall a b, eqb a b = true <-> a = b) l : forall m, zip_same eqb l m = true <-> one_extends l m.
Proof.
  unfold one_extends. induction l as [|a l IH]; intros m; [cbn; split; [intros _; left; exists m; reflexivity|reflexivity]|].
  destruct m as [|b m]; [cbn; split; [intros _; right; exists (a :: l); reflexivity|reflexivity]|]. cbn [zip_same].
  destruct (eqb a b) eqn:E.
  - apply H in E. subst b. rewrite IH. split.
    + intros [[t ->]|[t ->]]; [left|right]; exists t; reflexivity.
    + intros [[t Ht]|[t Ht]]; cbn in Ht; injection Ht as ->; [left|right]; exists t; reflexivity.
  - split; [discriminate|]. assert (N : a <> b) by (intros ->; rewrite (proj2 (H b b) eq_refl) in E; discriminate).
    intros [[t Ht]|[t Ht]]; cbn in Ht; injection Ht; congruence.
Qed.
Lemma edge_eqb_spec a b : edge_eqb a b = true <-> a = b.
Proof. destruct a, b. unfold edge_eqb. cbn. rewrite andb_true_iff, !node_eq. split; [intros [-> ->]; reflexivity|intros [= -> ->]; auto]. Qed.
Lemma compare_spec g1 g2 : compare_graphs g1 g2 = true <-> one_extends (nodes g1) (nodes g2) /\ one_extends (edges g1) (edges g2).
Proof.
  unfold compare_graphs. rewrite <- (zip_same_spec node_eqb node_eq), <- (zip_same_spec edge_eqb edge_eqb_spec).
  destruct (zip_same node_eqb (nodes g1) (nodes g2)); [tauto|]. split; [discriminate|intros [[=] _]].
Qed.
(** *** node numbers *)
Lemma node_dict_spec g : wf g -> generate_graph_node_dict g = combine (nodes g) (seq 0 (length (nodes g))).
Proof.
  intros W. apply (dict_of_NoDup_id node_eqb NS). unfold dkeys. assert (G : forall (l : list node) k, map fst (combine l (seq k (length l))) = l).
  { induction l as [|x l IH]; intros k; cbn; [reflexivity|]. rewrite IH. reflexivity. }
  rewrite G. apply W.
Qed.

(** *** weights *)
Section Weights.
  Context {S : Type}.
  Lemma draw_all_spec (next : M S Q) {A} (l : list A) : forall s,
    (exists s' xs, draw_all next l s = (s', Ok (combine l xs)) /\ length xs = length l /\ drawn next s xs s') \/
    (exists s0 s' xs e, draw_all next l s = (s', Err e) /\ length xs < length l /\ drawn next s xs s0 /\ next s0 = (s', Err e)).
  Proof.
    induction l as [|a l IH]; intros s.
    - left. exists s, []. split; [reflexivity|]. split; [reflexivity|constructor].
    - cbn [draw_all]. unfold bindM. destruct (next s) as [s1 [x|e]] eqn:E.
      + destruct (IH s1) as [(s' & xs & E1 & E2 & E3)|(s0 & s' & xs & e & E1 & E2 & E3 & E4)]; rewrite E1.
        * left. exists s', (x :: xs). split; [reflexivity|]. split; [cbn; lia|]. econstructor; eauto.
        * right. exists s0, s', (x :: xs), e. split; [reflexivity|]. split; [cbn; lia|]. split; [econstructor; eauto|exact E4].
      + right. exists s, s1, [], e. split; [reflexivity|]. split; [cbn; lia|]. split; [constructor|exact E].
  Qed.
End Weights.
Definition setw (x : Q) (e : node * node * attrs) : node * node * attrs := (fst e, dset String.eqb "weight" (JNum x) (snd e)).
Lemma fold_weights : forall todo xs done g, wf g -> edges_data g = done ++ todo -> length xs = length todo ->
  ForallOrdPairs (fun e e' => pairE e e' = false) (done ++ todo) ->
  let g' := fold_left (fun g ex => add_edge g (fst (fst ex)) (snd (fst ex)) [("weight", JNum (snd ex))]) (combine (map fst todo) xs) g in
  wf g' /\ node_dict g' = node_dict g /\ gattrs g' = gattrs g /\ edges_data g' = done ++ map (fun ex => setw (snd ex) (fst ex)) (combine todo xs).
Proof.
  induction todo as [|[[u v] a] todo IH]; intros xs done g W E L O; destruct xs as [|x xs]; try discriminate; [cbn in *; auto|].
  cbn [map combine fold_left fst snd]. cbv zeta.
  assert (I : edge_between g u v = Some a). { apply (wf_edge_in g u v a W). rewrite E. apply in_or_app. right. left. reflexivity. }
  destruct (add_edge_existing g u v a [("weight", JNum x)] W I) as (D1 & G1 & W1 & E1). cbv zeta in *.
  assert (E2 : edges_data (add_edge g u v [("weight", JNum x)]) = (done ++ [setw x (u, v, a)]) ++ todo).
  { rewrite E1, E, map_app. cbn [map fst snd]. rewrite (proj2 (pairb_spec u v u v)) by auto. rewrite <- app_assoc. cbn [app].
    assert (F : forall l, (forall e, In e l -> pairE e (u, v, a) = false) ->
      map (fun e : node * node * attrs => (fst e, if pairb (fst (fst e)) (snd (fst e)) u v then update (snd e) [("weight", JNum x)] else snd e)) l = l).
    { intros l H. rewrite <- (map_id l) at 2. apply map_ext_in. intros e He. specialize (H e He). unfold pairE in H. cbn [fst snd] in H. rewrite H. destruct e; reflexivity. }
    assert (F2 : forall e, In e todo -> pairE (u, v, a) e = false).
    { clear -O. induction done as [|d done IHd]; cbn in O; inversion O; subst; [|auto]. rewrite Forall_forall in H1. exact H1. }
    f_equal; [apply F|f_equal; apply F].
    - intros e He. clear -O He. induction done as [|d done IHd]; [destruct He|]. cbn in O. inversion O; subst. destruct He as [->|He]; [|auto]. rewrite Forall_forall in H1. apply H1, in_or_app. right. left. reflexivity.
    - intros e He. specialize (F2 e He). unfold pairE in *. cbn [fst snd] in *. destruct (pairb (fst (fst e)) (snd (fst e)) u v) eqn:P; [|reflexivity].
      apply pairb_spec in P. assert (P' : pairb u v (fst (fst e)) (snd (fst e)) = true) by (apply pairb_spec; intuition congruence). congruence. }
  destruct (IH xs (done ++ [setw x (u, v, a)]) _ W1 E2) as (W3 & D3 & G3 & E3).
  - cbn in L. lia.
  - rewrite <- app_assoc. cbn [app]. clear -O. induction done as [|d done IHd]; cbn [app] in *; inversion O; subst; constructor; auto.
    apply Forall_app in H1. apply Forall_app. destruct H1 as [Ha Hb]. split; [exact Ha|]. inversion Hb; subst. constructor; auto.
  - split; [exact W3|]. split; [congruence|]. split; [congruence|]. rewrite E3, <- app_assoc. reflexivity.
Qed.
