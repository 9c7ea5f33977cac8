(** C95, continued: names and numbers of molecules, geometry files, examples. *)
From Coq Require Import String ZArith Lia Permutation Sorted.
From Verif Require Import Base BaseFacts CostModel MolFileModel MolFileSpec MolFileProofs MolFileProps MolFileProps2.
Open Scope list_scope.

Definition known (a : string) : Prop := In a periodic_table.
(** "H2-O1": the different atoms by atomic number, each with how often it occurs *)
Definition names_atoms (l : list string) (s : string) : Prop := exists distinct,
  StronglySorted (fun a b => exists x y, atomic_number a = Ok x /\ atomic_number b = Ok y /\ (x < y)%Z) distinct /\ (forall a, In a distinct <-> In a l) /\
  s = String.concat "-" (map (fun a => (a ++ show_int (Z.of_nat (count_occ string_dec l a)))%string) distinct).
Definition charge_text (charge : Z) : string :=
  if Z.eqb charge 0 then "" else ("_" ++ show_int charge ++ (if Z.ltb 0 charge then "+" else "-"))%string.

Lemma index_nth k l n : index_of k l = Some n -> nth_error l n = Some k.
Proof.
  revert n. induction l as [|x l IH]; intros n H; cbn in H; [discriminate|]. destruct (String.eqb k x) eqn:E; [injection H as <-; apply String.eqb_eq in E as ->; reflexivity|].
  destruct (index_of k l) as [j|] eqn:J; [|discriminate]. injection H as <-. cbn. now apply IH.
Qed.
Lemma index_known k l : In k l -> exists n, index_of k l = Some n.
Proof.
  induction l as [|x l IH]; [intros []|]. cbn. destruct (String.eqb k x) eqn:E; [intros _; now exists 0|]. intros [->|H]; [rewrite String.eqb_refl in E; discriminate|]. destruct (IH H) as (n & ->). now exists (Datatypes.S n).
Qed.
Lemma known_number a : known a -> exists z, atomic_number a = Ok z.
Proof. intros H. destruct (index_known a periodic_table H) as (n & E). exists (Z.of_nat n). unfold atomic_number. now rewrite E. Qed.
Lemma unknown_number a : ~ known a -> atomic_number a = Err KeyError.
Proof. intros H. unfold atomic_number. destruct (index_of a periodic_table) eqn:E; [|reflexivity]. exfalso. apply H. apply index_nth in E. now apply nth_error_In in E. Qed.
Lemma number_inj a b z : atomic_number a = Ok z -> atomic_number b = Ok z -> a = b.
Proof.
  unfold atomic_number. destruct (index_of a periodic_table) as [n|] eqn:E, (index_of b periodic_table) as [k|] eqn:F; intros H1 H2; try discriminate.
  injection H1 as <-. injection H2 as H2. apply Nat2Z.inj in H2 as ->. apply index_nth in E, F. rewrite E in F. now injection F.
Qed.
Lemma app_assoc_s (a b c : string) : ((a ++ b) ++ c = a ++ (b ++ c))%string.
Proof. induction a as [|x a IH]; cbn; [reflexivity|now rewrite IH]. Qed.
Lemma join_fold {A} (show : A -> string) rest x : fold_left (fun s j => (s ++ "-" ++ show j)%string) rest x = String.concat "-" (x :: map show rest).
Proof.
  revert x. induction rest as [|j rest IH]; intros x; [reflexivity|]. cbn [fold_left map]. rewrite IH. destruct rest as [|k rest]; [reflexivity|]. cbn [map String.concat].
  rewrite !app_assoc_s. reflexivity.
Qed.

Definition num (a : string) : Z := match atomic_number a with Ok z => z | Err _ => 0%Z end.
Lemma mapM_keyed {B} (f : B -> string) l : Forall (fun i => known (f i)) l -> mapM (fun i : B => let! n := atomic_number (f i) in Ok (n, i)) l = Ok (map (fun i => (num (f i), i)) l).
Proof. induction 1 as [|i l H HF IH]; [reflexivity|]. cbn [mapM map]. unfold num. destruct (known_number _ H) as (z & E). rewrite E. cbn [rbind]. rewrite IH. reflexivity. Qed.
Lemma mapM_unknown {B C} (f : B -> string) (g : Z -> B -> C) l : Exists (fun i => ~ known (f i)) l -> mapM (fun i : B => let! n := atomic_number (f i) in Ok (g n i)) l = Err KeyError.
Proof.
  induction l as [|i l IH]; intros H; [inversion H|]. cbn [mapM]. destruct (in_dec string_dec (f i) periodic_table) as [K|K].
  - destruct (known_number _ K) as (z & E). rewrite E. cbn [rbind]. rewrite IH; [reflexivity|]. inversion H; [contradiction|assumption].
  - rewrite unknown_number by exact K. reflexivity.
Qed.
Lemma sorted_keyed {B} (l : list (Z * B)) : StronglySorted (fun a b => Z.leb (fst a) (fst b) = true) (sort_by (fun a b => Z.leb (fst a) (fst b)) l).
Proof. apply (sort_by_sorted (fun a b : Z * B => Z.leb (fst a) (fst b))); intros; rewrite ?Z.leb_le in *; lia. Qed.

Lemma atoms_named so l : set_iteration so -> l <> [] -> Forall known l -> exists s, atoms_name so l = Ok s /\ names_atoms l s.
Proof.
  intros SO NE K. destruct (SO l) as (ND & SI). unfold atoms_name. set (c := fun a : string => count_occ string_dec l a).
  rewrite (mapM_keyed (fun i : string * nat => fst i)).
  2:{ apply Forall_forall. intros i Hi. apply in_map_iff in Hi as (a & <- & Ha). rewrite Forall_forall in K. apply K. now apply SI. }
  cbn [rbind]. rewrite map_map. cbn [fst]. set (keyed := map (fun a => (num a, (a, c a))) (so l)).
  pose proof (sort_by_perm (fun a b : Z * (string * nat) => Z.leb (fst a) (fst b)) keyed) as P. pose proof (sorted_keyed keyed) as SS. change (fun x : string => (num x, (x, count_occ string_dec l x))) with (fun a => (num a, (a, c a))).
  fold keyed. remember (sort_by (fun a b : Z * (string * nat) => Z.leb (fst a) (fst b)) keyed) as r eqn:Er. clear Er.
  assert (SH : forall i, In i r -> i = (num (fst (snd i)), (fst (snd i), c (fst (snd i)))) /\ In (fst (snd i)) l).
  { intros i Hi. apply (Permutation_in _ P) in Hi. apply in_map_iff in Hi as (a & <- & Ha). cbn. split; [reflexivity|now apply SI]. }
  assert (NDr : NoDup (map (fun i => fst (snd i)) r)).
  { apply (Permutation_NoDup (l := so l)); [|exact ND]. symmetry. transitivity (map (fun i => fst (snd i)) keyed); [now apply Permutation_map|]. unfold keyed. rewrite map_map. cbn. rewrite map_id. reflexivity. }
  assert (M : forall a, In a (map (fun i => fst (snd i)) r) <-> In a l).
  { intros a. rewrite <- SI. assert (Q : Permutation (map (fun i => fst (snd i)) r) (so l)) by (transitivity (map (fun i => fst (snd i)) keyed); [now apply Permutation_map|]; unfold keyed; rewrite map_map; cbn; rewrite map_id; reflexivity).
    split; apply Permutation_in; [exact Q|now symmetry]. }
  destruct r as [|i r]; [exfalso; destruct l as [|a l]; [now apply NE|]; apply (M a); now left|].
  eexists. split; [reflexivity|]. exists (map (fun i => fst (snd i)) (i :: r)). split; [|split; [exact M|]].
  - clear P M. revert SS NDr SH. generalize (i :: r). clear r i. intros r. induction r as [|i r IH]; intros SS NDr SH; [constructor|]. inversion SS as [|? ? SS1 SS2]; subst. cbn [map] in *. inversion NDr as [|? ? N1 N2]; subst.
    constructor; [apply IH; [exact SS1|exact N2|intros; apply SH; now right]|]. apply Forall_forall. intros b Hb. apply in_map_iff in Hb as (j & <- & Hj). rewrite Forall_forall in SS2. specialize (SS2 j Hj).
    rewrite Forall_forall in K. destruct (SH i (or_introl eq_refl)) as (Ei & Li). destruct (SH j (or_intror Hj)) as (Ej & Lj). destruct (known_number _ (K _ Li)) as (x & X). destruct (known_number _ (K _ Lj)) as (y & Y).
    exists x, y. split; [exact X|]. split; [exact Y|]. apply Z.leb_le in SS2. rewrite Ei, Ej in SS2. cbn [fst] in SS2. unfold num in SS2. rewrite X, Y in SS2.
    assert (x <> y); [|lia]. intros ->. apply N1. rewrite (number_inj _ _ _ X Y). apply in_map_iff. now exists j.
  - rewrite (join_fold (fun i : Z * (string * nat) => (fst (snd i) ++ show_int (Z.of_nat (snd (snd i))))%string) r). cbn [map]. f_equal. f_equal.
    + destruct (SH i (or_introl eq_refl)) as (-> & _). reflexivity.
    + rewrite map_map. apply map_ext_in. intros j Hj. destruct (SH j (or_intror Hj)) as (-> & _). reflexivity.
Qed.

(** The name: the atoms, the basis, the multiplicity in words, the charge if it is not 0, the description if there is one. *)
Theorem C95_name {V} so (l : list (string * list V)) basis mult mw charge descr :
  set_iteration so -> l <> [] -> Forall known (map fst l) -> (1 <= mult)%Z ->
  nth_error ["singlet"; "doublet"; "triplet"; "quartet"; "quintet"; "sextet"; "septet"; "octet"; "nonet"; "dectet"; "undectet"; "duodectet"]%string (Z.to_nat (mult - 1)) = Some mw ->
  exists s, names_atoms (map fst l) s /\
    name_molecule so (Placed l) basis mult charge descr = Ok (s ++ "_" ++ basis ++ "_" ++ mw ++ charge_text charge ++ (if String.eqb descr "" then "" else "_" ++ descr))%string.
Proof.
  intros SO NE K HM HW. destruct (atoms_named so (map fst l) SO) as (s & E & N); [destruct l; [congruence|discriminate]|exact K|]. exists s. split; [exact N|]. unfold name_molecule. rewrite E. cbn [rbind].
  assert (W : multiplicity_name mult = Some mw) by (unfold multiplicity_name; replace (Z.ltb mult 1) with false by (symmetry; apply Z.ltb_ge; lia); exact HW). rewrite W. unfold charge_text.
  f_equal. assert (R : forall a, (a ++ "" = a)%string) by (induction a as [|x a IH]; cbn; [reflexivity|now rewrite IH]).
  destruct (String.eqb descr ""); destruct (Z.ltb 0 charge) eqn:E1; destruct (Z.ltb charge 0) eqn:E2; destruct (Z.eqb charge 0) eqn:E3; rewrite ?Z.ltb_lt, ?Z.ltb_ge, ?Z.eqb_eq, ?Z.eqb_neq in *; try lia;
    rewrite ?app_assoc_s; cbn [append]; rewrite ?R; reflexivity.
Qed.

Lemma strict_unique (R : string -> string -> Prop) l1 l2 : (forall a b, R a b -> R b a -> False) -> StronglySorted R l1 -> StronglySorted R l2 -> (forall a, In a l1 <-> In a l2) -> l1 = l2.
Proof.
  intros AS. assert (IR : forall a, ~ R a a) by (intros a H; exact (AS a a H H)). revert l2. induction l1 as [|a l1 IH]; intros [|b l2] H1 H2 H; [reflexivity| | |].
  - exfalso. apply (H b). now left.
  - exfalso. apply (H a). now left.
  - inversion H1 as [|? ? S1 F1]; subst. inversion H2 as [|? ? S2 F2]; subst. rewrite Forall_forall in F1, F2.
    assert (a = b).
    { destruct (proj1 (H a) (or_introl eq_refl)) as [->|Ha]; [reflexivity|]. destruct (proj2 (H b) (or_introl eq_refl)) as [->|Hb]; [reflexivity|]. exfalso. exact (AS a b (F1 b Hb) (F2 a Ha)). }
    subst b. f_equal. apply IH; [exact S1|exact S2|]. intros x. split; intros Hx.
    + destruct (proj1 (H x) (or_intror Hx)) as [<-|]; [exfalso; exact (IR a (F1 a Hx))|assumption].
    + destruct (proj2 (H x) (or_intror Hx)) as [<-|]; [exfalso; exact (IR a (F2 a Hx))|assumption].
Qed.
Lemma names_unique l1 l2 s1 s2 : Permutation l1 l2 -> names_atoms l1 s1 -> names_atoms l2 s2 -> s1 = s2.
Proof.
  intros P (d1 & S1 & M1 & ->) (d2 & S2 & M2 & ->). assert (d1 = d2) as <-.
  { eapply strict_unique; [|exact S1|exact S2|].
    - intros a b (x & y & X & Y & L) (x' & y' & X' & Y' & L'). rewrite X in Y'. rewrite Y in X'. injection X' as <-. injection Y' as <-. lia.
    - intros a. rewrite M1, M2. split; apply Permutation_in; [exact P|now symmetry]. }
  f_equal. apply map_ext. intros a. rewrite (proj1 (Permutation_count_occ string_dec l1 l2) P a). reflexivity.
Qed.
(** Neither the iteration order of sets nor the order and the positions of the atoms matter, for good and bad molecules alike. *)
Theorem C95_name_same {V} so1 so2 (l1 l2 : list (string * list V)) basis mult charge descr :
  set_iteration so1 -> set_iteration so2 -> Permutation (map fst l1) (map fst l2) -> name_molecule so1 (Placed l1) basis mult charge descr = name_molecule so2 (Placed l2) basis mult charge descr.
Proof.
  intros SO1 SO2 P. unfold name_molecule. assert (E : atoms_name so1 (map fst l1) = atoms_name so2 (map fst l2)); [|rewrite E; reflexivity]. revert P. generalize (map fst l1) (map fst l2). clear l1 l2. intros l1 l2 P.
  destruct l1 as [|a l1].
  { apply Permutation_nil in P as ->. assert (N : forall so, set_iteration so -> so [] = []) by (intros so SO; destruct (so []) as [|x r] eqn:E; [reflexivity|]; exfalso; apply (proj1 (proj2 (SO []) x)); rewrite E; now left).
    unfold atoms_name. rewrite !N by assumption. reflexivity. }
  destruct (Forall_Exists_dec known (fun x => in_dec string_dec x periodic_table) (a :: l1)) as [K|K].
  - destruct (atoms_named so1 (a :: l1) SO1) as (s1 & E1 & N1); [discriminate|exact K|]. destruct (atoms_named so2 l2 SO2) as (s2 & E2 & N2).
    + intros ->. apply Permutation_sym, Permutation_nil in P. discriminate.
    + apply (Permutation_Forall P). exact K.
    + rewrite E1, E2. f_equal. exact (names_unique _ _ _ _ P N1 N2).
  - assert (B : forall so l, set_iteration so -> Exists (fun x => ~ known x) l -> atoms_name so l = Err KeyError).
    { intros so l SO X. unfold atoms_name. rewrite (mapM_unknown (fun i : string * nat => fst i) (fun n i => (n, i))); [reflexivity|]. apply Exists_exists in X as (x & Hx & U). apply Exists_exists.
      exists (x, count_occ string_dec l x). split; [|exact U]. apply in_map_iff. exists x. split; [reflexivity|]. now apply (proj2 (SO _)). }
    rewrite !B; [reflexivity|exact SO2| |exact SO1|exact K]. apply Exists_exists in K as (x & Hx & U). apply Exists_exists. exists x. split; [now apply (Permutation_in _ P)|exact U].
Qed.
Theorem C95_name_errors {V} so (l : list (string * list V)) basis mult charge descr : set_iteration so ->
  (l = [] -> name_molecule so (Placed l) basis mult charge descr = Err IndexError) /\
  (Exists (fun x => ~ known x) (map fst l) -> name_molecule so (Placed l) basis mult charge descr = Err KeyError) /\
  (l <> [] -> Forall known (map fst l) -> (mult < 1 \/ 12 < mult)%Z -> name_molecule so (Placed l) basis mult charge descr = Err GenericException).
Proof.
  intros SO. split; [|split].
  - intros ->. unfold name_molecule, atoms_name. cbn [map]. destruct (so []) as [|x r] eqn:E; [reflexivity|]. exfalso. apply (proj1 (proj2 (SO []) x)). rewrite E. now left.
  - intros X. unfold name_molecule, atoms_name. rewrite (mapM_unknown (fun i : string * nat => fst i) (fun n i => (n, i))); [reflexivity|]. apply Exists_exists in X as (x & Hx & U). apply Exists_exists.
    exists (x, count_occ string_dec (map fst l) x). split; [|exact U]. apply in_map_iff. exists x. split; [reflexivity|]. now apply (proj2 (SO _)).
  - intros NE K B. destruct (atoms_named so (map fst l) SO) as (s & E & _); [destruct l; [congruence|discriminate]|exact K|]. unfold name_molecule. rewrite E. cbn [rbind].
    assert (W : multiplicity_name mult = None); [|rewrite W; reflexivity]. unfold multiplicity_name. destruct (Z.ltb mult 1) eqn:L; [reflexivity|]. apply Z.ltb_ge in L. apply nth_error_None. cbn [length]. lia.
Qed.

(** The numbers of a molecule: as many electrons as protons less the charge; the atoms by atomic number. *)
Theorem C95_numbers {V} so (l : list (string * list V)) basis mult charge descr F dir fs m :
  molecular_data so (Some (Placed l)) (Some basis) (Some mult) charge descr F dir fs = Ok m ->
  geo m = Placed l /\ n_atoms m = Z.of_nat (length l) /\
  n_electrons m = (fold_right Z.add 0 (map num (map fst l)) - charge)%Z /\
  exists at_, atoms m = Strings at_ /\ Permutation at_ (map fst l) /\ protons m = Some (map num at_) /\ StronglySorted Z.le (map num at_) /\ Forall known at_ /\
  loaded m = [] /\ energies m = [] /\ general_calculations m = Calculations [].
Proof.
  unfold molecular_data. intros H. destruct (name_molecule so (Placed l) basis mult charge descr) as [nm|]; [|discriminate]. cbn [rbind] in H.
  destruct (Forall_Exists_dec (fun r : string * list V => known (fst r)) (fun x => in_dec string_dec (fst x) periodic_table) l) as [K|K].
  2:{ rewrite (mapM_unknown (fun r : string * list V => fst r) (fun n r => (n, fst r)) l K) in H. discriminate. }
  assert (E : mapM (fun row : string * list V => let! n := atomic_number (fst row) in Ok (n, fst row)) l = Ok (map (fun r => (num (fst r), fst r)) l)).
  { clear H. induction K as [|r l Hr K IH]; [reflexivity|]. cbn [mapM map]. unfold num. destruct (known_number _ Hr) as (z & Ez). rewrite Ez. cbn [rbind]. rewrite IH. reflexivity. }
  rewrite E in H. cbn [rbind] in H. injection H as <-. cbn [geo n_atoms n_electrons atoms protons loaded energies general_calculations].
  set (keyed := map (fun r : string * list V => (num (fst r), fst r)) l). pose proof (sort_by_perm (fun a b : Z * string => Z.leb (fst a) (fst b)) keyed) as P. pose proof (sorted_keyed keyed) as SS.
  set (r := sort_by (fun a b : Z * string => Z.leb (fst a) (fst b)) keyed) in *. clearbody r.
  assert (SH : map fst r = map num (map snd r)).
  { rewrite map_map. apply map_ext_in. intros i Hi. apply (Permutation_in _ P) in Hi. apply in_map_iff in Hi as (x & <- & _). reflexivity. }
  assert (PP : Permutation (map snd r) (map fst l)) by (transitivity (map snd keyed); [now apply Permutation_map|]; unfold keyed; rewrite map_map; cbn; reflexivity).
  split; [reflexivity|]. split; [reflexivity|]. split.
  - f_equal. rewrite SH. assert (Q : Permutation (map num (map snd r)) (map num (map fst l))) by now apply Permutation_map. clear - Q. induction Q; cbn; lia.
  - exists (map snd r). split; [reflexivity|]. split; [exact PP|]. split; [now rewrite SH|]. split; [|split; [|repeat split]].
    + rewrite <- SH. clear - SS. induction SS as [|i r SS IH F]; cbn; constructor; [exact IH|]. apply Forall_forall. intros z Hz. apply in_map_iff in Hz as (j & <- & Hj). rewrite Forall_forall in F. specialize (F j Hj). now apply Z.leb_le.
    + apply Forall_forall. intros a Ha. apply (Permutation_in _ PP) in Ha. apply in_map_iff in Ha as (x & <- & Hx). rewrite Forall_forall in K. now apply K.
Qed.
(** Without a name of their own, molecules with the same atoms at other positions share their file. *)
Theorem C95_default_file {V} so1 so2 (l1 l2 : list (string * list V)) basis mult charge descr dir fs m1 m2 :
  set_iteration so1 -> set_iteration so2 -> Permutation (map fst l1) (map fst l2) ->
  molecular_data so1 (Some (Placed l1)) (Some basis) (Some mult) charge descr "" dir fs = Ok m1 -> molecular_data so2 (Some (Placed l2)) (Some basis) (Some mult) charge descr "" dir fs = Ok m2 ->
  filename m1 = filename m2.
Proof.
  intros SO1 SO2 P. unfold molecular_data. rewrite (C95_name_same so1 so2 l1 l2 basis mult charge descr SO1 SO2 P). destruct (name_molecule so2 (Placed l2) basis mult charge descr) as [nm|]; [|discriminate]. cbn [rbind].
  destruct (mapM _ l1) as [k1|]; [|discriminate]. destruct (mapM _ l2) as [k2|]; [|discriminate]. cbn [rbind]. intros H1 H2. injection H1 as <-. injection H2 as <-. reflexivity.
Qed.

(** Geometry files: the lines of four words, in order; other lines are skipped. *)
Theorem C95_geometry {V} (to_float : string -> result V) (of_ : string -> V) lines :
  (forall a b c d, In [a; b; c; d] lines -> to_float b = Ok (of_ b) /\ to_float c = Ok (of_ c) /\ to_float d = Ok (of_ d)) ->
  geometry_from_file to_float lines = Ok (flat_map (fun line => match line with [a; x; y; z] => [(a, [of_ x; of_ y; of_ z])] | _ => [] end) lines).
Proof.
  intros H. unfold geometry_from_file. assert (G : forall acc, foldM (fun geometry data => match data with
                                | [atom; x; y; z] => let! x := to_float x in let! y := to_float y in let! z := to_float z in Ok (geometry ++ [(atom, [x; y; z])])
                                | _ => Ok geometry end) lines acc = Ok (acc ++ flat_map (fun line => match line with [a; x; y; z] => [(a, [of_ x; of_ y; of_ z])] | _ => [] end) lines)).
  { induction lines as [|line lines IH]; intros acc; [cbn; now rewrite app_nil_r|]. cbn [foldM flat_map].
    assert (IH' := IH (fun a b c d X => H a b c d (or_intror X))). clear IH.
    destruct line as [|a [|b [|c [|d [|e line]]]]]; cbn [rbind app]; try apply IH'. destruct (H a b c d (or_introl eq_refl)) as (-> & -> & ->). cbn [rbind]. rewrite IH', <- app_assoc. reflexivity. }
  apply (G []).
Qed.

(** ** Examples: numbers and arrays are integers *)
Definition order (l : list string) : list string := uniq String.eqb l.
Lemma order_ok : set_iteration order.
Proof. intros l. split; [apply uniq_NoDup; exact str_ok|]. intros a. apply uniq_In. exact str_ok. Qed.
Definition water : list (string * list Z) := [("O", [0; 0; 0]); ("H", [0; 0; 9]); ("H", [0; 9; 0])]%string%Z.
Definition water2 : list (string * list Z) := [("H", [1; 0; 9]); ("H", [1; 9; 0]); ("O", [1; 0; 0])]%string%Z.
Definition made (l : list (string * list Z)) : result (molecule Z) := molecular_data order (Some (Placed l)) (Some "sto-3g"%string) (Some 1%Z) (-1) "" "" "data" [].
Definition get_ok (r : result (molecule Z)) : molecule Z := match r with Ok m => m | Err _ => blank "" end.
Example ex_made : match made water with Ok m => (name m, filename m, n_electrons m, protons m) = ("H2-O1_sto-3g_singlet_-1-", "data/H2-O1_sto-3g_singlet_-1-", 11%Z, Some [1; 1; 8]%Z)%string | Err _ => False end.
Proof. vm_compute. reflexivity. Qed.
Example ex_name : Forall known (map fst water) /\ made water <> Err KeyError /\ map fst water2 <> map fst water /\ Permutation (map fst water) (map fst water2).
Proof.
  split; [apply Forall_forall; intros a Ha; unfold known; repeat (destruct Ha as [<-|Ha]; [vm_compute; tauto|]); destruct Ha|]. split; [vm_compute; discriminate|]. split; [discriminate|].
  cbn. apply (Permutation_app_comm ["O"%string] ["H"%string; "H"%string]).
Qed.
Example ex_name_bad : name_molecule order (Placed [("Xx"%string, [0%Z])]) "b" 1 0 "" = Err KeyError /\ name_molecule order (Placed water) "b" 13 0 "" = Err GenericException.
Proof. split; vm_compute; reflexivity. Qed.

(** an object with integrals assigned and calculations *)
Definition mol0 : molecule Z := with_loaded (get_ok (made water)) [("one_body_integrals", 5%Z)]%string.
Definition mol : molecule Z :=
  {| geo := geo mol0; basis := basis mol0; multiplicity := multiplicity mol0; charge := charge mol0; description := description mol0; name := name mol0; filename := filename mol0; n_atoms := n_atoms mol0;
     atoms := atoms mol0; protons := protons mol0; n_electrons := n_electrons mol0; n_orbitals := Some 7%Z; n_qubits := None; nuclear_repulsion := Some 3%Z; energies := [("fci_energy", (-4)%Z)]%string;
     loaded := loaded mol0; general_calculations := Calculations [("dmrg", 8%Z)]%string |}.
Definition disk : files Z := [("other.hdf5", []); ("data/H2-O1_sto-3g_singlet_-1-.hdf5", [("fci_one_rdm", HVal 6%Z)])]%string.
Example ex_ready : ready mol disk "tmp" [("dmrg", 8%Z)]%string /\ ready mol0 disk "tmp" [] /\ NoDup (dkeys [("dmrg", 8%Z)]%string) /\ strip_hdf5 (filename mol ++ ".hdf5") = filename mol /\ strip_hdf5 (filename mol) = filename mol.
Proof.
  unfold ready. repeat split; try (vm_compute; congruence); try (vm_compute; reflexivity); repeat (constructor; [cbn; intros H; repeat destruct H as [H|H]; try discriminate; contradiction|]); constructor.
Qed.
Definition after (m : molecule Z) (fs : files Z) : files Z := snd (fst (save "tmp" (m, fs))).
Definition opened (F : string) (fs : files Z) : result (molecule Z) := molecular_data order None None None 0 "" F "" fs.
Example ex_reopen : match opened (filename mol) (after mol disk) with
  | Ok m2 => (geo m2, n_orbitals m2, shows m2 (after mol disk) "one_body_integrals", shows m2 (after mol disk) "fci_one_rdm", shows m2 (after mol disk) "cisd_one_rdm", general_calculations m2) =
             (Placed water, Some 7%Z, Some 5%Z, Some 6%Z, None, Calculations [("dmrg"%string, 8%Z)])
  | Err _ => False end.
Proof. vm_compute. reflexivity. Qed.
(** A crash can leave a molecule that had a good file without a file under its name. *)
Theorem C95_crash_refuted : exists (m : molecule Z) fs tmp k m1, load m fs = Ok m1 /\ load m (crash_after k tmp m fs) = Err FileNotFoundError.
Proof. exists mol, (after mol disk), "tmp"%string, 34, (get_ok (load mol (after mol disk))). split; vm_compute; reflexivity. Qed.
(** An opened molecule that is saved under another name can lose what the file held. *)
Theorem C95_rename_refuted : exists m m2 m3 : molecule Z, exists fs fs2 k v,
  load m fs = Ok m2 /\ shows m2 fs k = Some v /\ save "tmp" (with_filename m2 "new", fs) = ((m3, fs2), Ok tt) /\ shows m3 fs2 k = None.
Proof.
  exists (blank (filename mol)), (get_ok (opened (filename mol) (after mol disk))), (fst (fst (save "tmp" (with_filename (get_ok (opened (filename mol) (after mol disk))) "new", after mol disk)))).
  exists (after mol disk), (after (with_filename (get_ok (opened (filename mol) (after mol disk))) "new") (after mol disk)), "one_body_integrals"%string, 5%Z.
  split; [vm_compute; reflexivity|]. split; [vm_compute; reflexivity|]. split; vm_compute; reflexivity.
Qed.
(** Saving two molecules that differ in the positions only leaves one. *)
Theorem C95_overwritten_refuted : exists a b : molecule Z, geo a <> geo b /\ made water = Ok a /\ made water2 = Ok b /\
  match opened (filename a) (after b (after a [])) with Ok m => geo m = geo b | Err _ => False end.
Proof. exists (get_ok (made water)), (get_ok (made water2)). split; [vm_compute; discriminate|]. split; [vm_compute; reflexivity|]. split; [vm_compute; reflexivity|]. vm_compute. reflexivity. Qed.
(** Loading again does not refresh a property that was read before the file changed. *)
Theorem C95_reload_refuted : exists m m2 : molecule Z, exists fs k, load m fs = Ok m2 /\ shows m2 fs k <> shows (with_loaded m2 []) fs k.
Proof.
  exists (with_loaded mol [("one_body_integrals"%string, 77%Z)]), (with_loaded (get_ok (load mol (after mol disk))) [("one_body_integrals"%string, 77%Z)]), (after mol disk), "one_body_integrals"%string.
  split; vm_compute; [reflexivity|discriminate].
Qed.
Example ex_unsaveable : snd (save "tmp" (get_ok (opened (filename mol0) (after mol0 disk)), after mol0 disk)) = Err AttributeError.
Proof. vm_compute. reflexivity. Qed.
Example ex_rdm : snd (get_molecular_rdm (fun z => if Z.ltb z 7 then 0%Z else z) true (mol, [("data/H2-O1_sto-3g_singlet_-1-.hdf5", [("fci_one_rdm", HVal 6%Z); ("fci_two_rdm", HVal 9%Z)])]%string)) = Ok (0, 9)%Z
  /\ snd (get_molecular_rdm (fun z => z) true (mol, disk)) = Err TypeError /\ snd (get_molecular_rdm (fun z => z) false (mol, disk)) = Err GenericException.
Proof. split; [vm_compute; reflexivity|]. split; vm_compute; reflexivity. Qed.
Example ex_geometry : geometry_from_file (fun s => if String.eqb s "x" then Err ValueError else Ok (Z.of_nat (String.length s))) [["H"; "1"; "22"; "333"]; ["comment"]; []; ["x"; "1"; "1"; "1"; "1"]; ["O"; "1"; "1"; "4444"]]%string
  = Ok [("H"%string, [1; 2; 3]%Z); ("O"%string, [1; 1; 4]%Z)].
Proof. reflexivity. Qed.

Print Assumptions C95_name. Print Assumptions C95_name_same. Print Assumptions C95_numbers. Print Assumptions C95_reopen. Print Assumptions C95_crash_between.
