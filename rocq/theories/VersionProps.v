(** C106: reading and increasing versions; stated over VersionModel.v and VersionSpec.v. *)
From Coq Require Import List NArith ZArith String Ascii Lia.
From Verif Require Import Base UtilsModel SymModel SymSpec SymProofs AnsatzProofs OpTextModel OpTextProofs VersionModel VersionSpec.
Import ListNotations.
Open Scope list_scope.

Lemma str_writes n : writes (str n) n.
Proof.
  destruct (str_numeral (N.to_nat n)) as ((H1 & H2) & H3). rewrite N_nat_Z, N2Nat.id in *. unfold str, text_of. split; [|split; [exact H2|exact H3]].
  intros E. apply H1. destruct (str_of_int (Z.of_N n)); [reflexivity|discriminate].
Qed.
Lemma writes_value d n : writes d n -> int_of_digits d = n.
Proof. intros (_ & _ & E). now rewrite int_of_digits_value. Qed.
Lemma dot_no_digit : is_digit dot = false. Proof. reflexivity. Qed.
Lemma span_writes d n r : writes d n -> match r with [] => True | c :: _ => is_digit c = false end -> span_digits (d ++ r) = (d, r).
Proof. intros (_ & H & _). now apply span_app. Qed.
Lemma line_ends p tail : one_line p -> ends tail -> line (p ++ tail) = p.
Proof.
  unfold one_line. induction p as [|c p IH]; intros H E; cbn.
  - destruct tail as [|c t]; [reflexivity|]. cbn in E. subst c. reflexivity.
  - destruct (Ascii.eqb_spec c newline) as [->|N]; [exfalso; apply H; now left|]. rewrite IH; [reflexivity| |exact E]. intros I. apply H. now right.
Qed.
Lemma ends_no_digit tail : ends tail -> match tail with [] => True | c :: _ => is_digit c = false end.
Proof. destruct tail as [|c t]; cbn; [auto|]. now intros ->. Qed.
Lemma ends_pre tail : ends tail -> match_pre tail = None.
Proof. destruct tail as [|c t]; cbn; [auto|]. now intros ->. Qed.
Lemma ends_patch tail : ends tail -> match_patch tail = (None, tail).
Proof. destruct tail as [|c t]; cbn; [auto|]. now intros ->. Qed.
Lemma match_pre_sep sep p tail : separator sep -> p <> [] -> one_line p -> ends tail -> match_pre (sep :: p ++ tail) = Some p.
Proof. intros S N O E. unfold match_pre. rewrite (line_ends p tail O E). destruct S as [-> | ->]; cbn; destruct p; congruence. Qed.
Lemma sep_no_digit sep : separator sep -> is_digit sep = false.
Proof. intros [-> | ->]; reflexivity. Qed.
Lemma parse_as ma mi M m r : writes ma M -> writes mi m -> match r with [] => True | c :: _ => is_digit c = false end ->
  parse_version_str (ma ++ dot :: mi ++ r) = Ok {| major := M; minor := m; patch := option_map int_of_digits (fst (match_patch r)); pre := match_pre (snd (match_patch r)) |}.
Proof.
  intros Wa Wi Hr. unfold parse_version_str. rewrite (span_writes ma M (dot :: mi ++ r) Wa dot_no_digit). destruct ma as [|x ma]; [now destruct Wa|]. rewrite Ascii.eqb_refl.
  rewrite (span_writes mi m r Wi Hr). destruct mi as [|y mi]; [now destruct Wi|]. destruct (match_patch r) as [pa r']. cbn [fst snd]. now rewrite (writes_value _ _ Wa), (writes_value _ _ Wi).
Qed.
Lemma match_patch_dot pa q r : writes pa q -> match r with [] => True | c :: _ => is_digit c = false end -> match_patch (dot :: pa ++ r) = (Some pa, r).
Proof. intros W H. unfold match_patch. rewrite Ascii.eqb_refl, (span_writes pa q r W H). destruct pa; [now destruct W|reflexivity]. Qed.

(** ** Every way of writing a version is read, also with a line end behind it. *)
Theorem C106_reads s v tail : written_as s v -> ends tail -> parse_version_str (s ++ tail) = Ok v.
Proof.
  intros W E. destruct W as [ma mi pa sep p M m q Wa Wi Wp S N O|ma mi pa M m q Wa Wi Wp|ma mi sep c p M m Wa Wi S O D|ma mi M m Wa Wi].
  - replace ((ma ++ dot :: mi ++ dot :: pa ++ sep :: p) ++ tail) with (ma ++ dot :: mi ++ (dot :: pa ++ sep :: p ++ tail)) by (rewrite <- !app_assoc; cbn; rewrite <- !app_assoc; cbn; now rewrite <- !app_assoc).
    rewrite (parse_as ma mi M m (dot :: pa ++ sep :: p ++ tail) Wa Wi dot_no_digit). rewrite (match_patch_dot pa q (sep :: p ++ tail) Wp (sep_no_digit sep S)). cbn [fst snd option_map]. now rewrite (writes_value _ _ Wp), match_pre_sep.
  - replace ((ma ++ dot :: mi ++ dot :: pa) ++ tail) with (ma ++ dot :: mi ++ (dot :: pa ++ tail)) by (rewrite <- !app_assoc; cbn; now rewrite <- !app_assoc).
    rewrite (parse_as ma mi M m (dot :: pa ++ tail) Wa Wi dot_no_digit). rewrite (match_patch_dot pa q tail Wp (ends_no_digit tail E)). cbn [fst snd option_map]. now rewrite (writes_value _ _ Wp), ends_pre.
  - replace ((ma ++ dot :: mi ++ sep :: c :: p) ++ tail) with (ma ++ dot :: mi ++ (sep :: (c :: p) ++ tail)) by (rewrite <- !app_assoc; cbn; now rewrite <- !app_assoc).
    rewrite (parse_as ma mi M m (sep :: (c :: p) ++ tail) Wa Wi (sep_no_digit sep S)). assert (X : match_patch (sep :: (c :: p) ++ tail) = (None, sep :: (c :: p) ++ tail)).
    { unfold match_patch. destruct (Ascii.eqb_spec sep dot) as [Es|Ns]; [|reflexivity]. cbn [app span_digits]. now rewrite (D Es). }
    rewrite X. cbn [fst snd option_map]. now rewrite (match_pre_sep sep (c :: p) tail S).
  - replace ((ma ++ dot :: mi) ++ tail) with (ma ++ dot :: mi ++ tail) by (now rewrite <- !app_assoc). rewrite (parse_as ma mi M m _ Wa Wi (ends_no_digit tail E)). rewrite (ends_patch tail E). cbn. now rewrite ends_pre.
Qed.
(** Anything that starts with two numbers around a point is read, and everything else is a ValueError. *)
Theorem C106_accepts s : (exists v, parse_version_str s = Ok v) <-> exists ma mi rest M m, writes ma M /\ writes mi m /\ s = ma ++ dot :: mi ++ rest.
Proof.
  split.
  - intros (v & E). unfold parse_version_str in E. pose proof (span_spec s) as S1. destruct (span_digits s) as [ma r1]. destruct S1 as (-> & D1 & _). destruct ma as [|x ma]; [discriminate|]. destruct r1 as [|c r1]; [discriminate|].
    destruct (Ascii.eqb_spec c dot) as [->|]; [|discriminate]. pose proof (span_spec r1) as S2. destruct (span_digits r1) as [mi r2]. destruct S2 as (-> & D2 & _). destruct mi as [|y mi]; [discriminate|].
    exists (x :: ma), (y :: mi), r2, (decimal_value (x :: ma)), (decimal_value (y :: mi)). repeat split; auto; discriminate.
  - intros (ma & mi & rest & M & m & Wa & Wi & ->). pose proof (span_spec rest) as S. destruct (span_digits rest) as [d r]. destruct S as (-> & Dd & Hr).
    assert (Wi' : writes (mi ++ d) (decimal_value (mi ++ d))). { destruct Wi as (N & D & _). split; [destruct mi; [contradiction|discriminate]|]. split; [|reflexivity]. intros c Hc. apply in_app_or in Hc. destruct Hc; auto. }
    rewrite app_assoc. rewrite (parse_as ma (mi ++ d) M _ r Wa Wi' Hr). eauto.
Qed.
Theorem C106_rejects s e : parse_version_str s = Err e -> e = ValueError.
Proof.
  unfold parse_version_str. destruct (span_digits s) as [ma r1], ma as [|x ma], r1 as [|c r1]; try congruence. destruct (Ascii.eqb c dot); [|congruence]. destruct (span_digits r1) as [mi r2], mi; [congruence|]. destruct (match_patch r2). discriminate.
Qed.
(** ** Versions survive being written and read. *)
Definition readable (v : semver) : Prop :=
  match pre v with None => True | Some [] => False | Some (c :: p) => one_line (c :: p) /\ (patch v = None -> is_digit c = false) end.
Theorem C106_roundtrip v tail : readable v -> ends tail -> parse_version_str (version_str v ++ tail) = Ok v.
Proof.
  intros R E. apply C106_reads; [|exact E]. destruct v as [M m pa pr]. unfold version_str, readable in *. cbn [major minor patch pre] in *. cbn [app].
  destruct pr as [[|c p]|]; [destruct R| |].
  - destruct R as (O & D). destruct pa as [q|].
    + repeat (rewrite <- app_assoc; cbn [app]). apply (w_full (str M) (str m) (str q) dot (c :: p) M m q); auto using str_writes; [now left|discriminate].
    + repeat (rewrite <- app_assoc; cbn [app]). apply (w_pre (str M) (str m) dot c p M m); auto using str_writes. now left.
  - destruct pa as [q|]; [repeat (rewrite <- app_assoc; cbn [app]); apply (w_patch (str M) (str m) (str q)); auto using str_writes|apply (w_short (str M) (str m)); auto using str_writes].
Qed.
(** ** The next version is above the current one and above every other version with the same first two numbers; nothing with a patch number of these lies between it and them. *)
Theorem C106_next s v : parse_version_str s = Ok v ->
  let next := version_str (bump_minor v) in
  main (Ok s) = ([text_of "Read current version as: " ++ s; text_of "Next version: " ++ next; text_of "::set-output name=next_version::" ++ next], Ok tt) /\
  parse_version_str next = Ok {| major := major v; minor := minor v + 1; patch := Some 0%N; pre := None |} /\
  next = str (major v) ++ [dot] ++ str (minor v + 1) ++ [dot] ++ str 0 /\
  (forall u, major u = major v -> minor u = minor v -> below u (bump_minor v)) /\
  (forall u, below v u -> ~ below u (bump_minor v) \/ (major u = major v /\ minor u = minor v)).
Proof.
  intros E next. split; [unfold main; now rewrite E|]. split; [rewrite <- (app_nil_r next); apply (C106_roundtrip (bump_minor v) []); exact I|]. split.
  - unfold next, version_str, bump_minor. cbn [major minor patch pre]. now rewrite <- !app_assoc.
  - split; [intros u E1 E2; unfold below, bump_minor; cbn [major minor]; rewrite E1, E2; right; split; [reflexivity|]; left; lia|].
    intros u. unfold below, bump_minor, patch_number. cbn [major minor patch]. intros H. destruct (N.eq_dec (major u) (major v)), (N.eq_dec (minor u) (minor v)); lia.
Qed.
(** A version that cannot be read ends the script before any output is set. *)
Theorem C106_unreadable s e : parse_version_str s = Err e -> main (Ok s) = ([text_of "Read current version as: " ++ s], Err ValueError).
Proof. intros E. unfold main. rewrite E. now rewrite (C106_rejects s e E). Qed.
(** The output is one line of digits and points, whatever was read. *)
Theorem C106_output v c : In c (version_str (bump_minor v)) -> is_digit c = true \/ c = dot.
Proof.
  assert (D : forall n x, In x (str n) -> is_digit x = true) by (intros n x; apply (str_writes n)). unfold version_str, bump_minor. cbn [major minor patch pre]. rewrite !in_app_iff. cbn [In].
  intros [[H|[H|H]]|[H|H]]; eauto; intuition congruence.
Qed.
(** Versions keep their order, and k releases add k to the second number. *)
Theorem C106_monotone v w : below v w -> below (bump_minor v) (bump_minor w) \/ version_str (bump_minor v) = version_str (bump_minor w).
Proof.
  unfold below at 1. intros [H|(E & [H|(E2 & H)])].
  - left. left. exact H.
  - left. right. cbn. split; [exact E|]. left. lia.
  - right. unfold bump_minor. now rewrite E, E2.
Qed.
Fixpoint releases (k : nat) (s : text) : result text :=
  match k with O => Ok s | S k' => let! v := parse_version_str s in releases k' (version_str (bump_minor v)) end.
Theorem C106_releases k s v : parse_version_str s = Ok v -> (0 < k)%nat -> releases k s = Ok (str (major v) ++ [dot] ++ str (minor v + N.of_nat k) ++ [dot] ++ str 0).
Proof.
  revert s v. induction k as [|k IH]; [lia|]. intros s v E _. cbn [releases]. rewrite E. cbn [rbind]. destruct (C106_next s v E) as (_ & P & N & _). destruct k as [|k].
  - cbn [releases]. now rewrite N.
  - rewrite (IH _ _ P) by lia. cbn [major minor]. replace (minor v + 1 + N.of_nat (S k))%N with (minor v + N.of_nat (S (S k)))%N by lia. reflexivity.
Qed.

(** ** Cases *)
Example C106_case : parse_version_str (text_of "0.12.3.dev4+g1a" ++ [newline]) = Ok {| major := 0; minor := 12; patch := Some 3%N; pre := Some (text_of "dev4+g1a") |} /\
  main (Ok (text_of "1.09-rc" ++ [newline])) = ([text_of "Read current version as: 1.09-rc" ++ [newline]; text_of "Next version: 1.10.0"; text_of "::set-output name=next_version::1.10.0"], Ok tt) /\
  parse_version_str (text_of "v1.2.3") = Err ValueError /\ releases 3 (text_of "2.9") = Ok (text_of "2.12.0").
Proof. repeat split; vm_compute; reflexivity. Qed.
(** Two versions that are written alike: without a patch, a last part of digits is read as the patch. *)
Theorem C106_roundtrip_refuted : exists v, pre v <> Some [] /\ (forall p, pre v = Some p -> one_line p) /\ parse_version_str (version_str v) <> Ok v.
Proof.
  exists {| major := 1; minor := 2; patch := None; pre := Some (text_of "3") |}. cbn [pre]. split; [discriminate|]. split; [|vm_compute; discriminate].
  intros p E. injection E as <-. unfold one_line. cbn. intuition discriminate.
Qed.
(** A last part without a separator, as in the release candidates of Python packages, is dropped. *)
Theorem C106_candidate_refuted : parse_version_str (text_of "1.2.3rc1") = parse_version_str (text_of "1.2.3") /\ parse_version_str (text_of "1.2rc1") = parse_version_str (text_of "1.2").
Proof. split; vm_compute; reflexivity. Qed.

Print Assumptions C106_reads.
Print Assumptions C106_accepts.
Print Assumptions C106_rejects.
Print Assumptions C106_roundtrip.
Print Assumptions C106_next.
Print Assumptions C106_unreadable.
Print Assumptions C106_output.
Print Assumptions C106_monotone.
Print Assumptions C106_releases.
Print Assumptions C106_roundtrip_refuted.
