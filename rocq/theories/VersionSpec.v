(** Specification for C106: how versions are written, and their order. *)
From Coq Require Import List NArith String Ascii.
From Verif Require Import Base SymModel SymSpec OpTextModel VersionModel.
Import ListNotations.
Open Scope list_scope.

(** [d] is a way to write [n] in decimal digits, perhaps with leading zeros. *)
Definition writes (d : text) (n : N) : Prop := d <> [] /\ (forall c, In c d -> is_digit c = true) /\ decimal_value d = n.
(** what may follow a version: nothing, or a line end and anything *)
Definition ends (tail : text) : Prop := match tail with [] => True | c :: _ => c = newline end.
Definition one_line (s : text) : Prop := ~ In newline s.
Definition separator (c : ascii) : Prop := c = dot \/ c = dash.
(** How a version can be written: the last part after a point or a dash. Without a patch, a last part that follows a point must not start with a digit. *)
Inductive written_as : text -> semver -> Prop :=
| w_full ma mi pa sep p M m q : writes ma M -> writes mi m -> writes pa q -> separator sep -> p <> [] -> one_line p ->
    written_as (ma ++ dot :: mi ++ dot :: pa ++ sep :: p) {| major := M; minor := m; patch := Some q; pre := Some p |}
| w_patch ma mi pa M m q : writes ma M -> writes mi m -> writes pa q -> written_as (ma ++ dot :: mi ++ dot :: pa) {| major := M; minor := m; patch := Some q; pre := None |}
| w_pre ma mi sep c p M m : writes ma M -> writes mi m -> separator sep -> one_line (c :: p) -> (sep = dot -> is_digit c = false) ->
    written_as (ma ++ dot :: mi ++ sep :: c :: p) {| major := M; minor := m; patch := None; pre := Some (c :: p) |}
| w_short ma mi M m : writes ma M -> writes mi m -> written_as (ma ++ dot :: mi) {| major := M; minor := m; patch := None; pre := None |}.
(** the order of releases; a missing patch counts as 0 *)
Definition patch_number (v : semver) : N := match patch v with Some p => p | None => 0%N end.
Definition below (v w : semver) : Prop :=
  (major v < major w \/ (major v = major w /\ (minor v < minor w \/ (minor v = minor w /\ patch_number v < patch_number w))))%N.
