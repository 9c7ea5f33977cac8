(** Model of the release script subtrees/z_quantum_actions/bin/get_next_version.py. Texts are lists of characters; numbers are not negative. *)
From Coq Require Import List NArith ZArith String Ascii.
From Verif Require Import Base UtilsModel SymModel OpTextModel.
Import ListNotations.
Open Scope string_scope.
Open Scope list_scope.

(** 16-20 *)
Record semver := { major : N; minor : N; patch : option N; pre : option text }.
Definition dot : ascii := "."%char.
Definition dash : ascii := "-"%char.
Definition newline : ascii := "010"%char.
(** str of a number *)
Definition str (n : N) : text := text_of (str_of_int (Z.of_N n)).
(** 22-30 *)
Definition version_str (v : semver) : text :=
  let version := str (major v) ++ [dot] ++ str (minor v) in
  let version := match patch v with Some p => version ++ [dot] ++ str p | None => version end in
  match pre v with Some (c :: p) => version ++ [dot] ++ c :: p | _ => version end.
(** 32-39 *)
Definition bump_minor (v : semver) : semver := {| major := major v; minor := minor v + 1; patch := Some 0%N; pre := None |}.

(** the characters that .+ matches: up to the end of the line *)
Fixpoint line (s : text) : text := match s with [] => [] | c :: s' => if Ascii.eqb c newline then [] else c :: line s' end.
(** 46-48, the group for the patch: digits after a point, if there are any *)
Definition match_patch (s : text) : option text * text :=
  match s with
  | c :: s' => if Ascii.eqb c dot then let (d, r) := span_digits s' in match d with [] => (None, s) | _ => (Some d, r) end else (None, s)
  | [] => (None, [])
  end.
(** 46-48, the group for pre *)
Definition match_pre (s : text) : option text :=
  match s with c :: s' => if Ascii.eqb c dash || Ascii.eqb c dot then match line s' with [] => None | l => Some l end else None | [] => None end.
(** 51-73. re.match looks at the start of the text; it takes as many digits as there are, and since every group after the second number is optional it never has to go back. *)
Definition parse_version_str (version : text) : result semver :=
  let (ma, r) := span_digits version in
  match ma, r with
  | _ :: _, c :: r =>
      if Ascii.eqb c dot then
        let (mi, r) := span_digits r in
        match mi with
        | [] => Err ValueError
        | _ => let (pa, r) := match_patch r in
               Ok {| major := int_of_digits ma; minor := int_of_digits mi; patch := option_map int_of_digits pa; pre := match_pre r |}
        end
      else Err ValueError
  | _, _ => Err ValueError
  end.
(** 82-98 with 42-43 and 76-79: the lines that are printed, and how the script ends; [current] is what setup.py reports *)
Definition main (current : result text) : list text * result unit :=
  match current with
  | Err e => ([], Err e)
  | Ok current_version =>
      let read := text_of "Read current version as: " ++ current_version in
      match parse_version_str current_version with
      | Err e => ([read], Err e)
      | Ok v => let next_version := version_str (bump_minor v) in
                ([read; text_of "Next version: " ++ next_version; text_of "::set-output name=next_version::" ++ next_version], Ok tt)
      end
  end.
