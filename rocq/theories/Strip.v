(** wordbreak/hyphenator/languages/strip_comments.go: the tool that makes the embedded pattern files from the TeX files.
    Lines are lists of runes, as in Dict.v: for files in valid UTF-8. *)
From Verif Require Import Base Unicode Utf8 Dict.

(** Models [isTeXComment] (strip_comments.go:64-67). *)
Definition isStripped (l : str) : bool := match l with [] => true | _ => hasPrefix l [37] end.

(** \s of package regexp *)
Definition reSpace (r : rune) : bool := existsb (Z.eqb r) [9; 10; 12; 13; 32].
Fixpoint dropSpaces (sp : rune -> bool) (l : str) : str :=
  match l with [] => [] | r :: l' => if sp r then dropSpaces sp l' else l end.
(** Models [texComment.ReplaceAllString(line, "$1")] (strip_comments.go:16, 56), a match of ^(.+?)\s*%.*$ on a line: the
    group takes one rune, then as few as possible before white space and a percent sign. [group]: taken so far, reversed. *)
Fixpoint texMatch (group rest : str) : option str :=
  if hasPrefix (dropSpaces reSpace rest) [37] then Some (rev group)
  else match rest with [] => None | r :: rest' => texMatch (r :: group) rest' end.
Definition replaceComment (l : str) : str :=
  match l with
  | [] => []
  | r :: rest => match texMatch [r] rest with Some g => g | None => l end
  end.
(** strings.TrimSpace *)
Definition trimSpace (l : str) : str := rev (dropSpaces isSpace (rev (dropSpaces isSpace l))).

(** Models [strip] (strip_comments.go:30-62) from the content of the file to what is written. *)
Definition stripLines (lines : list str) : list str :=
  map (fun l => trimSpace (replaceComment l)) (filter (fun l => negb (isStripped l)) lines).
Definition stripFile (file : list byte) : list byte :=
  flat_map (fun l => flat_map runeBytes l ++ [10]) (stripLines (scanLines file)).
