(** wordbreak/hyphenator/languages.go: the pattern file of each language. *)
From Verif Require Import Base Utf8 Text PatDe PatGb PatEs PatFr PatUs Cache.

(** The tags that [langMatcher.Match] (golang.org/x/text) can return (languages.go:8-18), or anything else. *)
Inductive lang := AmericanEnglish | BritishEnglish | English | French | CanadianFrench | German | Spanish
  | EuropeanSpanish | LatinAmericanSpanish | OtherLang.

Definition gbName : fname := textBytes "hyph-en-gb.tex"%text.
Definition esName : fname := textBytes "hyph-es.tex"%text.
Definition frName : fname := textBytes "hyph-fr.tex"%text.
Definition deName : fname := textBytes "hyph-de-1996.tex"%text.
Definition usName : fname := textBytes "ushyphmax.tex"%text.

(** Models [langToPattern] (languages.go:23-41), after the match. *)
Definition langToPattern (matched : lang) : fname :=
  match matched with
  | BritishEnglish | English => gbName
  | Spanish | EuropeanSpanish | LatinAmericanSpanish => esName
  | French | CanadianFrench => frName
  | German => deName
  | AmericanEnglish | OtherLang => usName
  end.

(** Models [texFS] (embedded.go:9-10): the files of languages/*.tex. *)
Definition texFS : list (fname * list byte) :=
  [(deName, de_file); (gbName, gb_file); (esName, es_file); (frName, fr_file); (usName, us_file)].
Definition openFile (f : fname) : option (list byte) :=
  match find (fun e => if list_eq_dec Z.eq_dec (fst e) f then true else false) texFS with
  | Some e => Some (snd e)
  | None => None
  end.
