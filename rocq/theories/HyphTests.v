(** The expectations of wordbreak/hyphenator/hyphenator_test.go, computed by the model on the embedded files: evidence that
    the model reads the code right. Only the Unicode facts used by these words are given. *)
From Verif Require Import Base Unicode Utf8 Text Dict Hyph Lang Cache PatDe PatGb PatEs PatFr PatUs.

Definition latinLow : unicode := mkUnicode (fun _ => false) (fun _ => false) (fun r => r).
Definition str_ (t : text) : str := runesOf (textBytes t).
Definition load (l : lang) : dictionary :=
  match openFile (langToPattern l) with
  | Some bs => loadFile latinLow (defaultName (langToPattern l)) bs
  | None => mkDict Trie.newTrie Trie.newTrie []
  end.
Definition strs (l : list text) : go (list str) := Ret (map str_ l).

Definition dUs := Eval vm_compute in load AmericanEnglish.
Definition bw (d : dictionary) (o : hoptions) (w : text) := breakWord latinLow d o (str_ w).
Local Open Scope text_scope.

Example us_test :
  bw dUs defaultHopts "ancillary" = strs ["an"; "cil"; "lary"] /\
  bw dUs defaultHopts "associate" = strs ["as"; "so"; "ciate"] /\
  bw dUs defaultHopts "associ-ates" = strs ["associ-ates"] /\
  bw dUs defaultHopts "reciprocity" = strs ["reci"; "procity"] /\
  bw dUs defaultHopts "maj-estuous" = strs ["maj-estuous"] /\
  bw dUs defaultHopts "majestuous" = strs ["ma"; "jes"; "tu"; "ous"] /\
  bw dUs defaultHopts "daughters" = strs ["daugh"; "ters"] /\
  bw dUs defaultHopts "subdivision" = strs ["sub"; "di"; "vi"; "sion"] /\
  bw dUs defaultHopts "disciplines" = strs ["dis"; "ci"; "plines"] /\
  bw dUs defaultHopts "philanthropic" = strs ["phil"; "an"; "thropic"] /\
  bw dUs defaultHopts "example" = strs ["ex"; "am"; "ple"] /\
  bw dUs defaultHopts "king" = strs ["king"] /\
  bw dUs defaultHopts "daughter" = strs ["daugh"; "ter"] /\
  bw dUs defaultHopts "Example" = strs ["Ex"; "am"; "ple"] /\
  bw dUs defaultHopts "Honorificabilitudinitatibus" = strs ["Hon"; "ori"; "fi"; "ca"; "bil"; "itu"; "dini"; "tat"; "ibus"] /\
  bw dUs (mkHopts 6 6 2) "Honorificabilitudinitatibus" = strs ["Honori"; "ficabil"; "itudini"; "tatibus"] /\
  bw dUs (mkHopts 7 6 2) "example" = strs ["example"] /\
  bw dUs defaultHopts "HonorificabilitudinitatibusHonorificabilitudinitatibus" =
    strs ["Hon"; "ori"; "fi"; "ca"; "bil"; "itu"; "dini"; "tat"; "ibusHon";
          "ori"; "fi"; "ca"; "bil"; "itu"; "dini"; "tat"; "ibus"].
Proof. vm_compute. repeat split. Qed.
Example fr_test :
  breakWord latinLow (load French) defaultHopts (str_ "connectivité") = strs ["connec"; "ti"; "vi"; "té"] /\
  d_identifier (load French) = str_ "patterns: hyph-fr.tex".
Proof. vm_compute. repeat split. Qed.
Example de_test :
  breakWord latinLow (load German) defaultHopts (str_ "Ausnahme") = strs ["Aus"; "nah"; "me"] /\
  breakWord latinLow (load German) defaultHopts (str_ "Universitätsstadt") = strs ["Uni"; "ver"; "si"; "täts"; "stadt"] /\
  d_identifier (load German) =
    str_ "German Hyphenation Patterns (Reformed Orthography, 2006) `dehyphn-x' 2019-04-04 (WL)}".
Proof. vm_compute. repeat split. Qed.
Example es_test :
  breakWord latinLow (load Spanish) defaultHopts (str_ "translatores") = strs ["trans"; "la"; "to"; "res"].
Proof. vm_compute. reflexivity. Qed.
Example gb_test :
  breakWord latinLow (load BritishEnglish) defaultHopts (str_ "universities") = strs ["uni"; "ver"; "sit"; "ies"].
Proof. vm_compute. reflexivity. Qed.
