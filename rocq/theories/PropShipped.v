(** C41 and C43 on the embedded pattern files, C60, C61. [knows u]: the accented letters of the files are lower case, and
    339 is not a digit; anything else about Unicode is free. *)
From Verif Require Import Base Unicode Utf8 Text SpecTrie Trie Dict SpecHyph DictProofs FileProofs Hyph HyphProofs Shipped
  PatGb Cache Lang HyphTests ShippedProofs.
Local Open Scope text_scope.
Local Open Scope Z_scope.

Example knows_ex : knows latinLow.
Proof. split; [reflexivity|]. repeat constructor. Qed.

(** C43, patterns; C60: the file of every language is embedded, and loads [patternCount] patterns with distinct keys. *)
Theorem C43_shipped_patterns : forall (u : unicode) (l : lang), knows u ->
  exists bs, openFile (langToPattern l) = Some bs /\
  exists ps : list pattern, zlen ps = patternCount l /\ Forall (okPattern u) ps /\
    Forall (fun p => Forall (fun i => toLower u (snd i) = snd i) (fst p)) ps /\
    NoDup (map pKey ps) /\
    (forall name k, get (d_patterns (loadFile u name bs)) k = lastRule k (map pRule ps)).
Proof. exact lang_patterns. Qed.
Print Assumptions C43_shipped_patterns.

(** C43, exceptions. Full statement: for every language; false for British English. *)
Theorem C43_shipped_exceptions_partial : forall (u : unicode) (l : lang), british l = false ->
  exists bs, openFile (langToPattern l) = Some bs /\
  exists es : list (list rune * list (list rune)), Forall okExc es /\ NoDup (map eKey es) /\
    (forall name k, k <> [] -> get (d_exceptions (loadFile u name bs)) k = lastRule k (map eRule es)).
Proof. exact lang_exceptions. Qed.
Print Assumptions C43_shipped_exceptions_partial.

(* the last line of the British file is "some-thing}": the closing brace goes into the word *)
Theorem C43_british_exception_refuted : exists line : str,
  last (exceptionRules (scanLines gb_file)) [] = line /\ line = str_ "some-thing}" /\
  readException latinLow line = (str_ "something}", mask (str_ "some") [str_ "thing}"]) /\
  breakWord latinLow (load BritishEnglish) defaultHopts (str_ "something") = strs ["something"].
Proof. exists (str_ "some-thing}"). vm_compute. repeat split. Qed.
Print Assumptions C43_british_exception_refuted.

(** C60 *)
Theorem C60_every_language_has_a_file : forall l : lang, exists bs,
  openFile (langToPattern l) = Some bs /\ In (langToPattern l, bs) texFS.
Proof. exact lang_embedded. Qed.
Print Assumptions C60_every_language_has_a_file.

(** C61: with the embedded files and default options, for words of 4 to 29 letters *)
Theorem C61_shipped_liang : forall (u : unicode) (l : lang), knows u ->
  exists bs (ps : list pattern), openFile (langToPattern l) = Some bs /\
  map pText ps = patternRules (scanLines bs) /\
  forall name w, Forall (fun r => isHyphenRune r = false) w -> 4 <= zlen w <= 29 ->
    isException (loadFile u name bs) w = None ->
    exists allowed : nat -> bool,
      (forall i, (0 < i)%nat -> 2 <= zlen w - Z.of_nat i ->
         exists m, greatest (fun k => lastRule k (map pRule ps)) (dotted (map (toLower u) w)) (S i) m /\ allowed i = Z.odd m) /\
      breakWord u (loadFile u name bs) defaultHopts w = Ret (cutAt w 0 (keep allowed 2 2 (length w))).
Proof. exact lang_liang. Qed.
Print Assumptions C61_shipped_liang.

Example C61_ex : bw dUs defaultHopts "subdivision" = strs ["sub"; "di"; "vi"; "sion"] /\
  isException dUs (str_ "subdivision") = None.
Proof. vm_compute. split; reflexivity. Qed.

(** C41: the exceptions of the American file are looked up with the case of the word *)
Theorem C41_case_refuted : exists (u : unicode) (d : dictionary) (o : hoptions) (w1 w2 : list rune) (p1 p2 : list (list rune)),
  map (toLower u) w1 = map (toLower u) w2 /\ breakWord u d o w1 = Ret p1 /\ breakWord u d o w2 = Ret p2 /\
  map (@length rune) p1 <> map (@length rune) p2.
Proof.
  exists latinLow, dUs, defaultHopts, (str_ "table"), (str_ "Table"), [str_ "ta"; str_ "ble"], [str_ "Table"].
  split; [vm_compute; reflexivity|]. split; [vm_compute; reflexivity|]. split; [vm_compute; reflexivity|discriminate].
Qed.
Print Assumptions C41_case_refuted.
