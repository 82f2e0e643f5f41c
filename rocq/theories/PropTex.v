(** C68, C69: the TeX files and the embedded files made from them. *)
From Verif Require Import Base Unicode Utf8 Text SpecTrie Trie Dict SpecHyph DictProofs FileProofs Hyph HyphProofs Shipped
  PatGb SrcGb SrcUs Cache Lang HyphTests ShippedProofs Strip SpecTex StripProofs TexProofs.
Local Open Scope text_scope.
Local Open Scope Z_scope.

(** C68 *)
Theorem C68_strip : forall lines : list (list rune),
  Forall2 (fun l out => trimmed (uncomment l) out /\ ~ In 37 out) (filter (fun l => negb (isStripped l)) lines) (stripLines lines) /\
  flat_map words (stripLines lines) = flat_map (fun l => words (uncomment l)) lines.
Proof. exact strip_spec. Qed.
Print Assumptions C68_strip.

Theorem C68_trimmed_once : forall x l1 l2 : list rune, trimmed x l1 -> trimmed x l2 -> l1 = l2.
Proof. exact trimmed_fun. Qed.
Print Assumptions C68_trimmed_once.

Example C68_ex : stripLines [str_ "% title"; str_ " .ab1c 2d %% x"; []; str_ "\patterns{%"; str_ "   "; str_ "e1f"] =
  [str_ ".ab1c 2d"; str_ "\patterns{"; []; str_ "e1f"].
Proof. vm_compute. reflexivity. Qed.

(** C69, patterns *)
Theorem C69_tex_patterns : forall (u : unicode) (l : lang), knows u ->
  exists src, In (langToPattern l, src) texSources /\ openFile (langToPattern l) = Some (stripFile src) /\
  exists ps : list pattern, map pText ps = texGroup patternsName (scanLines src) /\ zlen ps = patternCount l /\
    Forall (okPattern u) ps /\ NoDup (map pKey ps) /\
    (forall name k, get (d_patterns (loadFile u name (stripFile src))) k = lastRule k (map pRule ps)).
Proof. exact tex_patterns. Qed.
Print Assumptions C69_tex_patterns.

(** C69, exceptions. Full statement: for every language; false for British English. *)
Theorem C69_tex_exceptions_partial : forall (u : unicode) (l : lang), british l = false ->
  exists src, In (langToPattern l, src) texSources /\ openFile (langToPattern l) = Some (stripFile src) /\
  exists es : list (list rune * list (list rune)), map excText es = texGroup hyphenationName (scanLines src) /\
    Forall okExc es /\ NoDup (map eKey es) /\
    (forall name k, k <> [] -> get (d_exceptions (loadFile u name (stripFile src))) k = lastRule k (map eRule es)).
Proof. exact tex_exceptions. Qed.
Print Assumptions C69_tex_exceptions_partial.

Theorem C69_british_exception_refuted : exists (src : list byte) (w : list rune),
  In (langToPattern BritishEnglish, src) texSources /\ openFile (langToPattern BritishEnglish) = Some (stripFile src) /\
  w = str_ "some-thing" /\ last (texGroup hyphenationName (scanLines src)) [] = w /\
  get (d_exceptions (load BritishEnglish)) (str_ "something") = None /\
  get (d_exceptions (load BritishEnglish)) (str_ "something}") <> None.
Proof.
  exists gb_src_file, (str_ "some-thing"). split; [exact (lang_source BritishEnglish)|].
  split; [rewrite open_lang; f_equal; symmetry; apply bytes_sound; exact (proj1 (andb_prop _ _ src_gb))|].
  split; [reflexivity|]. split; [vm_compute; reflexivity|]. split; [vm_compute; reflexivity|vm_compute; discriminate].
Qed.
Print Assumptions C69_british_exception_refuted.

Example C69_ex : firstn 3 (texGroup patternsName (scanLines us_src_file)) = [str_ ".ach4"; str_ ".ad4der"; str_ ".af1t"] /\
  firstn 3 (texGroup hyphenationName (scanLines us_src_file)) = [str_ "as-so-ciate"; str_ "as-so-ciates"; str_ "dec-li-na-tion"] /\
  british AmericanEnglish = false.
Proof. vm_compute. repeat split. Qed.
