(** C92-C94: hyphenator.New, its options and languages, SupportedPatterns. [matcher]: what golang.org/x/text answers. *)
From Coq Require Import Sorted Permutation.
From Verif Require Import Base Unicode Utf8 Text Trie Dict Hyph HyphProofs Cache Lang HyphTests Options HyphNew.
Local Open Scope text_scope.
Local Open Scope Z_scope.

(** C92, for every matcher that keeps the language: a tag of a supported language gets the patterns of this language *)
Definition inFrDeEs (t : tag) : Prop := In (primary t) (map tagText ["fr"; "de"; "es"]).
Definition C92_language : Prop := forall u mt t,
  (forall t', inFrDeEs t' -> primary (matchTag mt t') = primary t') -> inFrDeEs t ->
  h_file (newHyphenator u mt [WithLanguageTag t]) = expectedFile t.
(** A matcher may keep the region in the tag that it returns, as that of golang.org/x/text does for French in France: the
    tag differs from [language.French], and the word is cut with American patterns *)
Definition keepsRegion : matcher :=
  mkMatcher (fun t => if list_eq_dec Z.eq_dec t (tagText "fr-FR") then tagText "fr-u-rg-frzzzz" else t)
            (fun s => if list_eq_dec Z.eq_dec s (tagText "fr-FR") then tagText "fr-u-rg-frzzzz" else s).
Lemma keepsRegion_ok t : inFrDeEs t -> primary (matchTag keepsRegion t) = primary t.
Proof. intros _. cbn [matchTag keepsRegion]. destruct (list_eq_dec Z.eq_dec t (tagText "fr-FR")) as [->|]; reflexivity. Qed.
Theorem C92_language_refuted : exists mt t w,
  (forall t', inFrDeEs t' -> primary (matchTag mt t') = primary t') /\ inFrDeEs t /\
  h_file (newHyphenator latinLow mt [WithLanguageTag t]) = usName /\ expectedFile t = frName /\
  hyphenate latinLow (newHyphenator latinLow mt [WithLanguageTag t]) (str_ w) = strs ["con"; "nec"; "tiv"; "ité"] /\
  hyphenate latinLow (newHyphenator latinLow mt [WithLanguageTag (tagText "fr")]) (str_ w) = strs ["connec"; "ti"; "vi"; "té"].
Proof.
  exists keepsRegion, (tagText "fr-FR"), "connectivité". split; [exact keepsRegion_ok|]. split; [now left|].
  split; [vm_compute; reflexivity|]. split; [vm_compute; reflexivity|]. split; vm_compute; reflexivity.
Qed.
Print Assumptions C92_language_refuted.
(** What holds: when the matcher returns one of the supported tags itself, the patterns are those of its language *)
Theorem C92_language_partial : forall u mt opts t,
  lastOf (getLang mt) (tagText "en-US") opts = t -> In (matchTag mt t) (map fst supported) ->
  exists bs, openFile (expectedFile (matchTag mt t)) = Some bs /\
    newHyphenator u mt opts = mkHyphenator (expectedFile (matchTag mt t)) (Some (loadFile u (defaultName (expectedFile (matchTag mt t))) bs))
      (mkHopts (lastOf getMinLength 4 opts) (lastOf getMinLeft 2 opts) (lastOf getMinRight 2 opts)).
Proof. exact new_language. Qed.
Print Assumptions C92_language_partial.
(** and in any case New returns a hyphenator with a dictionary; it is the American one when the tag is not a supported one *)
Theorem C92_always_usable : forall u mt opts, exists bs d,
  let t := matchTag mt (lastOf (getLang mt) (tagText "en-US") opts) in
  openFile (h_file (newHyphenator u mt opts)) = Some bs /\ d = loadFile u (defaultName (h_file (newHyphenator u mt opts))) bs /\
  h_dict (newHyphenator u mt opts) = Some d /\
  (forall w, hyphenate u (newHyphenator u mt opts) w = breakWord u d (h_opts (newHyphenator u mt opts)) w) /\
  (~ In t (map fst supported) -> h_file (newHyphenator u mt opts) = usName).
Proof. exact new_total. Qed.
Print Assumptions C92_always_usable.
(** a line breaker without WithHyphenator uses the American patterns, when the matcher returns American English for itself *)
Theorem C92_default_hyphenator : forall u mt, matchTag mt (tagText "en-US") = tagText "en-US" ->
  forall w, hyphenate u (newHyphenator u mt [WithMinLength 4]) w = defaultHyphenator u w.
Proof. exact new_default. Qed.
Print Assumptions C92_default_hyphenator.
Example C92_ex : let opts := [WithMinLeft 3; WithLanguage (tagText "fr"); WithMinLeft 2] in
  lastOf (getLang keepsRegion) (tagText "en-US") opts = tagText "fr" /\ In (matchTag keepsRegion (tagText "fr")) (map fst supported) /\
  h_opts (newHyphenator latinLow keepsRegion opts) = defaultHopts /\ h_file (newHyphenator latinLow keepsRegion opts) = frName.
Proof. cbv zeta. split; [reflexivity|]. split; [do 3 right; now left|]. split; vm_compute; reflexivity. Qed.

(** C93: for each of the settings the last option that gives it wins, the other settings being left alone *)
Theorem C93_last_option_wins : forall mt opts,
  hyphenatorOptions mt opts =
    (lastOf (getLang mt) (tagText "en-US") opts,
     mkHopts (lastOf getMinLength 4 opts) (lastOf getMinLeft 2 opts) (lastOf getMinRight 2 opts)).
Proof. exact options_last. Qed.
Print Assumptions C93_last_option_wins.
Theorem C93_last_option : forall (A : Type) (get : hoption -> option A) dflt opts,
  (lastOf get dflt opts = dflt /\ Forall (fun o => get o = None) opts) \/
  exists pre o post, opts = pre ++ o :: post /\ get o = Some (lastOf get dflt opts) /\ Forall (fun o => get o = None) post.
Proof. exact @lastOf_spec. Qed.
Print Assumptions C93_last_option.
Example C93_ex : hyphenatorOptions keepsRegion [WithMinLength 6; WithMinRight 3; WithMinLength 7; WithLanguageTag (tagText "de")] =
  (tagText "de", mkHopts 7 2 3).
Proof. reflexivity. Qed.

(** C94: the names are sorted, they are the files of the directory, and LoadPatterns opens these files only *)
Theorem C94_sorted : forall entries,
  StronglySorted (fun x y => stringLe x y = true) (supportedPatterns entries) /\
  Permutation (supportedPatterns entries) (map fst (filter (fun e => negb (snd e)) entries)).
Proof. exact supportedPatterns_spec. Qed.
Print Assumptions C94_sorted.
Theorem C94_loads : forall u f, (exists d, loadPatterns u f = Some d) <-> In f (supportedPatterns texEntries).
Proof. exact supported_loads. Qed.
Print Assumptions C94_loads.
Example C94_ex : supportedPatterns texEntries =
  map textBytes ["hyph-de-1996.tex"; "hyph-en-gb.tex"; "hyph-es.tex"; "hyph-fr.tex"; "ushyphmax.tex"].
Proof. vm_compute. reflexivity. Qed.
