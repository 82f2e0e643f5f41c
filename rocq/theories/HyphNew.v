(** wordbreak/hyphenator: options.go, languages.go, hyphenator.New and SupportedPatterns. *)
From Coq Require Import Sorted Permutation.
From Verif Require Import Base Unicode Utf8 Text Trie Dict Hyph Cache Lang PatUs Nodes Options.
Local Open Scope Z_scope.

(** A [language.Tag] is its canonical text; two tags are [==] when their texts are equal. *)
Definition tag := list rune.
Definition tagText (t : text) : tag := textBytes t.
(** Models [supportedLanguages] (languages.go:8-18). *)
Definition supported : list (tag * lang) :=
  [(tagText "en-US"%text, AmericanEnglish); (tagText "en-GB"%text, BritishEnglish); (tagText "en"%text, English);
   (tagText "fr"%text, French); (tagText "fr-CA"%text, CanadianFrench); (tagText "de"%text, German);
   (tagText "es"%text, Spanish); (tagText "es-ES"%text, EuropeanSpanish); (tagText "es-419"%text, LatinAmericanSpanish)].
(** The switch of [langToPattern] (languages.go:26-39) compares tags. *)
Definition langOf (t : tag) : lang :=
  match find (fun e => if list_eq_dec Z.eq_dec (fst e) t then true else false) supported with
  | Some e => snd e
  | None => OtherLang
  end.
(** [langMatcher] (languages.go:20) is an object of golang.org/x/text: the tag that [Match] returns for one tag, and the
    one that [language.MatchStrings] returns for a text (options.go:38). *)
Record matcher := mkMatcher { matchTag : tag -> tag; matchText : list rune -> tag }.

(** Models [Option] and what the options do (options.go:25-70). *)
Inductive hoption :=
| WithLanguageTag (t : tag)
| WithLanguage (s : list rune)
| WithMinLength (k : Z)
| WithMinLeft (k : Z)
| WithMinRight (k : Z).
Definition applyHoption (mt : matcher) (o : tag * hoptions) (opt : hoption) : tag * hoptions :=
  let '(t, h) := o in
  match opt with
  | WithLanguageTag t' => (t', h)
  | WithLanguage s => (matchText mt s, h)
  | WithMinLength k => (t, mkHopts k (o_minLeft h) (o_minRight h))
  | WithMinLeft k => (t, mkHopts (o_minLength h) k (o_minRight h))
  | WithMinRight k => (t, mkHopts (o_minLength h) (o_minLeft h) k)
  end.
(** Models [defaultOptions] (options.go:72-85). *)
Definition hyphenatorOptions (mt : matcher) (opts : list hoption) : tag * hoptions :=
  fold_left (applyHoption mt) opts (tagText "en-US"%text, defaultHopts).

(** Models [Hyphenator] and [New] (hyphenator.go:17-32): the name of the file, the dictionary and the options. C35: the
    cache returns what [LoadPatterns] would, or nil. *)
Record hyphenator := mkHyphenator { h_file : fname; h_dict : option dictionary; h_opts : hoptions }.
Definition loadPatterns (u : unicode) (f : fname) : option dictionary :=
  match openFile f with Some bs => Some (loadFile u (defaultName f) bs) | None => None end.
Definition newHyphenator (u : unicode) (mt : matcher) (opts : list hoption) : hyphenator :=
  let '(t, o) := hyphenatorOptions mt opts in
  let f := langToPattern (langOf (matchTag mt t)) in
  mkHyphenator f (loadPatterns u f) o.
(** [BreakWord] (hyphenator.go:46-84) and [BreakWordString] (hyphenator.go:35-37). A nil dictionary is only used for words
    that are long enough and have no hyphen. *)
Definition hyphenate (u : unicode) (h : hyphenator) (w : list rune) : go (list (list rune)) :=
  match h_dict h with
  | Some d => breakWord u d (h_opts h) w
  | None => if containsHyphen w || (zlen w <? o_minLength (h_opts h)) then Ret [w] else Panic
  end.
Definition hyphenateString (u : unicode) (h : hyphenator) (s : list byte) : go (list (list rune)) := hyphenate u h (runesOf s).

(** The order of [sort.Strings]: byte by byte. *)
Fixpoint stringLe (a b : list Z) : bool :=
  match a, b with
  | [], _ => true
  | _ :: _, [] => false
  | x :: a', y :: b' => if x <? y then true else if x =? y then stringLe a' b' else false
  end.
Fixpoint insertString (a : list Z) (l : list (list Z)) : list (list Z) :=
  match l with [] => [a] | b :: l' => if stringLe a b then a :: l else b :: insertString a l' end.
Definition sortStrings (l : list (list Z)) : list (list Z) := fold_right insertString [] l.
(** Models [SupportedPatterns] (dictionary.go:44-61), for a directory given by its entries: name and whether it is itself a
    directory. *)
Definition supportedPatterns (entries : list (fname * bool)) : list fname :=
  sortStrings (map fst (filter (fun e => negb (snd e)) entries)).
(** [texFS.ReadDir(folder)]: the embedded files. *)
Definition texEntries : list (fname * bool) := map (fun e => (fst e, false)) texFS.

(** ** Proofs *)
Definition lastOf {A} (get : hoption -> option A) (dflt : A) (opts : list hoption) : A :=
  fold_left (fun a opt => match get opt with Some b => b | None => a end) opts dflt.
(** what the last option of a kind is *)
Lemma lastOf_spec {A} (get : hoption -> option A) dflt opts :
  (lastOf get dflt opts = dflt /\ Forall (fun o => get o = None) opts) \/
  exists pre o post, opts = pre ++ o :: post /\ get o = Some (lastOf get dflt opts) /\ Forall (fun o => get o = None) post.
Proof.
  unfold lastOf. revert dflt. induction opts as [|o opts IH] using rev_ind; intros dflt; [left; split; [reflexivity|constructor]|].
  rewrite fold_left_app. cbn [fold_left]. destruct (get o) as [b|] eqn:E.
  - right. exists opts, o, []. rewrite E. repeat split. constructor.
  - destruct (IH dflt) as [(H1 & H2)|(pre & o' & post & H1 & H2 & H3)].
    + left. split; [exact H1|]. apply Forall_app. split; [exact H2|]. now repeat constructor.
    + right. exists pre, o', (post ++ [o]). split; [rewrite H1, <- app_assoc; reflexivity|]. split; [rewrite H2; reflexivity|].
      apply Forall_app. split; [exact H3|]. now repeat constructor.
Qed.
Definition getLang (mt : matcher) (o : hoption) : option tag :=
  match o with WithLanguageTag t => Some t | WithLanguage s => Some (matchText mt s) | _ => None end.
Definition getMinLength (o : hoption) : option Z := match o with WithMinLength k => Some k | _ => None end.
Definition getMinLeft (o : hoption) : option Z := match o with WithMinLeft k => Some k | _ => None end.
Definition getMinRight (o : hoption) : option Z := match o with WithMinRight k => Some k | _ => None end.
Lemma options_last mt opts : hyphenatorOptions mt opts =
  (lastOf (getLang mt) (tagText "en-US"%text) opts,
   mkHopts (lastOf getMinLength 4 opts) (lastOf getMinLeft 2 opts) (lastOf getMinRight 2 opts)).
Proof.
  enough (forall t a b c, fold_left (applyHoption mt) opts (t, mkHopts a b c) =
    (lastOf (getLang mt) t opts, mkHopts (lastOf getMinLength a opts) (lastOf getMinLeft b opts) (lastOf getMinRight c opts))) as H by apply H.
  unfold lastOf. induction opts as [|o opts IH]; intros t a b c; [reflexivity|].
  destruct o; cbn [fold_left applyHoption o_minLength o_minLeft o_minRight getLang getMinLength getMinLeft getMinRight]; apply IH.
Qed.

Lemma stringLe_total a : forall b, stringLe a b = true \/ stringLe b a = true.
Proof.
  induction a as [|x a IH]; intros b; [now left|]. destruct b as [|y b]; [now right|]. cbn [stringLe].
  destruct (Z.ltb_spec x y); [now left|]. destruct (Z.eqb_spec x y) as [->|N].
  - destruct (IH b) as [->| ->]; [now left|]. right. now rewrite Z.ltb_irrefl, Z.eqb_refl.
  - right. destruct (Z.ltb_spec y x); [reflexivity|lia].
Qed.
Lemma stringLe_trans a : forall b c, stringLe a b = true -> stringLe b c = true -> stringLe a c = true.
Proof.
  induction a as [|x a IH]; intros b c H1 H2; [reflexivity|]. destruct b as [|y b]; [discriminate|]. destruct c as [|z c]; [discriminate|].
  cbn [stringLe] in *. destruct (Z.ltb_spec x y), (Z.ltb_spec y z), (Z.ltb_spec x z), (Z.eqb_spec x y), (Z.eqb_spec y z), (Z.eqb_spec x z);
    try reflexivity; try discriminate; try lia. eauto.
Qed.
Lemma insert_perm a l : Permutation (insertString a l) (a :: l).
Proof.
  induction l as [|b l IH]; [reflexivity|]. cbn [insertString]. destruct (stringLe a b); [reflexivity|]. rewrite IH. apply perm_swap.
Qed.
Lemma insert_sorted a l : StronglySorted (fun x y => stringLe x y = true) l -> StronglySorted (fun x y => stringLe x y = true) (insertString a l).
Proof.
  induction 1 as [|b l Hs IH Hf]; [repeat constructor|]. cbn [insertString]. destruct (stringLe a b) eqn:E.
  - constructor; [now constructor|]. constructor; [exact E|]. eapply Forall_impl; [|exact Hf]. intros c Hc. now apply (stringLe_trans a b).
  - constructor; [exact IH|]. rewrite Forall_forall in *. intros c Hc. apply (Permutation_in _ (insert_perm a l)) in Hc. destruct Hc as [->|Hc]; [|now apply Hf].
    destruct (stringLe_total c b); [congruence|assumption].
Qed.
Theorem supportedPatterns_spec entries :
  StronglySorted (fun x y => stringLe x y = true) (supportedPatterns entries) /\
  Permutation (supportedPatterns entries) (map fst (filter (fun e => negb (snd e)) entries)).
Proof.
  unfold supportedPatterns, sortStrings. induction (map fst (filter (fun e => negb (snd e)) entries)) as [|a l [IH1 IH2]]; [split; constructor|].
  cbn [fold_right]. split; [now apply insert_sorted|]. rewrite insert_perm. now constructor.
Qed.
(** the files that LoadPatterns opens are the ones listed *)
Lemma openFile_in f : (exists bs, openFile f = Some bs) <-> In f (map fst texFS).
Proof.
  unfold openFile. generalize texFS. intros l. split.
  - intros (bs & E). match type of E with context [find ?p ?l] => destruct (find p l) as [e|] eqn:F end; [|discriminate].
    apply find_some in F. destruct F as [F1 F2]. destruct (list_eq_dec Z.eq_dec (fst e) f) as [<-|]; [|discriminate]. now apply in_map.
  - intros H. apply in_map_iff in H. destruct H as (e & <- & He). match goal with |- context [find ?p ?l] => destruct (find p l) as [e'|] eqn:F end; [eauto|].
    apply (find_none _ _ F) in He. cbv beta in He. match type of He with context [if ?d then _ else _] => destruct d as [|N]; [discriminate He|now destruct N] end.
Qed.
Theorem supported_loads u f : (exists d, loadPatterns u f = Some d) <-> In f (supportedPatterns texEntries).
Proof.
  destruct (supportedPatterns_spec texEntries) as [_ H]. transitivity (In f (map fst texFS)).
  - rewrite <- openFile_in. unfold loadPatterns. split.
    + intros (d & E). destruct (openFile f) as [bs|]; [eauto|discriminate].
    + intros (bs & ->). eauto.
  - assert (map fst (filter (fun e : fname * bool => negb (snd e)) texEntries) = map fst texFS) as E.
    { unfold texEntries. generalize texFS. intros l. induction l as [|e l IH]; [reflexivity|]. cbn. now rewrite IH. }
    rewrite E in H. split; intros Hi; [apply Permutation_sym in H|]; eapply Permutation_in; eauto.
Qed.

(** ** Languages *)
(** The patterns for a language, by its primary subtag: what a user expects. *)
Definition primary (t : tag) : list rune :=
  (fix go (l : list Z) : list Z := match l with [] => [] | c :: l' => if c =? 45 then [] else c :: go l' end) t.
Definition expectedFile (t : tag) : fname :=
  let p := primary t in
  if list_eq_dec Z.eq_dec p (tagText "fr"%text) then frName
  else if list_eq_dec Z.eq_dec p (tagText "de"%text) then deName
  else if list_eq_dec Z.eq_dec p (tagText "es"%text) then esName
  else if list_eq_dec Z.eq_dec t (tagText "en-GB"%text) then gbName
  else if list_eq_dec Z.eq_dec t (tagText "en"%text) then gbName
  else usName.
Lemma supported_expected : Forall (fun e => langToPattern (langOf (fst e)) = expectedFile (fst e)) supported.
Proof. repeat constructor. Qed.
Lemma open_total l : exists bs, openFile (langToPattern l) = Some bs.
Proof. apply openFile_in. unfold texFS. destruct l; cbn [langToPattern map fst In]; tauto. Qed.
Theorem new_language u mt opts t : lastOf (getLang mt) (tagText "en-US"%text) opts = t -> In (matchTag mt t) (map fst supported) ->
  exists bs, openFile (expectedFile (matchTag mt t)) = Some bs /\
    newHyphenator u mt opts = mkHyphenator (expectedFile (matchTag mt t)) (Some (loadFile u (defaultName (expectedFile (matchTag mt t))) bs))
      (mkHopts (lastOf getMinLength 4 opts) (lastOf getMinLeft 2 opts) (lastOf getMinRight 2 opts)).
Proof.
  intros <- Hi. unfold newHyphenator. rewrite options_last. revert Hi. generalize (matchTag mt (lastOf (getLang mt) (tagText "en-US"%text) opts)). intros t Hi.
  assert (langToPattern (langOf t) = expectedFile t) as H.
  { apply in_map_iff in Hi. destruct Hi as (e & <- & Hi). exact (proj1 (Forall_forall _ _) supported_expected e Hi). }
  destruct (open_total (langOf t)) as (bs & E). rewrite H in E. exists bs. split; [exact E|]. unfold loadPatterns. now rewrite H, E.
Qed.
(** in any case there is a dictionary, and a tag that is not a supported one gets the American patterns *)
Theorem new_total u mt opts : exists bs d,
  let t := matchTag mt (lastOf (getLang mt) (tagText "en-US"%text) opts) in
  openFile (h_file (newHyphenator u mt opts)) = Some bs /\ d = loadFile u (defaultName (h_file (newHyphenator u mt opts))) bs /\
  h_dict (newHyphenator u mt opts) = Some d /\
  (forall w, hyphenate u (newHyphenator u mt opts) w = breakWord u d (h_opts (newHyphenator u mt opts)) w) /\
  (~ In t (map fst supported) -> h_file (newHyphenator u mt opts) = usName).
Proof.
  unfold newHyphenator. rewrite options_last. unfold hyphenate, loadPatterns. cbn [h_file h_dict h_opts].
  set (t := matchTag mt _).
  destruct (open_total (langOf t)) as (bs & E).
  exists bs, (loadFile u (defaultName (langToPattern (langOf t))) bs). rewrite E. cbv zeta. repeat split.
  intros Hn. unfold langOf. match goal with |- context [find ?p ?l] => destruct (find p l) as [e|] eqn:F end; [|reflexivity].
  apply find_some in F. destruct F as [F1 F2]. destruct (list_eq_dec Z.eq_dec (fst e) t) as [<-|]; [|discriminate]. destruct Hn. now apply in_map.
Qed.
(** The hyphenator that a line breaker uses by default (linebreaker.go:57-60) *)
Theorem new_default u mt : matchTag mt (tagText "en-US"%text) = tagText "en-US"%text ->
  forall w, hyphenate u (newHyphenator u mt [WithMinLength 4]) w = defaultHyphenator u w.
Proof.
  intros H w. destruct (new_language u mt [WithMinLength 4] _ eq_refl) as (bs & E1 & E2).
  - change (In (matchTag mt (tagText "en-US"%text)) (map fst supported)). rewrite H. now left.
  - change (lastOf (getLang mt) (tagText "en-US"%text) [WithMinLength 4]) with (tagText "en-US"%text) in *. rewrite H in E1, E2.
    change (expectedFile (tagText "en-US"%text)) with usName in *. rewrite E2. unfold hyphenate, defaultHyphenator. cbn [h_dict h_opts].
    assert (openFile usName = Some us_file) as E by reflexivity. rewrite E in E1. injection E1 as <-. reflexivity.
Qed.
