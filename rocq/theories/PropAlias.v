(** C97: the parts of a word, as slices *)
From Coq Require Import String.
From Verif Require Import Base Unicode Split Trie Dict Hyph Text Alias PropHyph PropAlign.
Open Scope Z_scope.

(** C97, for every word: once [parts] is returned by FieldsFunc, by the BreakWord of the tokenizer, the punctuator or the
    hyphenator, or by SplitWord, changing a part, or appending to it, changes no other part. [independentParts] (Alias.v):
    the parts [h] have the contents [g] given by the model, and setting an element of a part changes no other part;
    [appendTo arr p xs]: the array after append(p, xs...) *)
Definition appendable (h : go (list part)) (arr : list rune) : Prop := forall ps i j p q xs, h = Ret ps -> i <> j ->
  nth_error ps i = Some p -> nth_error ps j = Some q -> content (appendTo arr p xs) q = content arr q.
Definition C97_independent : Prop := forall u d o f pre word post, let arr := pre ++ word ++ post in let off := zlen pre in
  (independentParts (fieldsFunc word f) (fieldsParts off f word) arr /\ appendable (fieldsParts off f word) arr) /\
  (independentParts (punctuatorBreakWord u word) (breakAtParts off (punctSplitFunc u) word) arr /\
    appendable (breakAtParts off (punctSplitFunc u) word) arr) /\
  (independentParts (splitWord word) (breakAtParts off isHyphenRune word) arr /\ appendable (breakAtParts off isHyphenRune word) arr) /\
  (independentParts (breakWord u d o word) (breakWordParts off u d o word) arr /\ appendable (breakWordParts off u d o word) arr).
(** A part keeps the capacity of the word: appending "xy" to the "ab-" of "ab- cd" turns the other token into "yd" *)
Theorem C97_independent_refuted : exists word, ~ appendable (fieldsParts 0 isSpace word) word /\ ~ appendable (breakAtParts 0 isHyphenRune word) word.
Proof.
  exists (txt "ab- cd"). split; intros H.
  - specialize (H _ 0%nat 1%nat _ _ (txt "xy") eq_refl ltac:(discriminate) eq_refl eq_refl). vm_compute in H. discriminate.
  - specialize (H _ 0%nat 2%nat _ _ (txt "xy") eq_refl ltac:(discriminate) eq_refl eq_refl). vm_compute in H. discriminate.
Qed.
Print Assumptions C97_independent_refuted.
(** What holds: setting elements of a part changes no other part *)
Theorem C97_independent_partial : forall u d o f pre word post, let arr := pre ++ word ++ post in let off := zlen pre in
  independentParts (fieldsFunc word f) (fieldsParts off f word) arr /\
  independentParts (tokenizerBreakWord word) (fieldsParts off isSpace word) arr /\
  independentParts (punctuatorBreakWord u word) (breakAtParts off (punctSplitFunc u) word) arr /\
  independentParts (splitWord word) (breakAtParts off isHyphenRune word) arr /\
  independentParts (breakWord u d o word) (breakWordParts off u d o word) arr.
Proof. exact independent_elements. Qed.
Print Assumptions C97_independent_partial.
(** and appending a rune to any part of a hyphenated word, but the last, always overwrites the first rune of the next part *)
Theorem C97_append_overwrites : forall u d o pre word post ps i p q x y t, breakWordParts (zlen pre) u d o word = Ret ps ->
  nth_error ps i = Some p -> nth_error ps (S i) = Some q -> content (pre ++ word ++ post) q = y :: t ->
  content (appendTo (pre ++ word ++ post) p [x]) q = x :: t.
Proof. exact append_overwrites. Qed.
Print Assumptions C97_append_overwrites.
(** "xabycd" is hyphenated "xa-bycd" by the dictionary of the examples of PropHyph.v *)
Example C97_ex : let word := [120; 97; 98; 121; 99; 100] in let d := loadFile ascii [] exBytes in
  breakWordParts 2 ascii d defaultHopts word = Ret [Shared 2 4; Shared 4 8] /\
  map (content (txt "__" ++ word ++ txt "__")) [Shared 2 4; Shared 4 8] = [txt "xa"; txt "bycd"] /\
  content (appendTo (txt "__" ++ word ++ txt "__") (Shared 2 4) (txt "-")) (Shared 4 8) = txt "-ycd".
Proof. repeat split; vm_compute; reflexivity. Qed.
Example C97_ex_split : breakAtParts 0 isHyphenRune (txt "often-times") = Ret [Shared 0 5; Fresh 45; Shared 6 11].
Proof. vm_compute. reflexivity. Qed.
