(** wordbreak/hyphenator/hyphenator.go and options.go. *)
From Verif Require Import Base Unicode Trie Dict.

(** Models [options] and [defaultOptions] (options.go:11-16, 72-85); the language is resolved by golang.org/x/text. *)
Record hoptions := mkHopts { o_minLength : Z; o_minLeft : Z; o_minRight : Z }.
Definition defaultHopts : hoptions := mkHopts 4 2 2.

(** Go indexing and element assignment. *)
Definition indexAt {A} (l : list A) (i : nat) : go A := match nth_error l i with Some x => Ret x | None => Panic end.
Fixpoint setAt {A} (l : list A) (i : nat) (x : A) : go (list A) :=
  match l, i with
  | [], _ => Panic
  | _ :: l', O => Ret (x :: l')
  | y :: l', S i' => let! l'' := setAt l' i' x in Ret (y :: l'')
  end.

(** Models [containsHyphen] (hyphenator.go:186-194). *)
Definition containsHyphen (w : list rune) : bool := existsb isHyphenRune w.

(** Models [isException] (hyphenator.go:86-93). *)
Definition isException (d : dictionary) (w : list rune) : option (list Z) := get (d_exceptions d) w.

(** The loop of [isPattern] (hyphenator.go:111-130) over the runes left; the last step appends the final dot. *)
Fixpoint pattern_loop (u : unicode) (d : dictionary) (rest : list rune) (fragment : list rune) : list (list Z) :=
  match rest with
  | [] => match get (d_patterns d) (fragment ++ [46]) with Some p => [p] | None => [] end
  | r :: rest' =>
      let fragment' := fragment ++ [toLower u r] in
      match get (d_patterns d) fragment' with
      | None => pattern_loop u d rest' fragment'
      | Some p => p :: pattern_loop u d rest' fragment'
      end
  end.
(** Models [isPattern] (hyphenator.go:95-131). The buffers passed in only save allocations: capacity wordLength+2 is never
    exceeded by the fragment, and the result is consumed before it is reused. *)
Definition isPattern (u : unicode) (d : dictionary) (index : nat) (word : list rune) : list (list Z) :=
  match index with
  | O => pattern_loop u d word [46]
  | S start => pattern_loop u d (skipn start word) []
  end.

(** Models [mergeBreakPoints] (hyphenator.go:144-161). *)
Fixpoint merge_one (positions : list Z) (partial : list Z) (at_ : nat) : go (list Z) :=
  match partial with
  | [] => Ret positions
  | num :: partial' =>
      let positions1 := positions ++ repeat 0 (S at_ - length positions) in
      let! p := indexAt positions1 at_ in
      let! positions2 := (if p <? num then setAt positions1 at_ num else Ret positions1) in
      merge_one positions2 partial' (S at_)
  end.
Fixpoint mergeBreakPoints (positions : list Z) (partials : list (list Z)) (at_ : nat) : go (list Z) :=
  match partials with
  | [] => Ret positions
  | p :: ps => let! positions' := merge_one positions p at_ in mergeBreakPoints positions' ps at_
  end.

(** The main loop of [BreakWord] (hyphenator.go:65-70), [n] iterations left from index [i]. *)
Fixpoint positions_loop (u : unicode) (d : dictionary) (word : list rune) (n i : nat) (positions : list Z) : go (list Z) :=
  match n with
  | O => Ret positions
  | S n' =>
      let all := isPattern u d i word in
      let! positions' := (match all with [] => Ret positions | _ => mergeBreakPoints positions all i end) in
      positions_loop u d word n' (S i) positions'
  end.

(** Models the loop of [splitAtPositions] (hyphenator.go:164-184). *)
Fixpoint split_loop (o : hoptions) (word : list rune) (length : Z) (positions : list Z) (i previous : Z)
  (parts : list (list rune)) : go (list (list rune)) :=
  match positions with
  | [] => let! t := slice word previous (zlen word) in Ret (parts ++ [t])
  | pos :: positions' =>
      if (pos =? 0) || (Z.rem pos 2 =? 0) then split_loop o word length positions' (i + 1) previous parts
      else if (i - previous <? o_minLeft o) || (length - i <? o_minRight o)
      then split_loop o word length positions' (i + 1) previous parts
      else let! t := slice word previous i in split_loop o word length positions' (i + 1) i (parts ++ [t])
  end.
Definition splitAtPositions (o : hoptions) (word : list rune) (length : Z) (positions : list Z) : go (list (list rune)) :=
  split_loop o word length positions 0 0 [].

(** Models [Hyphenator.BreakWord] (hyphenator.go:46-84). *)
Definition breakWord (u : unicode) (d : dictionary) (o : hoptions) (word : list rune) : go (list (list rune)) :=
  let wordLength := zlen word in
  if containsHyphen word || (wordLength <? o_minLength o) then Ret [word]
  else match isException d word with
  | Some breakPoints => splitAtPositions o word wordLength breakPoints
  | None =>
      let! p1 := positions_loop u d word (length word) 0 (repeat 0 30) in
      let! p2 := slice p1 1 (zlen p1 - 1) in
      let! p0 := indexAt p2 0 in
      let! p3 :=
        (if 0 <? p0 then setAt p2 0 0
         else if wordLength <? zlen p2
              then let! pw := indexAt p2 (length word) in
                   if 0 <? pw then setAt p2 (length word) 0 else Ret p2
              else Ret p2) in
      splitAtPositions o word wordLength p3
  end.
