(** terminal/runes/fields.go, wordbreak/tokenizer, wordbreak/punctuator and hyphenator.SplitWord. *)
From Verif Require Import Base Unicode.

(** Models the loop of [FieldsFunc] (terminal/runes/fields.go:8-26). [inp] is the whole input, [rest] what
    [range] has not visited yet, [e] the index of its first rune; [start] is negative when no token is open
    ([start = ^start] at line 12 is [Z.lnot]). *)
Fixpoint fields_loop (f : rune -> bool) (inp rest : list rune) (e start : Z)
  (tokens : list (list rune)) : go (list (list rune)) :=
  match rest with
  | [] => if 0 <=? start
          then let! t := slice inp start (zlen inp) in Ret (tokens ++ [t])
          else Ret tokens
  | r :: rest' =>
      if f r
      then if 0 <=? start
           then let! t := slice inp start e in
                fields_loop f inp rest' (e + 1) (Z.lnot start) (tokens ++ [t])
           else fields_loop f inp rest' (e + 1) start tokens
      else fields_loop f inp rest' (e + 1) (if start <? 0 then e else start) tokens
  end.

(** Models [FieldsFunc] (terminal/runes/fields.go:4-29). The final three-index slice only trims capacity. *)
Definition fieldsFunc (inp : list rune) (f : rune -> bool) : go (list (list rune)) :=
  fields_loop f inp inp 0 (-1) [].

(** Models [Tokenizer.BreakWord] (wordbreak/tokenizer/tokenizer.go:23-25). *)
Definition tokenizerBreakWord (w : list rune) : go (list (list rune)) := fieldsFunc w isSpace.

(** Models the loop shared, line for line, by [breakAtFunc] (wordbreak/punctuator/punctuator.go:49-63) and
    [SplitWord] (wordbreak/hyphenator/hyphenator.go:216-230). *)
Fixpoint break_loop (isBreak : rune -> bool) (word rest : list rune) (i previous : Z)
  (result : list (list rune)) : go (list (list rune)) :=
  match rest with
  | [] => if previous <? zlen word
          then let! t := slice word previous (zlen word) in Ret (result ++ [t])
          else Ret result
  | r :: rest' =>
      if isBreak r
      then
        let! result1 :=
          (if (0 <? i) && (previous <? zlen word) && (previous <? i)
           then let! t := slice word previous i in Ret (result ++ [t])
           else Ret result) in
        break_loop isBreak word rest' (i + 1) (i + 1) (result1 ++ [[r]])
      else break_loop isBreak word rest' (i + 1) previous result
  end.

(** Models [breakAtFunc] (wordbreak/punctuator/punctuator.go:45-64). *)
Definition breakAtFunc (word : list rune) (isBreak : rune -> bool) : go (list (list rune)) :=
  break_loop isBreak word word 0 0 [].

(** Models [punctSplitFunc] (wordbreak/punctuator/punctuator.go:40-42); 124 is the pipe. *)
Definition punctSplitFunc (u : unicode) (r : rune) : bool :=
  (r =? 124) || (isPunct u r && negb (isHyphenRune r)).

(** Models [Punctuator.BreakWord] (wordbreak/punctuator/punctuator.go:36-38). *)
Definition punctuatorBreakWord (u : unicode) (w : list rune) : go (list (list rune)) :=
  breakAtFunc w (punctSplitFunc u).

(** Models [IsPunctuation] (wordbreak/punctuator/punctuator.go:66-72). *)
Definition isPunctuation (u : unicode) (w : list rune) : bool :=
  match w with [r] => punctSplitFunc u r | _ => false end.

(** Models [SplitWord] (wordbreak/hyphenator/hyphenator.go:212-231). *)
Definition splitWord (w : list rune) : go (list (list rune)) :=
  break_loop isHyphenRune w w 0 0 [].

(** Models [IsHyphen] (wordbreak/hyphenator/hyphenator.go:196-202). *)
Definition isHyphen (w : list rune) : bool :=
  match w with [r] => isHyphenRune r | _ => false end.
