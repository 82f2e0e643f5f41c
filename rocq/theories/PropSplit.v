(** C01-C05: cutting text into tokens and parts. *)
From Verif Require Import Base Unicode Split SpecSplit SplitProofs.

(** C01 *)
Theorem C01_fieldsfunc_maximal_runs : forall (inp : list rune) (f : rune -> bool),
  exists ts, fieldsFunc inp f = Ret ts /\ fields f inp ts /\
             (forall ts', fields f inp ts' -> ts' = ts).
Proof. exact fieldsFunc_full. Qed.
Print Assumptions C01_fieldsfunc_maximal_runs.

(* ",ab,,c" *)
Example C01_ex : fieldsFunc [44;97;98;44;44;99] (Z.eqb 44) = Ret [[97;98];[99]].
Proof. reflexivity. Qed.

(** C02 *)
Theorem C02_tokenizer_keeps_text : forall w : list rune,
  exists ts, tokenizerBreakWord w = Ret ts /\
    Forall (fun t => t <> [] /\ Forall (fun r => isSpace r = false) t) ts /\
    concat ts = filter (fun r => negb (isSpace r)) w.
Proof. exact tokenizer_keeps. Qed.
Print Assumptions C02_tokenizer_keeps_text.

Theorem C02_tokenizer_splits_joined_words : forall (blank : rune) (ws : list (list rune)),
  isSpace blank = true ->
  Forall (fun t => t <> [] /\ Forall (fun r => isSpace r = false) t) ws ->
  tokenizerBreakWord (joinWith blank ws) = Ret ws.
Proof. exact tokenizer_join. Qed.
Print Assumptions C02_tokenizer_splits_joined_words.

Example C02_ex_hyp : isSpace 32 = true /\
  Forall (fun t => t <> [] /\ Forall (fun r => isSpace r = false) t) [[97;98];[99];[100;101;102]].
Proof. repeat (constructor; try discriminate; try reflexivity). Qed.
Example C02_ex : tokenizerBreakWord [32;97;98;32;9;12288;99;10] = Ret [[97;98];[99]].
Proof. reflexivity. Qed.

(** C03: for every Unicode punctuation table [u] *)
Theorem C03_punctuator_pieces : forall (u : unicode) (w : list rune),
  let mark := fun r => (r =? 124) || (isPunct u r && negb (isHyphenRune r)) in
  exists ps, punctuatorBreakWord u w = Ret ps /\ concat ps = w /\ pieces mark w ps /\
    (forall ps', pieces mark w ps' -> ps' = ps).
Proof. exact punctuator_full. Qed.
Print Assumptions C03_punctuator_pieces.

(* "a,b-c|" *)
Example C03_ex : punctuatorBreakWord (mkUnicode (fun _ => false) (fun _ => false) (fun r => r))
    [97;44;98;45;99;124] = Ret [[97];[44];[98;45;99];[124]].
Proof. reflexivity. Qed.

(** C04 *)
Theorem C04_splitword_pieces : forall w : list rune,
  exists ps, splitWord w = Ret ps /\ concat ps = w /\ pieces isHyphenRune w ps /\
    (forall ps', pieces isHyphenRune w ps' -> ps' = ps).
Proof. exact splitWord_full. Qed.
Print Assumptions C04_splitword_pieces.

Example C04_ex : splitWord [97;45;45;98;8208;99] = Ret [[97];[45];[45];[98];[8208];[99]].
Proof. reflexivity. Qed.

(** C05 *)
Theorem C05_never_both : forall (u : unicode) (p : list rune),
  ~ (isPunctuation u p = true /\ isHyphen p = true) /\
  (length p <> 1%nat -> isPunctuation u p = false /\ isHyphen p = false).
Proof. exact classes_disjoint. Qed.
Print Assumptions C05_never_both.

Theorem C05_ispunctuation_iff_isolated : forall (u : unicode) (r : rune),
  isPunctuation u [r] = true <->
  (forall a b ps, punctuatorBreakWord u (a ++ r :: b) = Ret ps ->
     exists p1 p2, ps = p1 ++ [r] :: p2 /\ concat p1 = a /\ concat p2 = b).
Proof. exact isPunctuation_iff. Qed.
Print Assumptions C05_ispunctuation_iff_isolated.

Theorem C05_ishyphen_iff_isolated : forall r : rune,
  isHyphen [r] = true <->
  (forall a b ps, splitWord (a ++ r :: b) = Ret ps ->
     exists p1 p2, ps = p1 ++ [r] :: p2 /\ concat p1 = a /\ concat p2 = b).
Proof. exact isHyphen_iff. Qed.
Print Assumptions C05_ishyphen_iff_isolated.

Example C05_ex : isPunctuation (mkUnicode (fun _ => false) (fun _ => false) (fun r => r)) [44] = true
  /\ isHyphen [173] = true.
Proof. split; reflexivity. Qed.
