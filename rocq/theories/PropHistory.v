(** C54, C111, C114: what earlier calls and formatting change, for any tokens. [shownAlike], [partTexts], [said] are in History.v, [reached] and
    [readable] in AnyCall.v, [decorated] in SpecFormat.v. *)
From Coq Require Import String Ascii.
From Verif Require Import Base Arith ArithB64 Unicode Split SpecSplit Ansi SpecAnsi Attr Hyph Nodes KP Render Align Options Call Settings PropAlign SpecFormat Format PropFormat
  SpecAny AnyCall PropAny History.
Open Scope Z_scope.

(** C54, for any tokens, options, width and earlier calls: the lines show the same text, with other sequences in it *)
Theorem C54_same_layout : forall A u o lb1 seqs1 lb2 seqs2 tokens spare1 spare2 itemss ord maxWidth,
  reached A u o lb1 seqs1 -> reached A u o lb2 seqs2 -> readable u tokens spare1 itemss -> readable u tokens spare2 itemss ->
  shownAlike (seqs1 ++ flat_map formatting itemss) (seqs2 ++ flat_map formatting itemss)
    (let! x := leftAlignUniform A u ord spare1 lb1 tokens maxWidth in Ret (fst x)) (let! x := leftAlignUniform A u ord spare2 lb2 tokens maxWidth in Ret (fst x)).
Proof. exact history_same. Qed.
Print Assumptions C54_same_layout.

(** C114: [someTexts]: the texts between the sequences of a token *)
Theorem C114_layout : forall A u o lb1 seqs1 lb2 seqs2 tokens1 tokens2 spare1 spare2 itemss1 itemss2 ord maxWidth, l_punctuator o [] = Ret [] ->
  reached A u o lb1 seqs1 -> reached A u o lb2 seqs2 -> readable u tokens1 spare1 itemss1 -> readable u tokens2 spare2 itemss2 ->
  map someTexts itemss1 = map someTexts itemss2 ->
  shownAlike (seqs1 ++ flat_map formatting itemss1) (seqs2 ++ flat_map formatting itemss2)
    (let! x := leftAlignUniform A u ord spare1 lb1 tokens1 maxWidth in Ret (fst x)) (let! x := leftAlignUniform A u ord spare2 lb2 tokens2 maxWidth in Ret (fst x)).
Proof. exact history_some. Qed.
Print Assumptions C114_layout.

(** [exTokens] of PropAny.v in red instead of bold, and closed only once *)
Definition redTokens : list (list rune) := [[]; redOn ++ txt "ab"; []; txt "c" ++ off ++ boldOn ++ txt "d"; []].
Definition redItems : list (list SpecAnsi.item) :=
  [[]; [Ctl Start redOn; Chr (txt "a"); Chr (txt "b")]; []; [Chr (txt "c"); Ctl Stop off; Ctl Start boldOn; Chr (txt "d")]; []].
Lemma red_readable : readable digits redTokens (fun _ => []) redItems.
Proof.
  assert (forall rest k l, sequence digits k l -> k <> Other -> csi digits rest l k) as K by (intros; now apply sequence_csi).
  assert (forall rest, csi digits rest boldOn Start) as Kb by (intros; apply K; [exact bold_start|discriminate]).
  assert (forall rest, csi digits rest redOn Start) as Kr by (intros; apply K; [exact red_start|discriminate]).
  assert (forall rest, csi digits rest off Stop) as Ko by (intros; apply K; [exact off_stop|discriminate]).
  split; [|split].
  - repeat (apply Forall2_cons || apply Forall2_nil).
    + apply lx_nil.
    + apply lx_csi; [apply Kr|]. apply lx_chr; [discriminate|]. apply lx_chr; [discriminate|]. apply lx_nil.
    + apply lx_nil.
    + apply lx_chr; [discriminate|]. apply lx_csi; [apply Ko|]. apply lx_csi; [apply Kb|]. apply lx_chr; [discriminate|]. apply lx_nil.
    + apply lx_nil.
  - repeat constructor; vm_compute; discriminate.
  - intros [|[|[|[|[|j]]]]] t; cbn [nth_error redTokens]; intros E; try (injection E as <-; vm_compute; reflexivity). destruct j; discriminate E.
Qed.
(** a first call on [exTokens] leaves bold opened *)
Definition afterEx (o : lopts B) (tokens : list (list rune)) (width : F B) : go (option (list (list rune))) :=
  let! lb := newBreaker B o in let! x := leftAlignUniform B digits (from 0) (fun _ => []) lb exTokens (n 4) in
  let! y := leftAlignUniform B digits (from 0) (fun _ => []) (snd x) tokens width in Ret (fst y).
Example C114_ex : l_punctuator fO [] = Ret [] /\ map someTexts exItems = [[]; [txt "ab"]; []; [txt "c"; txt "d"]; []] /\ map someTexts redItems = map someTexts exItems /\
  format fO exTokens (n 4) = Ret (Some [boldOn ++ boldOn ++ txt "ab " ++ off; boldOn ++ txt "c" ++ off ++ txt "d "]) /\
  format fO redTokens (n 4) = Ret (Some [redOn ++ redOn ++ txt "ab " ++ off; redOn ++ txt "c" ++ off ++ boldOn ++ txt "d " ++ off]) /\
  afterEx fO redTokens (n 4) = Ret (Some [boldOn ++ redOn ++ txt "ab " ++ off; boldOn ++ txt "c" ++ off ++ boldOn ++ txt "d "]).
Proof. repeat (split; [vm_compute; reflexivity|]). vm_compute. reflexivity. Qed.

(** The places of the sequences matter: a word with a sequence inside is two words for the hyphenator *)
Theorem C114_inside_refuted : exists tokens1 itemss1 tokens2 itemss2 w, readable digits tokens1 (fun _ => []) itemss1 /\ readable digits tokens2 (fun _ => []) itemss2 /\
  map keptText itemss1 = map keptText itemss2 /\ format fO tokens1 (n w) = lines ["ab-"; "cdef"]%string /\ format fO tokens2 (n w) = Ret None.
Proof.
  exists [txt "abcdef"], [textItems (txt "abcdef")], [txt "abc" ++ boldOn ++ txt "def"], [textItems (txt "abc") ++ Ctl Start boldOn :: textItems (txt "def")], 4.
  split; [|split; [|split; [reflexivity|split; vm_compute; reflexivity]]].
  - split; [|split].
    + repeat constructor; discriminate.
    + repeat constructor; vm_compute; discriminate.
    + intros [|[|j]] t E; try discriminate E. injection E as <-. reflexivity.
  - split; [|split].
    + constructor; [|constructor]. do 3 (apply lx_chr; [discriminate|]). apply lx_csi; [apply sequence_csi; [exact bold_start|discriminate]|].
      do 3 (apply lx_chr; [discriminate|]). apply lx_nil.
    + repeat constructor; vm_compute; discriminate.
    + intros [|[|j]] t E; try discriminate E. injection E as <-. reflexivity.
Qed.
Print Assumptions C114_inside_refuted.

(** C111 for any tokens: a line breaker keeps all the text that it was given, on top of what it kept *)
Theorem C111_keeps_all : forall A u opts, Forall losslessOption opts ->
  let o := withOptions A (defaultHyphenator u) (defaultPunctuator u) opts in
  forall lb t, said A u o lb t -> concat (map a_text (lb_attrs lb)) = t.
Proof. exact options_kept. Qed.
Print Assumptions C111_keeps_all.
Theorem C111_adds : forall A u ord spare lb tokens itemss maxWidth res lb', lossless (l_punctuator (lb_opts lb)) -> lossless (l_hyphenator (lb_opts lb)) ->
  readable u tokens spare itemss -> leftAlignUniform A u ord spare lb tokens maxWidth = Ret (res, lb') ->
  lb_opts lb' = lb_opts lb /\ exists more, lb_attrs lb' = lb_attrs lb ++ more /\ concat (map a_text more) = concat (map keptText itemss).
Proof. exact call_grow. Qed.
Print Assumptions C111_adds.
Example C111_adds_ex : Forall losslessOption exOpts /\
  (let! x := leftAlignUniform B digits (from 0) (fun _ => []) fB exTokens (n 4) in Ret (concat (map a_text (lb_attrs (snd x))))) = Ret (txt "abcd") /\
  (let! x := leftAlignUniform B digits (from 0) (fun _ => []) fB exTokens (n 4) in
   let! y := leftAlignUniform B digits (from 0) (fun _ => []) (snd x) redTokens (n 1) in Ret (fst y, concat (map a_text (lb_attrs (snd y))))) = Ret (None, txt "abcdabcd").
Proof.
  split; [|split; vm_compute; reflexivity]. constructor; [|constructor]. intros w ps [= <-]. now apply (pairs_ok (List.length w)).
Qed.
