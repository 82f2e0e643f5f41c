(** C101: the lines of LeftAlignUniform read back as a text and set again. *)
From Coq Require Import String Ascii.
From Verif Require Import Base Arith ArithB64 Unicode Split SpecSplit SpecAnsi Hyph Nodes KP Render SpecKP Align Options Call Settings
  AlignProofs Fresh PropAlign Again.
Open Scope Z_scope.

(** C101 in full: setting the lines again gives the same lines *)
Definition C101_lines : Prop := forall A L u o m punct parts tokens maxWidth W lb1 spare1 ord lb2 spare2 words,
  plainCall A L u o m punct parts lb1 tokens spare1 maxWidth W ord ->
  plainCall A L u o m punct parts lb2 words spare2 maxWidth W ord ->
  Forall (Forall (fun r => isSpace r = false)) tokens ->
  forall ls lb1', leftAlignUniform A u ord spare1 lb1 tokens maxWidth = Ret (Some ls, lb1') -> tokenizerBreakWord (joinWith 10 ls) = Ret words ->
  exists lb2', leftAlignUniform A u ord spare2 lb2 words maxWidth = Ret (Some ls, lb2').
(** It does not when a word is cut: its parts are words of their own *)
Theorem C101_lines_refuted : exists tokens w ls words ls2, run exOpts (from 0) tokens (n w) = lines ls /\
  tokenizerBreakWord (joinWith 10 (map txt ls)) = Ret (map txt words) /\ run exOpts (from 0) words (n w) = lines ls2 /\ ls2 <> ls.
Proof.
  exists ["a"; "bcd"; "-abcd"; "xyz"]%string, 7, ["a bcd -"; "ab-"; "cd xyz"]%string, ["a"; "bcd"; "-"; "ab-"; "cd"; "xyz"]%string,
    ["a bcd"; "- ab-"; "cd xyz"]%string. repeat split; try (vm_compute; reflexivity). discriminate.
Qed.
Print Assumptions C101_lines_refuted.

(** What holds: a text that can be set can be set again from its lines, whatever the orders of the maps: the second call returns lines too *)
Theorem C101_again_partial : forall A L u o m punct parts tokens maxWidth W lb1 spare1 ord1 lb2 spare2 ord2 words,
  plainCall A L u o m punct parts lb1 tokens spare1 maxWidth W ord1 ->
  plainCall A L u o m punct parts lb2 words spare2 maxWidth W ord2 ->
  (forall a b, m (a ++ b) = m a + m b) -> l_punctuator o = defaultPunctuator u -> Forall (Forall (fun r => isSpace r = false)) tokens ->
  forall ls lb1', leftAlignUniform A u ord1 spare1 lb1 tokens maxWidth = Ret (Some ls, lb1') ->
  tokenizerBreakWord (joinWith 10 ls) = Ret words ->
  exists ls2 lb2', leftAlignUniform A u ord2 spare2 lb2 words maxWidth = Ret (Some ls2, lb2').
Proof. exact align_again. Qed.
Print Assumptions C101_again_partial.
Definition secondTokens : list string := ["ab,"; "abcdef"; "gh-ij-"; "k"; "xyz"]%string.
Example C101_ex_call k1 k2 :
  plainCall B BL ascii exO exM exPunct pairs exB (map txt exTokens) (fun _ => []) (n 6) (1 * 6) (from k1) /\
  plainCall B BL ascii exO exM exPunct pairs exB (map txt secondTokens) (fun _ => []) (n 6) (1 * 6) (from k2) /\
  (forall a b, exM (a ++ b) = exM a + exM b) /\ l_punctuator exO = defaultPunctuator ascii /\ Forall (Forall (fun r => isSpace r = false)) (map txt exTokens).
Proof.
  split; [apply ex_call; lia|]. assert (forall a b, exM (a ++ b) = exM a + exM b) as H by (intros a b; unfold exM; rewrite cols_app; lia).
  split; [|split; [exact H|split; [reflexivity|repeat constructor]]].
  apply make_call; [exact ex_settings|exact ex_usable| | |exact H| | |lia|apply from_all].
  - apply plain_check. vm_compute. reflexivity.
  - split; [discriminate|]. repeat constructor; discriminate.
  - vm_compute. discriminate.
  - apply scaled_width with (k := 1) (n := 6); [|lia|apply (rep_Z B BL); unfold exactZ; lia|lia|lia]. apply (rep_Z B BL). unfold exactZ. lia.
Qed.
Example C101_ex : run exOpts (from 0) exTokens (n 6) = lines ["ab,"; "abcdef"; "gh-ij-"; "k xyz"]%string /\
  tokenizerBreakWord (joinWith 10 (map txt ["ab,"; "abcdef"; "gh-ij-"; "k xyz"]%string)) = Ret (map txt secondTokens) /\
  run exOpts (from 0) secondTokens (n 6) = lines ["ab,"; "abcdef"; "gh-ij-"; "k xyz"]%string.
Proof. repeat split; vm_compute; reflexivity. Qed.

(** Lines made of whole tokens are the same when set again *)
Theorem C101_same : forall A u o tokens maxWidth lb1 spare1 lb2 spare2 ord gs words,
  usable A u o lb1 -> usable A u o lb2 -> plainTokens tokens spare1 -> plainTokens words spare2 ->
  Forall (fun t => t <> [] /\ Forall (fun r => isSpace r = false) t) tokens ->
  forall ls lb1', leftAlignUniform A u ord spare1 lb1 tokens maxWidth = Ret (Some ls, lb1') ->
  concat gs = tokens -> ls = map (joinWith 32) gs -> tokenizerBreakWord (joinWith 10 ls) = Ret words ->
  words = tokens /\ exists lb2', leftAlignUniform A u ord spare2 lb2 words maxWidth = Ret (Some ls, lb2').
Proof. exact align_same. Qed.
Print Assumptions C101_same.
(** such are the lines of tokens without punctuation, if words are not broken or of at most four runes *)
Theorem C101_whole : forall A L u o m punct parts tokens maxWidth W lb spare ord,
  plainCall A L u o m punct parts lb tokens spare maxWidth W ord -> l_punctuator o = defaultPunctuator u ->
  Forall (fun t => Forall (fun r => punctSplitFunc u r = false) t /\ (l_wordBreak o = true -> zlen t <= 4)) tokens ->
  forall ls lb', leftAlignUniform A u ord spare lb tokens maxWidth = Ret (Some ls, lb') -> exists gs, concat gs = tokens /\ ls = map (joinWith 32) gs.
Proof. exact align_whole. Qed.
Print Assumptions C101_whole.
Example C101_ex_whole : run exOpts (from 0) five (n 9) = lines ["aaaa"; "bbbb cccc"; "dddd eeee"]%string /\
  Forall (fun t => Forall (fun r => punctSplitFunc ascii r = false) t /\ (l_wordBreak exO = true -> zlen t <= 4)) (map txt five) /\
  concat [[txt "aaaa"]; map txt ["bbbb"; "cccc"]; map txt ["dddd"; "eeee"]]%string = map txt five.
Proof.
  split; [vm_compute; reflexivity|]. split; [|reflexivity].
  repeat (constructor; [split; [repeat constructor|intros _; vm_compute; discriminate]|]). constructor.
Qed.
