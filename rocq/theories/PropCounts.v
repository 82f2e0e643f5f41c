(** C122: numbers of lines and options compared. C123: the number of lines of the beginning of a text. *)
From Coq Require Import String Ascii Permutation.
From Verif Require Import Base Arith ArithB64 Unicode Split SpecSplit SpecAnsi Hyph Nodes KP Render SpecKP SpecGreedy Align Options Call Settings
  AlignProofs Fresh Succeed Compare Sub SpecFormat Format PropAlign PropCompare PropSub Greedy Fewest PropFormat PropLayouts Counts PropFewest.
Open Scope Z_scope.

(** ** The hypotheses of the theorems are met *)
Definition gentleb (u : unicode) (o : lopts B) (m : list rune -> Z) (punct parts : list rune -> list (list rune)) (tokens : list (list rune)) : bool :=
  fle B (fZ B 0) (k_tolerance (l_search o)) && marksGluedb (negb (feq B (l_hyphenPenalty o) (fZ B 10000))) (fragsOf u o punct parts tokens) &&
  forallb (fun f => hyphenW o m <=? m (f_text f)) (fragsOf u o punct parts tokens).
Lemma gentleb_ok u o m punct parts tokens : gentleb u o m punct parts tokens = true -> gentle B u o m punct parts tokens.
Proof.
  unfold gentleb. intros H. apply andb_prop in H. destruct H as [H H3]. apply andb_prop in H. destruct H as [H1 H2].
  split; [exact H1|]. split; [now apply marksGluedb_ok|]. intros _. apply Forall_forall. intros f Hf. rewrite forallb_forall in H3. specialize (H3 f Hf). lia.
Qed.
Lemma gentle_tolerance t : fle B (fZ B 0) t = true -> gentle B ascii (newWith B ascii exOpts (WithTolerance t)) exM exPunct pairs (map txt exTokens).
Proof.
  intros Ht. assert (gentleb ascii (newWith B ascii exOpts (WithTolerance (n 0))) exM exPunct pairs (map txt exTokens) = true) as H by (vm_compute; reflexivity).
  apply gentleb_ok in H. destruct H as (_ & H2 & H3). split; [exact Ht|]. split; [exact H2|exact H3].
Qed.

(** ** Theorems *)

(** C122: more tolerance, word breaking, or a smaller scale factor, never costs a line. With the same iteration order of the
    map, each of them may *)
Theorem C122_tolerance_refuted : exists tokens w,
  run (exOpts ++ [WithTolerance (n 1)]) (from 2) tokens (n w) = lines ["one ab-"; "cdefgh xyz"]%string /\
  run (exOpts ++ [WithTolerance (n 2)]) (from 2) tokens (n w) = lines ["one"; "ab-"; "cdefgh xyz"]%string.
Proof. exists oneTokens, 10. split; vm_compute; reflexivity. Qed.
Print Assumptions C122_tolerance_refuted.
Theorem C122_wordbreak_refuted : exists tokens w,
  run (exOpts ++ [WithWordBreak false]) (from 2) tokens (n w) = lines ["one"; "abcdefgh"; "xyz"]%string /\
  run (exOpts ++ [WithWordBreak true]) (from 2) tokens (n w) = lines ["one"; "ab-"; "cd-"; "efgh xyz"]%string.
Proof. exists oneTokens, 8. split; vm_compute; reflexivity. Qed.
Print Assumptions C122_wordbreak_refuted.
Theorem C122_scale_refuted : exists tokens w,
  run (exOpts ++ [WithScaleFactor (n 10)]) (from 2) tokens (n w) = lines ["one"; "ab-"; "cdef-"; "gh xyz"]%string /\
  run (exOpts ++ [WithScaleFactor (n 1)]) (from 2) tokens (n w) = lines ["one"; "ab-"; "cd-"; "ef-"; "gh xyz"]%string.
Proof. exists oneTokens, 7. split; vm_compute; reflexivity. Qed.
Print Assumptions C122_scale_refuted.
(** With some order, none of them does: [gentle] is what C91 asks of the text *)
Theorem C122_tolerance_partial : forall A L u opts t1 t2 m punct parts tokens maxWidth W lb1 spare1 ord1 lb2 spare2 ord2,
  plainCall A L u (newWith A u opts (WithTolerance t1)) m punct parts lb1 tokens spare1 maxWidth W ord1 ->
  plainCall A L u (newWith A u opts (WithTolerance t2)) m punct parts lb2 tokens spare2 maxWidth W ord2 ->
  fle A t1 t2 = true -> gentle A u (newWith A u opts (WithTolerance t2)) m punct parts tokens ->
  forall ls lb1', leftAlignUniform A u ord1 spare1 lb1 tokens maxWidth = Ret (Some ls, lb1') ->
  exists ls2 ord lb2', (forall i k, Permutation (ord i k) [C0; C1; C2; C3]) /\
    leftAlignUniform A u ord spare2 lb2 tokens maxWidth = Ret (Some ls2, lb2') /\ (length ls2 <= length ls)%nat.
Proof. exact tolerance_count. Qed.
Print Assumptions C122_tolerance_partial.
Theorem C122_wordbreak_partial : forall A L u opts m punct parts tokens maxWidth W lb1 spare1 ord1 lb2 spare2 ord2,
  plainCall A L u (newWith A u opts (WithWordBreak false)) m punct parts lb1 tokens spare1 maxWidth W ord1 ->
  plainCall A L u (newWith A u opts (WithWordBreak true)) m punct parts lb2 tokens spare2 maxWidth W ord2 ->
  (forall a b, m (a ++ b) = m a + m b) -> hyphenFree punct tokens -> gentle A u (newWith A u opts (WithWordBreak true)) m punct parts tokens ->
  forall ls lb1', leftAlignUniform A u ord1 spare1 lb1 tokens maxWidth = Ret (Some ls, lb1') ->
  exists ls2 ord lb2', (forall i k, Permutation (ord i k) [C0; C1; C2; C3]) /\
    leftAlignUniform A u ord spare2 lb2 tokens maxWidth = Ret (Some ls2, lb2') /\ (length ls2 <= length ls)%nat.
Proof. exact wordbreak_count. Qed.
Print Assumptions C122_wordbreak_partial.
Theorem C122_scale_partial : forall A L u opts x1 x2 k1 k2 m punct parts tokens maxWidth n lb1 spare1 ord1 lb2 spare2 ord2,
  plainCall A L u (newWith A u opts (WithScaleFactor x1)) (fun t => k1 * m t) punct parts lb1 tokens spare1 maxWidth (k1 * n) ord1 ->
  plainCall A L u (newWith A u opts (WithScaleFactor x2)) (fun t => k2 * m t) punct parts lb2 tokens spare2 maxWidth (k2 * n) ord2 ->
  1 <= k2 <= k1 -> gentle A u (newWith A u opts (WithScaleFactor x2)) (fun t => k2 * m t) punct parts tokens ->
  forall ls lb1', leftAlignUniform A u ord1 spare1 lb1 tokens maxWidth = Ret (Some ls, lb1') ->
  exists ls2 ord lb2', (forall i k, Permutation (ord i k) [C0; C1; C2; C3]) /\
    leftAlignUniform A u ord spare2 lb2 tokens maxWidth = Ret (Some ls2, lb2') /\ (length ls2 <= length ls)%nat.
Proof. exact scale_count. Qed.
Print Assumptions C122_scale_partial.
(** the calls: [C83_ex_call], [C84_ex_call], [C95_ex_call]; the text is gentle: *)
Example C122_ex_gentle t : fle B (fZ B 0) t = true ->
  gentle B ascii (newWith B ascii exOpts (WithTolerance t)) exM exPunct pairs (map txt exTokens) /\
  gentle B ascii (newWith B ascii exOpts (WithWordBreak true)) exM exPunct pairs (map txt exTokens) /\
  gentle B ascii (newWith B ascii exOpts (WithScaleFactor (n 3))) (fun t => 3 * cols t) exPunct pairs (map txt exTokens).
Proof. intros Ht. split; [now apply gentle_tolerance|]. split; apply gentleb_ok; vm_compute; reflexivity. Qed.
Example C122_ex : run (exOpts ++ [WithWordBreak false]) (from 0) exTokens (n 6) = lines ["ab,"; "abcdef"; "gh-ijk"; "xyz"]%string /\
  run (exOpts ++ [WithWordBreak true]) (from 0) exTokens (n 6) = lines ["ab,"; "abcdef"; "gh-ij-"; "k xyz"]%string /\
  run (exOpts ++ [WithWordBreak false]) (from 0) exTokens (n 9) = lines ["ab,"; "abcdef"; "gh-ijk"; "xyz"]%string /\
  run (exOpts ++ [WithWordBreak true]) (from 0) exTokens (n 9) = lines ["ab, ab-"; "cdef gh-"; "ijk xyz"]%string.
Proof. repeat split; vm_compute; reflexivity. Qed.

(** C123: the beginning of a text needs no more lines than the text. With the same iteration order, a word more may save a
    line *)
Theorem C123_beginning_refuted : exists t1 t2 w,
  run exOpts (from 2) (t1 ++ t2) (n w) = lines ["one"; "abcdefgh"; "xyz tt"]%string /\
  run exOpts (from 2) t1 (n w) = lines ["one"; "ab-"; "cd-"; "efgh xyz"]%string.
Proof. exists oneTokens, ["tt"]%string, 8. split; vm_compute; reflexivity. Qed.
Print Assumptions C123_beginning_refuted.
(** With some order, it does not, where C96 applies to a text as C91 asks *)
Theorem C123_beginning_partial : forall A L u o m punct parts t1 t2 maxWidth W lb1 spare1 ord1 lb2 spare2 ord2,
  plainCall A L u o m punct parts lb1 (t1 ++ t2) spare1 maxWidth W ord1 ->
  plainCall A L u o m punct parts lb2 t1 spare2 maxWidth W ord2 ->
  fle A (fdiv A (fZ A W) (fZ A 9994)) (k_tolerance (l_search o)) = true -> gentle A u o m punct parts t1 ->
  forall ls lb1', leftAlignUniform A u ord1 spare1 lb1 (t1 ++ t2) maxWidth = Ret (Some ls, lb1') ->
  exists ls2 ord lb2', (forall i k, Permutation (ord i k) [C0; C1; C2; C3]) /\
    leftAlignUniform A u ord spare2 lb2 t1 maxWidth = Ret (Some ls2, lb2') /\ (length ls2 <= length ls)%nat.
Proof. exact beginning_count. Qed.
Print Assumptions C123_beginning_partial.
(** the calls: [C96_ex_call]; the beginning is gentle: *)
Example C123_ex : gentle B ascii exO exM exPunct pairs (map txt ["ab,"; "abcdef"; "gh-ijk"]%string) /\
  run exOpts (from 0) ["ab,"; "abcdef"; "gh-ijk"]%string (n 6) = lines ["ab,"; "abcdef"; "gh-ijk"]%string /\
  run exOpts (from 0) ["ab,"; "abcdef"; "gh-ijk"; "xyz"]%string (n 6) = lines ["ab,"; "abcdef"; "gh-ij-"; "k xyz"]%string.
Proof. split; [apply gentleb_ok; vm_compute; reflexivity|]. split; vm_compute; reflexivity. Qed.

(** C91 for tokens with escape sequences: no more lines than any layout of their texts within the tolerance, for some order *)
Theorem C91_formatted_partial : forall A L u o m punct parts lb ts spare1 spare2 maxWidth W ord,
  plainCall A L u o m punct parts lb (map tokenText ts) spare2 maxWidth W ord ->
  (forall j x, nth_error ts j = Some x -> token A u o x (spare1 j) (spare2 j)) ->
  gentle A u o m punct parts (map tokenText ts) ->
  forall segs, layout (negb (feq A (l_hyphenPenalty o) (fZ A 10000))) (fragsOf u o punct parts (map tokenText ts)) segs ->
  linesOk (l_renderHyphens o) m (m [32]) (hyphenW o m) A (k_tolerance (l_search o)) W true segs = true ->
  exists ls ord' lb', (forall i k, Permutation (ord' i k) [C0; C1; C2; C3]) /\
    leftAlignUniform A u ord' spare1 lb (map tokenRunes ts) maxWidth = Ret (Some ls, lb') /\ (length ls <= length segs)%nat.
Proof. exact formatted_fewest. Qed.
Print Assumptions C91_formatted_partial.
(** the call: [C87_ex_formatted_call]; the tokens: [C64_ex_token]; the texts are gentle, and in bold face or not get 3 lines *)
Example C91_ex_formatted : gentle B digits fO exM fPunct pairs (map tokenText exDoc64) /\
  ordered 0 exDoc87 (n 8) = Ret (Some [txt "one"; boldOn ++ txt "abcd-" ++ off; boldOn ++ txt "efgh" ++ off ++ txt " xyz"]).
Proof. split; [apply gentleb_ok; vm_compute; reflexivity|vm_compute; reflexivity]. Qed.
