(** C124: lines between the first and the last are not needlessly short. [plainCall] as in PropAlign.v. *)
From Coq Require Import String Ascii.
From Verif Require Import Base Arith ArithB64 Unicode Split SpecSplit SpecAnsi Hyph Nodes KP Render SpecKP SpecGreedy Align Options Call Settings
  AlignProofs Fresh Succeed Compare Sub SpecFormat Format PropAlign Greedy Fewest Counts PropFewest PropCounts Filled.
Open Scope Z_scope.

(** If the end [c] of a line were moved to the next line [s2], not the last one, the latter would be too wide, or at most 6
    short of the width: provided that what is left of the former line can make a line. For every iteration order of the map *)
Theorem C124_filled_partial : forall A L u o m punct parts lb tokens spare maxWidth W ord,
  plainCall A L u o m punct parts lb tokens spare maxWidth W ord ->
  forall ls lb', leftAlignUniform A u ord spare lb tokens maxWidth = Ret (Some ls, lb') ->
  marksGlued (negb (feq A (l_hyphenPenalty o) (fZ A 10000))) (fragsOf u o punct parts tokens) ->
  fle A (fZ A 0) (k_tolerance (l_search o)) = true ->
  exists segs, ls = map (lineText (l_renderHyphens o)) segs /\
  layout (negb (feq A (l_hyphenPenalty o) (fZ A 10000))) (fragsOf u o punct parts tokens) segs /\
  forall pre s1 s2 post a c, segs = pre ++ s1 :: s2 :: post -> post <> [] -> s1 = a ++ c -> c <> [] ->
    a = [] \/ (exists a0 f, a = a0 ++ [f] /\ cuttable (negb (feq A (l_hyphenPenalty o) (fZ A 10000))) f = true) /\
      lineOk (l_renderHyphens o) m (m [32]) (hyphenW o m) A (k_tolerance (l_search o)) W (match pre with [] => true | _ => false end) false a = true ->
    W < lineWidth (l_renderHyphens o) m (m [32]) (hyphenW o m) (c ++ s2) \/ W - lineWidth (l_renderHyphens o) m (m [32]) (hyphenW o m) (c ++ s2) <= 6.
Proof. exact align_filled. Qed.
Print Assumptions C124_filled_partial.
(** With the default tolerance and a width of 51 at most: a line between the first and the last is short by 6, a space and the
    widest word at most *)
Theorem C124_words_partial : forall A L u o m punct parts lb tokens spare maxWidth W ord,
  plainCall A L u o m punct parts lb tokens spare maxWidth W ord ->
  forall ls lb', leftAlignUniform A u ord spare lb tokens maxWidth = Ret (Some ls, lb') ->
  marksGlued (negb (feq A (l_hyphenPenalty o) (fZ A 10000))) (fragsOf u o punct parts tokens) ->
  k_tolerance (l_search o) = fTolerance A -> W <= 51 -> l_renderHyphens o = true \/ l_wordBreak o = false ->
  (l_renderHyphens o = true -> Forall (fun f => hyphenW o m <= m (f_text f)) (fragsOf u o punct parts tokens)) ->
  (forall a b, m (a ++ b) = m a + m b) -> forall M, Forall (fun t => m t <= M) tokens ->
  forall pre l post, ls = pre ++ l :: post -> pre <> [] -> post <> [] -> W <= m l + 6 + m [32] + M.
Proof. exact align_filled_words. Qed.
Print Assumptions C124_words_partial.
(** This bounds the number of lines *)
Theorem C124_count_partial : forall A L u o m punct parts lb tokens spare maxWidth W ord,
  plainCall A L u o m punct parts lb tokens spare maxWidth W ord ->
  forall ls lb', leftAlignUniform A u ord spare lb tokens maxWidth = Ret (Some ls, lb') ->
  marksGlued (negb (feq A (l_hyphenPenalty o) (fZ A 10000))) (fragsOf u o punct parts tokens) ->
  k_tolerance (l_search o) = fTolerance A -> W <= 51 -> l_renderHyphens o = true \/ l_wordBreak o = false ->
  (l_renderHyphens o = true -> Forall (fun f => hyphenW o m <= m (f_text f)) (fragsOf u o punct parts tokens)) ->
  (forall a b, m (a ++ b) = m a + m b) -> forall M, Forall (fun t => m t <= M) tokens ->
  2 <= zlen ls -> (zlen ls - 2) * (W - 6 - m [32] - M) <= m (joinWith 32 tokens) + (zlen ls - 1) * m [45].
Proof. exact align_filled_count. Qed.
Print Assumptions C124_count_partial.

(** The first line can be shorter: here it has a column out of 20, and all the words have one *)
Definition ones : list string := ["a"; "b"; "c"; "d"; "e"; "f"; "g"; "h"; "i"; "j"; "k"]%string.
Theorem C124_first_refuted : exists tokens, forallb (fun t => exM t <=? 1) (map txt tokens) = true /\
  run exOpts (from 0) tokens (n 20) = lines ["a"; "b c d e f g h i j k"]%string.
Proof. exists ones. split; vm_compute; reflexivity. Qed.
Print Assumptions C124_first_refuted.

(** "two three four five" is 6 short of the width: the line "three four five" is as short as can be *)
Definition fewWords : list string := ["one"; "two"; "three"; "four"; "five"; "six"; "seven"; "eight"; "nine"; "ten"; "eleven"; "twelve"]%string.
Example C124_ex : plainCall B BL ascii exO exM exPunct pairs exB (map txt fewWords) (fun _ => []) (n 25) (1 * 25) (from 3) /\
  gentleb ascii exO exM exPunct pairs (map txt fewWords) = true /\ l_renderHyphens exO = true /\ k_tolerance (l_search exO) = fTolerance B /\
  forallb (fun t => exM t <=? 6) (map txt fewWords) = true /\
  run exOpts (from 3) fewWords (n 25) = lines ["one two"; "three four five"; "six seven eigh-"; "t nine ten eleven twelve"]%string /\
  run exOpts (from 0) fewWords (n 25) = lines ["one two three"; "four five six seven eigh-"; "t nine ten eleven twelve"]%string.
Proof.
  split; [apply any_call; [vm_compute; reflexivity|discriminate|vm_compute; reflexivity|vm_compute; discriminate|lia|exact (from_all 3)]|].
  split; [vm_compute; reflexivity|]. split; [reflexivity|]. split; [reflexivity|]. split; [vm_compute; reflexivity|]. split; vm_compute; reflexivity.
Qed.
