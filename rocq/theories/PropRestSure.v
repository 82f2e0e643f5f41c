(** C139: with a tolerance of at most 1/2, the rest of a text is set as it was. *)
From Coq Require Import String Ascii Permutation.
From Verif Require Import Base Arith ArithB64 Unicode Split SpecSplit SpecAnsi Hyph Nodes KP Render SpecKP SpecGreedy Align Options Call Settings
  AlignProofs Fresh Succeed Compare Sub SpecFormat Format PropAlign PropCompare Greedy Fewest Counts PropFewest PropCounts Rest PropRest Sure PropSure RestSure.
Open Scope Z_scope.

(** Cut where a line ends with a token, unless the rest starts with a mark *)
Theorem C139_rest : forall A L u o m punct parts lb tokens spare maxWidth W ord,
  plainCall A L u o m punct parts lb tokens spare maxWidth W ord ->
  fle A (k_tolerance (l_search o)) (fHalf A) = true ->
  forall ls lb', leftAlignUniform A u ord spare lb tokens maxWidth = Ret (Some ls, lb') ->
  exists segs, ls = map (lineText (l_renderHyphens o)) segs /\
  layout (negb (feq A (l_hyphenPenalty o) (fZ A 10000))) (fragsOf u o punct parts tokens) segs /\
  forall pre post t1 t2, segs = pre ++ post -> tokens = t1 ++ t2 -> t1 <> [] -> t2 <> [] -> length (concat post) = length (fragsOf u o punct parts t2) ->
    startsWithMark (fragsOf u o punct parts t2) = false ->
    forall lb2 spare2 ord2, plainCall A L u o m punct parts lb2 t2 spare2 maxWidth W ord2 ->
    exists lb2', leftAlignUniform A u ord2 spare2 lb2 t2 maxWidth = Ret (Some (map (lineText (l_renderHyphens o)) post), lb2').
Proof. exact rest_half. Qed.
Print Assumptions C139_rest.
(** Words that are not cut, without marks: after any line *)
Theorem C139_words : forall A L u o m punct parts lb tokens spare maxWidth W ord,
  plainCall A L u o m punct parts lb tokens spare maxWidth W ord -> l_punctuator o = defaultPunctuator u ->
  fle A (k_tolerance (l_search o)) (fHalf A) = true ->
  Forall (fun t => Forall (fun r => punctSplitFunc u r = false) t /\ (l_wordBreak o = true -> zlen t <= 4)) tokens ->
  forall ls lb', leftAlignUniform A u ord spare lb tokens maxWidth = Ret (Some ls, lb') ->
  exists gs, concat gs = tokens /\ ls = map (joinWith 32) gs /\
  forall g1 g2, gs = g1 ++ g2 -> g2 <> [] ->
    forall lb2 spare2 ord2, plainCall A L u o m punct parts lb2 (concat g2) spare2 maxWidth W ord2 ->
    exists lb2', leftAlignUniform A u ord2 spare2 lb2 (concat g2) maxWidth = Ret (Some (map (joinWith 32) g2), lb2').
Proof. exact rest_half_words. Qed.
Print Assumptions C139_words.
Lemma opts_call opts tokens w ord : changes opts ->
  forallb (fun t => forallb (fun r => (0 <=? r) && (r <=? 0x10ffff) && negb (r =? 27)) t && (zlen t <? 1000)) tokens = true ->
  tokens <> [] -> forallb (fun t => negb (zlen t =? 0)) tokens = true ->
  exM (joinWith 32 tokens) <= 2 ^ 50 -> 0 < w <= 2 ^ 30 -> (forall i k c, In c (ord i k)) ->
  plainCall B BL ascii (ofOpts opts) exM exPunct pairs (breakerOf (ofOpts opts)) tokens (fun _ => []) (n w) (1 * w) ord.
Proof.
  intros H H1 H2 H3 H4 Hw Ho. pose proof (cmp_settings opts H) as S. apply make_call; [exact S| |now apply plain_check| | | | |lia|exact Ho].
  - destruct (settings_new B BL ascii _ exM exPunct pairs S) as (sp & hy & E & _). apply us_new. unfold breakerOf. rewrite E. reflexivity.
  - split; [exact H2|]. apply Forall_forall. rewrite forallb_forall in H3. intros t Ht E. specialize (H3 t Ht). now rewrite E in H3.
  - intros a b. unfold exM. rewrite cols_app. lia.
  - exact H4.
  - destruct (changes_same opts exO H (tol_inf B BL) ex_penalty) as (_ & E2 & _).
    apply scaled_width with (k := 1) (n := w); [|lia|apply (rep_Z B BL); unfold exactZ; lia|lia|lia].
    assert (l_scale (ofOpts opts) = l_scale exO) as -> by (unfold ofOpts, withOptions; rewrite fold_left_app; exact E2).
    apply (rep_Z B BL). unfold exactZ. lia.
Qed.
Example C139_ex w k : 0 < w <= 2 ^ 30 ->
  plainCall B BL ascii (ofOpts [WithTolerance (fHalf B)]) exM exPunct pairs (breakerOf (ofOpts [WithTolerance (fHalf B)])) (map txt someWords) (fun _ => [])
    (n w) (1 * w) (from k) /\
  l_punctuator (ofOpts [WithTolerance (fHalf B)]) = defaultPunctuator ascii /\
  fle B (k_tolerance (l_search (ofOpts [WithTolerance (fHalf B)]))) (fHalf B) = true /\
  Forall (fun t => Forall (fun r => punctSplitFunc ascii r = false) t /\ (l_wordBreak (ofOpts [WithTolerance (fHalf B)]) = true -> zlen t <= 4)) (map txt someWords).
Proof.
  intros Hw. split.
  - apply opts_call; [repeat constructor; vm_compute; reflexivity|vm_compute; reflexivity|discriminate|vm_compute; reflexivity|vm_compute; discriminate|exact Hw|apply from_all].
  - split; [reflexivity|]. split; [vm_compute; reflexivity|].
    repeat (constructor; [split; [repeat constructor|intros _; vm_compute; discriminate]|]); constructor.
Qed.
Example C139_ex_run :
  map (fun k => run (exOpts ++ [WithTolerance (fHalf B)]) (from k) someWords (n 15)) [0; 1; 2; 3]%nat =
    repeat (lines ["one two thre"; "four five six"; "sevn eigh nine"]%string) 4 /\
  map (fun k => run (exOpts ++ [WithTolerance (fHalf B)]) (from k) ["four"; "five"; "six"; "sevn"; "eigh"; "nine"]%string (n 15)) [0; 1; 2; 3]%nat =
    repeat (lines ["four five six"; "sevn eigh nine"]%string) 4.
Proof. split; vm_compute; reflexivity. Qed.
