(** With a tolerance of at most 1/2, the lines after a cut are the lines of the rest of the text, for every iteration order. *)
From Coq Require Import Permutation.
From Verif Require Import Base Arith Unicode Split SpecSplit SpecAnsi Hyph Nodes KP Render SpecKP SpecGreedy Align Options Call Settings
  AlignProofs Fresh Succeed Compare Counts Sure Least Rest.
Open Scope Z_scope.

Lemma sure_order A L u o m punct parts lb tokens spare maxWidth W ord ls :
  plainCall A L u o m punct parts lb tokens spare maxWidth W ord ->
  fle A (k_tolerance (l_search o)) (fHalf A) = true ->
  (exists ord' lb', (forall i k, Permutation (ord' i k) [C0; C1; C2; C3]) /\ leftAlignUniform A u ord' spare lb tokens maxWidth = Ret (Some ls, lb')) ->
  exists lb', leftAlignUniform A u ord spare lb tokens maxWidth = Ret (Some ls, lb').
Proof.
  intros C Hh (ord' & lb' & Hp & E). pose proof (any_order _ _ _ _ _ _ _ _ _ _ _ _ _ _ C Hp) as C'.
  destruct (align_half A L u o m punct parts tokens maxWidth W lb spare ord lb spare ord' C C' Hh) as (res & b1 & b2 & E1 & E2).
  rewrite E in E2. injection E2 as <- _. eauto.
Qed.

Theorem rest_half A L u o m punct parts lb tokens spare maxWidth W ord :
  plainCall A L u o m punct parts lb tokens spare maxWidth W ord ->
  fle A (k_tolerance (l_search o)) (fHalf A) = true ->
  forall ls lb', leftAlignUniform A u ord spare lb tokens maxWidth = Ret (Some ls, lb') ->
  exists segs, ls = map (lineText (l_renderHyphens o)) segs /\
  layout (negb (feq A (l_hyphenPenalty o) (fZ A 10000))) (fragsOf u o punct parts tokens) segs /\
  forall pre post t1 t2, segs = pre ++ post -> tokens = t1 ++ t2 -> t1 <> [] -> t2 <> [] -> length (concat post) = length (fragsOf u o punct parts t2) ->
    startsWithMark (fragsOf u o punct parts t2) = false ->
    forall lb2 spare2 ord2, plainCall A L u o m punct parts lb2 t2 spare2 maxWidth W ord2 ->
    exists lb2', leftAlignUniform A u ord2 spare2 lb2 t2 maxWidth = Ret (Some (map (lineText (l_renderHyphens o)) post), lb2').
Proof.
  intros C Hh ls lb' E. destruct (align_rest _ _ _ _ _ _ _ _ _ _ _ _ _ C ls lb' E) as (segs & H1 & H2 & H3). exists segs. split; [exact H1|]. split; [exact H2|].
  intros pre post t1 t2 Hs Ht Hn1 Hn2 Hlen Hm lb2 spare2 ord2 C2. apply (sure_order _ _ _ _ _ _ _ _ _ _ _ _ _ _ C2 Hh).
  exact (H3 pre post t1 t2 Hs Ht Hn1 Hn2 Hlen Hm lb2 spare2 ord2 C2).
Qed.
Theorem rest_half_words A L u o m punct parts lb tokens spare maxWidth W ord :
  plainCall A L u o m punct parts lb tokens spare maxWidth W ord -> l_punctuator o = defaultPunctuator u ->
  fle A (k_tolerance (l_search o)) (fHalf A) = true ->
  Forall (fun t => Forall (fun r => punctSplitFunc u r = false) t /\ (l_wordBreak o = true -> zlen t <= 4)) tokens ->
  forall ls lb', leftAlignUniform A u ord spare lb tokens maxWidth = Ret (Some ls, lb') ->
  exists gs, concat gs = tokens /\ ls = map (joinWith 32) gs /\
  forall g1 g2, gs = g1 ++ g2 -> g2 <> [] ->
    forall lb2 spare2 ord2, plainCall A L u o m punct parts lb2 (concat g2) spare2 maxWidth W ord2 ->
    exists lb2', leftAlignUniform A u ord2 spare2 lb2 (concat g2) maxWidth = Ret (Some (map (joinWith 32) g2), lb2').
Proof.
  intros C Hp Hh Hw ls lb' E. destruct (align_rest_words _ _ _ _ _ _ _ _ _ _ _ _ _ C Hp Hw ls lb' E) as (gs & H1 & H2 & H3). exists gs. split; [exact H1|]. split; [exact H2|].
  intros g1 g2 Hg Hn lb2 spare2 ord2 C2. apply (sure_order _ _ _ _ _ _ _ _ _ _ _ _ _ _ C2 Hh). exact (H3 g1 g2 Hg Hn lb2 spare2 ord2 C2).
Qed.
