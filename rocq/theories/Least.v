(** With a tolerance of at most 1/2, what holds of the number of lines for some iteration order of the map holds for every
    order. *)
From Verif Require Import Base Arith Unicode Split SpecSplit SpecAnsi Hyph Nodes KP Render SpecKP SpecGreedy Align Options Call Settings
  AlignProofs Fresh Succeed Compare Counts Sure.
From Coq Require Import Permutation.
Open Scope Z_scope.

Lemma any_order A L u o m punct parts lb tokens spare maxWidth W ord ord' :
  plainCall A L u o m punct parts lb tokens spare maxWidth W ord -> (forall i k, Permutation (ord' i k) [C0; C1; C2; C3]) ->
  plainCall A L u o m punct parts lb tokens spare maxWidth W ord'.
Proof.
  intros [H1 H2 H3 H4 H5 H6 H7 _] Hp. constructor; try assumption. intros i k c.
  apply (Permutation_in c (Permutation_sym (Hp i k))). destruct c; cbn; tauto.
Qed.

Lemma every_order A L u o m punct parts lb tokens spare maxWidth W ord k :
  plainCall A L u o m punct parts lb tokens spare maxWidth W ord ->
  fle A (k_tolerance (l_search o)) (fHalf A) = true ->
  (exists ls ord' lb', (forall i k, Permutation (ord' i k) [C0; C1; C2; C3]) /\
    leftAlignUniform A u ord' spare lb tokens maxWidth = Ret (Some ls, lb') /\ (length ls <= k)%nat) ->
  exists ls lb', leftAlignUniform A u ord spare lb tokens maxWidth = Ret (Some ls, lb') /\ (length ls <= k)%nat.
Proof.
  intros C Hh (ls & ord' & lb' & Hp & E & Hk). pose proof (any_order _ _ _ _ _ _ _ _ _ _ _ _ _ _ C Hp) as C'.
  destruct (align_half A L u o m punct parts tokens maxWidth W lb spare ord lb spare ord' C C' Hh) as (res & b1 & b2 & E1 & E2).
  rewrite E in E2. injection E2 as <- _. eauto.
Qed.

Theorem align_least A L u o m punct parts lb tokens spare maxWidth W ord :
  plainCall A L u o m punct parts lb tokens spare maxWidth W ord ->
  fle A (k_tolerance (l_search o)) (fHalf A) = true -> gentle A u o m punct parts tokens ->
  forall segs, layout (negb (feq A (l_hyphenPenalty o) (fZ A 10000))) (fragsOf u o punct parts tokens) segs ->
  linesOk (l_renderHyphens o) m (m [32]) (hyphenW o m) A (k_tolerance (l_search o)) W true segs = true ->
  exists ls lb', leftAlignUniform A u ord spare lb tokens maxWidth = Ret (Some ls, lb') /\ (length ls <= length segs)%nat.
Proof.
  intros C Hh G segs Hl Hok. apply (every_order _ _ _ _ _ _ _ _ _ _ _ _ _ _ C Hh).
  apply (count _ _ _ _ _ _ _ _ _ _ _ _ _ _ segs C G). auto.
Qed.

Theorem tolerance_least A L u opts t1 t2 m punct parts tokens maxWidth W lb1 spare1 ord1 lb2 spare2 ord2 :
  plainCall A L u (newWith A u opts (WithTolerance t1)) m punct parts lb1 tokens spare1 maxWidth W ord1 ->
  plainCall A L u (newWith A u opts (WithTolerance t2)) m punct parts lb2 tokens spare2 maxWidth W ord2 ->
  fle A t1 t2 = true -> fle A t2 (fHalf A) = true -> gentle A u (newWith A u opts (WithTolerance t2)) m punct parts tokens ->
  forall ls lb1', leftAlignUniform A u ord1 spare1 lb1 tokens maxWidth = Ret (Some ls, lb1') ->
  exists ls2 lb2', leftAlignUniform A u ord2 spare2 lb2 tokens maxWidth = Ret (Some ls2, lb2') /\ (length ls2 <= length ls)%nat.
Proof.
  intros C1 C2 Ht Hh G ls lb1' E1. apply (every_order _ _ _ _ _ _ _ _ _ _ _ _ _ _ C2).
  - unfold newWith, withOptions. rewrite fold_left_app. cbn [fold_left applyOption]. destruct (fold_left _ opts _) as [[]]. exact Hh.
  - exact (tolerance_count _ _ _ _ _ _ _ _ _ _ _ _ _ _ _ _ _ _ C1 C2 Ht G ls lb1' E1).
Qed.
Theorem wordbreak_least A L u opts m punct parts tokens maxWidth W lb1 spare1 ord1 lb2 spare2 ord2 :
  plainCall A L u (newWith A u opts (WithWordBreak false)) m punct parts lb1 tokens spare1 maxWidth W ord1 ->
  plainCall A L u (newWith A u opts (WithWordBreak true)) m punct parts lb2 tokens spare2 maxWidth W ord2 ->
  (forall a b, m (a ++ b) = m a + m b) -> hyphenFree punct tokens ->
  fle A (k_tolerance (l_search (newWith A u opts (WithWordBreak true)))) (fHalf A) = true ->
  gentle A u (newWith A u opts (WithWordBreak true)) m punct parts tokens ->
  forall ls lb1', leftAlignUniform A u ord1 spare1 lb1 tokens maxWidth = Ret (Some ls, lb1') ->
  exists ls2 lb2', leftAlignUniform A u ord2 spare2 lb2 tokens maxWidth = Ret (Some ls2, lb2') /\ (length ls2 <= length ls)%nat.
Proof.
  intros C1 C2 Hm Hf Hh G ls lb1' E1. apply (every_order _ _ _ _ _ _ _ _ _ _ _ _ _ _ C2 Hh).
  exact (wordbreak_count _ _ _ _ _ _ _ _ _ _ _ _ _ _ _ _ C1 C2 Hm Hf G ls lb1' E1).
Qed.
Theorem scale_least A L u opts x1 x2 k1 k2 m punct parts tokens maxWidth n lb1 spare1 ord1 lb2 spare2 ord2 :
  plainCall A L u (newWith A u opts (WithScaleFactor x1)) (fun t => k1 * m t) punct parts lb1 tokens spare1 maxWidth (k1 * n) ord1 ->
  plainCall A L u (newWith A u opts (WithScaleFactor x2)) (fun t => k2 * m t) punct parts lb2 tokens spare2 maxWidth (k2 * n) ord2 ->
  1 <= k2 <= k1 -> fle A (k_tolerance (l_search (newWith A u opts (WithScaleFactor x2)))) (fHalf A) = true ->
  gentle A u (newWith A u opts (WithScaleFactor x2)) (fun t => k2 * m t) punct parts tokens ->
  forall ls lb1', leftAlignUniform A u ord1 spare1 lb1 tokens maxWidth = Ret (Some ls, lb1') ->
  exists ls2 lb2', leftAlignUniform A u ord2 spare2 lb2 tokens maxWidth = Ret (Some ls2, lb2') /\ (length ls2 <= length ls)%nat.
Proof.
  intros C1 C2 Hk Hh G ls lb1' E1. apply (every_order _ _ _ _ _ _ _ _ _ _ _ _ _ _ C2 Hh).
  exact (scale_count _ _ _ _ _ _ _ _ _ _ _ _ _ _ _ _ _ _ _ _ C1 C2 Hk G ls lb1' E1).
Qed.
Theorem beginning_least A L u o m punct parts t1 t2 maxWidth W lb1 spare1 ord1 lb2 spare2 ord2 :
  plainCall A L u o m punct parts lb1 (t1 ++ t2) spare1 maxWidth W ord1 ->
  plainCall A L u o m punct parts lb2 t1 spare2 maxWidth W ord2 ->
  fle A (fdiv A (fZ A W) (fZ A 9994)) (k_tolerance (l_search o)) = true -> fle A (k_tolerance (l_search o)) (fHalf A) = true ->
  gentle A u o m punct parts t1 ->
  forall ls lb1', leftAlignUniform A u ord1 spare1 lb1 (t1 ++ t2) maxWidth = Ret (Some ls, lb1') ->
  exists ls2 lb2', leftAlignUniform A u ord2 spare2 lb2 t1 maxWidth = Ret (Some ls2, lb2') /\ (length ls2 <= length ls)%nat.
Proof.
  intros C1 C2 Ht Hh G ls lb1' E1. apply (every_order _ _ _ _ _ _ _ _ _ _ _ _ _ _ C2 Hh).
  exact (beginning_count _ _ _ _ _ _ _ _ _ _ _ _ _ _ _ _ _ C1 C2 Ht G ls lb1' E1).
Qed.
