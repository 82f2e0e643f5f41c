(** Numbers of lines compared: tolerance, word breaking, scale factors, the beginning of a text. *)
From Coq Require Import Permutation.
From Verif Require Import Base Arith Unicode Split SpecSplit SplitProofs Ansi SpecAnsi AnsiProofs Attr Hyph KP Nodes Render SpecKP Tokens Align
  Options Call Settings AlignProofs Fresh Succeed Compare Sub SpecGreedy Greedy Fewest Again SpecFormat Format GreedyFormat.
Open Scope Z_scope.

(** [gentle]: what C91 asks of the text *)
Definition gentle (A : arith) (u : unicode) (o : lopts A) (m : list rune -> Z) (punct parts : list rune -> list (list rune)) (tokens : list (list rune)) : Prop :=
  fle A (fZ A 0) (k_tolerance (l_search o)) = true /\
  marksGlued (negb (feq A (l_hyphenPenalty o) (fZ A 10000))) (fragsOf u o punct parts tokens) /\
  (l_renderHyphens o = true -> Forall (fun f => hyphenW o m <= m (f_text f)) (fragsOf u o punct parts tokens)).

Lemma count A L u o m punct parts lb tokens spare maxWidth W ord k segs :
  plainCall A L u o m punct parts lb tokens spare maxWidth W ord -> gentle A u o m punct parts tokens ->
  layout (negb (feq A (l_hyphenPenalty o) (fZ A 10000))) (fragsOf u o punct parts tokens) segs /\
  linesOk (l_renderHyphens o) m (m [32]) (hyphenW o m) A (k_tolerance (l_search o)) W true segs = true /\ (length segs <= k)%nat ->
  exists ls ord' lb', (forall i k, Permutation (ord' i k) [C0; C1; C2; C3]) /\
    leftAlignUniform A u ord' spare lb tokens maxWidth = Ret (Some ls, lb') /\ (length ls <= k)%nat.
Proof.
  intros C (H1 & H2 & H3) (H4 & H5 & H6). destruct (align_fewest _ _ _ _ _ _ _ _ _ _ _ _ _ C H1 H2 H3 segs H4 H5) as (ls & ord' & lb' & E1 & E2 & E3).
  exists ls, ord', lb'. split; [exact E1|]. split; [exact E2|lia].
Qed.

Theorem tolerance_count A L u opts t1 t2 m punct parts tokens maxWidth W lb1 spare1 ord1 lb2 spare2 ord2 :
  plainCall A L u (newWith A u opts (WithTolerance t1)) m punct parts lb1 tokens spare1 maxWidth W ord1 ->
  plainCall A L u (newWith A u opts (WithTolerance t2)) m punct parts lb2 tokens spare2 maxWidth W ord2 ->
  fle A t1 t2 = true -> gentle A u (newWith A u opts (WithTolerance t2)) m punct parts tokens ->
  forall ls lb1', leftAlignUniform A u ord1 spare1 lb1 tokens maxWidth = Ret (Some ls, lb1') ->
  exists ls2 ord lb2', (forall i k, Permutation (ord i k) [C0; C1; C2; C3]) /\
    leftAlignUniform A u ord spare2 lb2 tokens maxWidth = Ret (Some ls2, lb2') /\ (length ls2 <= length ls)%nat.
Proof.
  intros C1 C2 Ht G ls lb1' E1. destruct (align_sound _ _ _ _ _ _ _ _ _ _ _ _ _ C1 _ _ E1) as (segs & -> & Hl & Hok).
  apply (count _ _ _ _ _ _ _ _ _ _ _ _ _ _ segs C2 G).
  destruct (tolerance_layout A L u opts t1 t2 m punct parts tokens W segs Ht Hl Hok) as [H1 H2]. rewrite map_length. auto.
Qed.
Theorem wordbreak_count A L u opts m punct parts tokens maxWidth W lb1 spare1 ord1 lb2 spare2 ord2 :
  plainCall A L u (newWith A u opts (WithWordBreak false)) m punct parts lb1 tokens spare1 maxWidth W ord1 ->
  plainCall A L u (newWith A u opts (WithWordBreak true)) m punct parts lb2 tokens spare2 maxWidth W ord2 ->
  (forall a b, m (a ++ b) = m a + m b) -> hyphenFree punct tokens -> gentle A u (newWith A u opts (WithWordBreak true)) m punct parts tokens ->
  forall ls lb1', leftAlignUniform A u ord1 spare1 lb1 tokens maxWidth = Ret (Some ls, lb1') ->
  exists ls2 ord lb2', (forall i k, Permutation (ord i k) [C0; C1; C2; C3]) /\
    leftAlignUniform A u ord spare2 lb2 tokens maxWidth = Ret (Some ls2, lb2') /\ (length ls2 <= length ls)%nat.
Proof.
  intros C1 C2 Hm Hf G ls lb1' E1. destruct (align_sound _ _ _ _ _ _ _ _ _ _ _ _ _ C1 _ _ E1) as (segs & -> & Hl & Hok).
  destruct (wordbreak_layout _ _ _ _ _ _ _ _ _ _ _ _ _ C2 Hm Hf segs Hl Hok) as (segs2 & H1 & H2 & H3).
  apply (count _ _ _ _ _ _ _ _ _ _ _ _ _ _ segs2 C2 G). rewrite map_length. split; [exact H1|]. split; [exact H2|lia].
Qed.
Theorem scale_count A L u opts x1 x2 k1 k2 m punct parts tokens maxWidth n lb1 spare1 ord1 lb2 spare2 ord2 :
  plainCall A L u (newWith A u opts (WithScaleFactor x1)) (fun t => k1 * m t) punct parts lb1 tokens spare1 maxWidth (k1 * n) ord1 ->
  plainCall A L u (newWith A u opts (WithScaleFactor x2)) (fun t => k2 * m t) punct parts lb2 tokens spare2 maxWidth (k2 * n) ord2 ->
  1 <= k2 <= k1 -> gentle A u (newWith A u opts (WithScaleFactor x2)) (fun t => k2 * m t) punct parts tokens ->
  forall ls lb1', leftAlignUniform A u ord1 spare1 lb1 tokens maxWidth = Ret (Some ls, lb1') ->
  exists ls2 ord lb2', (forall i k, Permutation (ord i k) [C0; C1; C2; C3]) /\
    leftAlignUniform A u ord spare2 lb2 tokens maxWidth = Ret (Some ls2, lb2') /\ (length ls2 <= length ls)%nat.
Proof.
  intros C1 C2 Hk G ls lb1' E1. destruct (align_sound _ _ _ _ _ _ _ _ _ _ _ _ _ C1 _ _ E1) as (segs & -> & Hl & Hok).
  assert (forall t, 0 <= m t) as Hm.
  { intros t. pose proof (proj1 (se_measure _ _ _ _ _ _ _ (pc_settings _ _ _ _ _ _ _ _ _ _ _ _ _ C1) t)). cbn beta in *. nia. }
  apply (count _ _ _ _ _ _ _ _ _ _ _ _ _ _ segs C2 G).
  destruct (scale_layout A L u opts x1 x2 k1 k2 m punct parts tokens n segs Hm Hk) as [H1 H2]; [apply (pc_bounds _ _ _ _ _ _ _ _ _ _ _ _ _ C1)|exact Hl|exact Hok|].
  rewrite map_length. auto.
Qed.
Theorem beginning_count A L u o m punct parts t1 t2 maxWidth W lb1 spare1 ord1 lb2 spare2 ord2 :
  plainCall A L u o m punct parts lb1 (t1 ++ t2) spare1 maxWidth W ord1 ->
  plainCall A L u o m punct parts lb2 t1 spare2 maxWidth W ord2 ->
  fle A (fdiv A (fZ A W) (fZ A 9994)) (k_tolerance (l_search o)) = true -> gentle A u o m punct parts t1 ->
  forall ls lb1', leftAlignUniform A u ord1 spare1 lb1 (t1 ++ t2) maxWidth = Ret (Some ls, lb1') ->
  exists ls2 ord lb2', (forall i k, Permutation (ord i k) [C0; C1; C2; C3]) /\
    leftAlignUniform A u ord spare2 lb2 t1 maxWidth = Ret (Some ls2, lb2') /\ (length ls2 <= length ls)%nat.
Proof.
  intros C1 C2 Ht G ls lb1' E1. destruct (align_sound _ _ _ _ _ _ _ _ _ _ _ _ _ C1 _ _ E1) as (segs & -> & Hl & Hok).
  destruct (beginning_layout _ _ _ _ _ _ _ _ t2 _ _ _ _ _ C2 Ht segs Hl Hok) as (segs2 & H1 & H2 & H3).
  apply (count _ _ _ _ _ _ _ _ _ _ _ _ _ _ segs2 C2 G). rewrite map_length. auto.
Qed.

(** ** Formatted tokens *)
Theorem formatted_fewest A L u o m punct parts lb ts spare1 spare2 maxWidth W ord :
  plainCall A L u o m punct parts lb (map tokenText ts) spare2 maxWidth W ord ->
  (forall j x, nth_error ts j = Some x -> token A u o x (spare1 j) (spare2 j)) ->
  gentle A u o m punct parts (map tokenText ts) ->
  forall segs, layout (negb (feq A (l_hyphenPenalty o) (fZ A 10000))) (fragsOf u o punct parts (map tokenText ts)) segs ->
  linesOk (l_renderHyphens o) m (m [32]) (hyphenW o m) A (k_tolerance (l_search o)) W true segs = true ->
  exists ls ord' lb', (forall i k, Permutation (ord' i k) [C0; C1; C2; C3]) /\
    leftAlignUniform A u ord' spare1 lb (map tokenRunes ts) maxWidth = Ret (Some ls, lb') /\ (length ls <= length segs)%nat.
Proof.
  intros C Ht (G1 & G2 & G3) segs Hl Hok.
  assert (forall t, 0 <= m t) as Hm by (intros t; apply (se_measure _ _ _ _ _ _ _ (pc_settings _ _ _ _ _ _ _ _ _ _ _ _ _ C))).
  assert (0 <= hyphenW o m) as Hhy by (unfold hyphenW; destruct (l_wordBreak o); [apply Hm|lia]).
  assert (l_renderHyphens o = true -> forall f, In f (fragsOf u o punct parts (map tokenText ts)) -> hyphenW o m <= m (f_text f)) as Hth'
    by (intros Hr; specialize (G3 Hr); now rewrite Forall_forall in G3).
  destruct (fewest A L (l_renderHyphens o) (negb (feq A (l_hyphenPenalty o) (fZ A 10000))) m (m [32]) (hyphenW o m) (k_tolerance (l_search o)) W
    (fragsOf u o punct parts (map tokenText ts)) Hm (Hm _) Hhy (proj2 (pc_bounds _ _ _ _ _ _ _ _ _ _ _ _ _ C)) (tol_no _ _ _ _ _ _ _ _ _ _ _ _ _ C) G1 G2 Hth'
    segs Hl Hok) as (b & G & Hb).
  destruct (formatted_greedy A L u o m punct parts lb ts spare1 spare2 maxWidth W ord C Ht) as [_ K]. cbv zeta in K.
  destruct (K b G) as (ord' & ls & lb' & Ho & E & S). exists ls, ord', lb'. split; [exact Ho|]. split; [exact E|].
  assert (length ls = length b) as ->; [|exact Hb]. clear - S. induction S as [|? ? ? ? _ _ IH]; [reflexivity|]. cbn [length]. now rewrite IH.
Qed.
