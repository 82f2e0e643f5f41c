(** LeftAlignUniform for a line breaker made with permissible options. *)
From Verif Require Import Base Arith Unicode Split SpecSplit SplitProofs Ansi SpecAnsi AnsiProofs Attr Hyph KP Nodes Render SpecKP Tokens Align
  Options Call Settings AlignProofs.

Section Fresh.
Variable A : arith.
Variable L : laws A.
Variable u : unicode.
Variable o : lopts A.
Variable m : list rune -> Z.
Variable punct parts : list rune -> list (list rune).
Hypothesis S : settings A L u o m punct parts.
Variable lb : breaker A.
Hypothesis U : usable A u o lb.
Variable tokens : list (list rune).
Variable spare : nat -> list rune.
Hypothesis Ht : plainTokens tokens spare.
Hypothesis Hne : tokens <> [] /\ Forall (fun t => t <> []) tokens.

Lemma nosoft_off : l_wordBreak o = false -> Forall (fun f => isSoft f = false) (fragsOf u o punct parts tokens).
Proof.
  intros E. unfold fragsOf. rewrite E. cbn [andb]. eapply Forall_impl; [|apply paragraph_origin].
  intros f [_ H]. unfold isSoft. destruct (f_joint f); try reflexivity. destruct (H eq_refl) as (w & _ & _ & H1 & _). discriminate.
Qed.
Lemma any_width m' : (forall a b, m' (a ++ b) = m' a + m' b) ->
  lineWidth (l_renderHyphens o) m' (m' [32]) (hyphenW o m') (fragsOf u o punct parts tokens) = m' (joinWith 32 tokens).
Proof.
  intros Hm'. rewrite (width_text _ m' (m' [32]) (hyphenW o m') Hm'); [|reflexivity|].
  - f_equal. destruct (frs_text A L u o m punct parts S lb U tokens Hne) as (_ & _ & <-).
    destruct (frs_shape A L u o m punct parts S lb U tokens spare Ht Hne) as (ini & f & -> & Hf & _).
    rewrite lineText_snoc. unfold paraText. rewrite flat_map_app.
    cbn [flat_map]. unfold fragText at 3, isSoft, isSpaced. now rewrite Hf, andb_false_r, !app_nil_r.
  - intros _ f Hf Hsoft. unfold hyphenW. destruct (l_wordBreak o) eqn:Ew; [reflexivity|exfalso].
    pose proof (nosoft_off Ew) as N. rewrite Forall_forall in N. rewrite (N f Hf) in Hsoft. discriminate.
Qed.
Lemma make_call W maxWidth ord : (forall a b, m (a ++ b) = m a + m b) -> m (joinWith 32 tokens) <= 2 ^ 50 ->
  rep A L (scale A o maxWidth) W -> 0 < W <= 2 ^ 50 ->
  (forall i k c, In c (ord i k)) -> plainCall A L u o m punct parts lb tokens spare maxWidth W ord.
Proof. intros Hm H1 H2 H3 H4. constructor; try assumption. now rewrite any_width. Qed.
Lemma lineWidth_mono rh m1 m2 s1 s2 h1 h2 fs : (forall t, m1 t <= m2 t) -> s1 <= s2 -> h1 <= h2 ->
  lineWidth rh m1 s1 h1 fs <= lineWidth rh m2 s2 h2 fs.
Proof.
  intros H1 H2 H3. induction fs as [|f fs IH]; [cbn; lia|]. pose proof (H1 (f_text f)). cbn [lineWidth].
  destruct fs as [|g fs]; [destruct (rh && isSoft f); lia|]. destruct (isSpaced f); lia.
Qed.
(** the same for widths that do not add up exactly *)
Lemma make_call_below m' W maxWidth ord : (forall a b, m' (a ++ b) = m' a + m' b) -> (forall t, m t <= m' t) ->
  m' (joinWith 32 tokens) <= 2 ^ 50 -> rep A L (scale A o maxWidth) W -> 0 < W <= 2 ^ 50 ->
  (forall i k c, In c (ord i k)) -> plainCall A L u o m punct parts lb tokens spare maxWidth W ord.
Proof.
  intros Hm Hle H1 H2 H3 H4. constructor; try assumption. rewrite <- (any_width m' Hm) in H1. eapply Z.le_trans; [|exact H1].
  apply lineWidth_mono; [exact Hle|apply Hle|]. unfold hyphenW. destruct (l_wordBreak o); [apply Hle|lia].
Qed.
End Fresh.

(** New never fails with permissible options, and any later call is a [plainCall]. *)
Theorem options_call A L u opts : Forall (okOption A L) opts ->
  let o := withOptions A (defaultHyphenator u) (defaultPunctuator u) opts in
  exists lb0, newLineBreaker A u opts = Ret lb0 /\ usable A u o lb0 /\
  exists sc mz punct parts, scaling A L (l_scale o) sc /\ measures A L (l_measurer o) mz /\
    forall lb tokens spare maxWidth n ord, usable A u o lb -> plainTokens tokens spare -> tokens <> [] /\ Forall (fun t => t <> []) tokens ->
      mz (joinWith 32 tokens) <= 2 ^ 30 -> rep A L maxWidth n -> 0 < n <= 2 ^ 30 -> (forall i k c, In c (ord i k)) ->
      plainCall A L u o (fun t => sc (mz t)) punct parts lb tokens spare maxWidth (sc n) ord.
Proof.
  intros H o. destruct (options_settings A L u opts H) as (sc & mz & punct & parts & R & M & Hs & _ & S). fold o in R, M, S.
  destruct (settings_new A L u o _ punct parts S) as (sp & hy & E & _).
  exists (mkBreaker o sp hy []). split; [exact E|]. split; [now constructor|]. exists sc, mz, punct, parts. split; [exact R|]. split; [exact M|].
  intros lb tokens spare maxWidth n ord U Ht Hne Hw Hn Hn2 Hord. pose proof M as (M1 & M2 & _). pose proof (M1 (joinWith 32 tokens)).
  destruct R as [C1 C2 C3 C4 C5 C6].
  apply make_call_below with (m' := fun t => 2 ^ 20 * mz t); try assumption.
  - intros a b. rewrite M2. lia.
  - intros t. apply C1, M1.
  - lia.
  - unfold scale. apply C4; [lia| |exact Hn]. pose proof (C1 n). lia.
  - pose proof (C1 n). pose proof (C2 n). lia.
Qed.
(** C45, with the measurer of the options and an integral scale factor *)
Theorem options_width A L u opts k : Forall (okOption A L) opts ->
  let o := withOptions A (defaultHyphenator u) (defaultPunctuator u) opts in
  1 <= k <= 2 ^ 20 -> rep A L (l_scale o) k ->
  exists mz, measures A L (l_measurer o) mz /\
  forall lb tokens spare maxWidth n ord ls lb', usable A u o lb -> plainTokens tokens spare -> tokens <> [] /\ Forall (fun t => t <> []) tokens ->
    mz (joinWith 32 tokens) <= 2 ^ 30 -> rep A L maxWidth n -> 0 < n <= 2 ^ 30 -> (forall i k c, In c (ord i k)) ->
    leftAlignUniform A u ord spare lb tokens maxWidth = Ret (Some ls, lb') -> Forall (fun l => mz l <= n) ls.
Proof.
  intros H o Hk R. destruct (options_settings_int A L u opts k H Hk R) as (mz & punct & parts & M & S). fold o in M, S. exists mz. split; [exact M|].
  intros lb tokens spare maxWidth n ord ls lb' U Ht Hne Hw Hn Hn2 Hord E. pose proof M as (M1 & M2 & _). pose proof (M1 (joinWith 32 tokens)).
  assert (plainCall A L u o (fun t => k * mz t) punct parts lb tokens spare maxWidth (k * n) ord) as K.
  { apply make_call; try assumption.
    - intros a b. rewrite M2. lia.
    - nia.
    - apply scaled_width; try assumption; nia.
    - nia. }
  eapply Forall_impl; [|eapply (align_width _ _ _ _ _ _ _ _ _ _ _ _ _ K); [|exact E]].
  - cbn beta. intros l Hl. nia.
  - intros a b. cbn beta. rewrite M2. lia.
Qed.
(** C50 with the default tolerance, in unscaled widths *)
Theorem options_one_line A L u opts : Forall (okOption A L) opts ->
  let o := withOptions A (defaultHyphenator u) (defaultPunctuator u) opts in
  k_tolerance (l_search o) = fTolerance A -> l_scale o = fZ A 1 ->
  exists mz, measures A L (l_measurer o) mz /\
  forall lb tokens spare maxWidth n ord, usable A u o lb -> plainTokens tokens spare -> tokens <> [] /\ Forall (fun t => t <> []) tokens ->
    rep A L maxWidth n -> 0 < n <= 4997 -> mz (joinWith 32 tokens) <= n -> (forall i k c, In c (ord i k)) ->
    exists lb', leftAlignUniform A u ord spare lb tokens maxWidth = Ret (Some [joinWith 32 tokens], lb').
Proof.
  intros H o Et Es.
  assert (rep A L (l_scale o) 1) as R by (rewrite Es; apply rep_Z; unfold exactZ; lia).
  destruct (options_settings_int A L u opts 1 H ltac:(lia) R) as (mz & punct & parts & M & S). fold o in M, S.
  exists mz. split; [exact M|]. intros lb tokens spare maxWidth n ord U Ht Hne Hn Hn2 Hw Hord.
  pose proof M as (M1 & M2 & _). pose proof (M1 (joinWith 32 tokens)).
  assert (plainCall A L u o (fun t => 1 * mz t) punct parts lb tokens spare maxWidth (1 * n) ord) as K.
  { apply make_call; try assumption; try lia.
    - intros a b. rewrite M2. lia.
    - apply scaled_width; try assumption; lia. }
  eapply (align_one_line _ _ _ _ _ _ _ _ _ _ _ _ _ K); [lia|]. eapply (fit_ok _ _ _ _ _ _ _ _ _ _ _ _ _ K); [exact Et| |lia|lia].
  intros a b. cbn beta. rewrite M2. lia.
Qed.
