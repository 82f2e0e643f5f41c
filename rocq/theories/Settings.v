(** The settings reached with the options of New. *)
From Verif Require Import Base Arith Unicode Split SpecSplit SplitProofs Width SpecWidth WidthProofs Hyph HyphProofs Dict Cache Lang PatUs KP Nodes Tokens Align Options Call.

(** [measures f mz]: f computes the integer width mz, which adds up. *)
Definition measures (A : arith) (L : laws A) (f : list rune -> go (F A)) (mz : list rune -> Z) : Prop :=
  (forall t, 0 <= mz t) /\ (forall a b, mz (a ++ b) = mz a + mz b) /\
  forall t, Forall okRune t -> mz t <= 2 ^ 51 -> exists x, f t = Ret x /\ rep A L x (mz t).
(** [cuts f g]: f cuts non-empty words into the non-empty parts given by g. *)
Definition cuts (f : splitFunc) (g : list rune -> list (list rune)) : Prop :=
  forall w, w <> [] -> f w = Ret (g w) /\ concat (g w) = w /\ Forall (fun p => p <> []) (g w).

(** [scaling x sc]: with the scale factor x, a width n becomes the integer sc n, and a space of width 1 is rendered as one
    space. *)
Record scaling (A : arith) (L : laws A) (x : F A) (sc : Z -> Z) : Prop := mkScaling {
  sc_bound : forall n, 0 <= n -> 0 <= sc n <= 2 ^ 20 * n;
  sc_pos : forall n, 0 < n -> 0 < sc n;
  sc_small : forall n, 0 <= n -> sc n <= 2 ^ 50 -> n <= 2 ^ 51;
  sc_exact : forall y n, 0 <= n -> sc n <= 2 ^ 50 -> rep A L y n -> rep A L (fround A (fmul A y x)) (sc n);
  sc_zero : forall y, rep A L y 0 -> fint A (fround A (fdiv A y x)) = 0;
  sc_one : forall y, rep A L y (sc 1) -> fint A (fround A (fdiv A y x)) = 1
}.
Lemma scaling_int A L x k : 1 <= k <= 2 ^ 20 -> rep A L x k -> scaling A L x (fun n => k * n).
Proof.
  intros Hk R. constructor.
  - intros n Hn. nia.
  - intros n Hn. nia.
  - intros n Hn H. nia.
  - intros y n Hn H Hy. apply rep_round. rewrite Z.mul_comm. apply rep_mul; [exact Hy|exact R|]. unfold exactZ. nia.
  - intros y Hy. apply (rep_int A L). apply rep_round. apply (rep_div A L y x 0 k); [exact Hy|exact R|lia|unfold exactZ; lia].
  - intros y Hy. apply (rep_int A L). apply rep_round. apply (rep_div A L y x 1 k); [|exact R|lia|unfold exactZ; lia].
    rewrite Z.mul_1_r in Hy. rewrite Z.mul_1_l. exact Hy.
Qed.

Definition okPenalty (A : arith) (L : laws A) (p : F A) : Prop := bnd A L 100 p /\
  feq A (fZ A 0) p = false /\ feq A (fZ A 200) p = false /\ feq A (fZ A 400) p = false.
(** Options with permissible values. *)
Definition okOption (A : arith) (L : laws A) (opt : lbOption A) : Prop :=
  match opt with
  | WithTolerance t => fle A (fZ A 10000) t = false
  | WithScaleFactor x => exists sc, scaling A L x sc
  | WithMeasurer f => exists mz, measures A L f mz /\ mz [32] = 1 /\ mz [45] <= 2 ^ 20
  | WithHyphenator (Some f) => exists g, cuts f g
  | WithPunctuator (Some f) => exists g, cuts f g
  | WithHyphenPenalty p => okPenalty A L p
  | _ => True
  end.

(** ** The default measurer and word breakers *)
Definition colWidth (r : rune) : Z := if r =? 0x2e3b then 0 else rwSpec r defo.
Definition cols (t : list rune) : Z := zsum (map colWidth t).
Lemma cols_app a b : cols (a ++ b) = cols a + cols b.
Proof. unfold cols. rewrite map_app. apply zsum_app. Qed.
Lemma cols_nonneg t : 0 <= cols t.
Proof.
  induction t as [|r t IH]; [cbn; lia|]. unfold cols in *. cbn [map]. change (zsum (?a :: ?l)) with (a + zsum l).
  unfold colWidth at 1. destruct (r =? 0x2e3b); [lia|]. pose proof (rwSpec_default_bounds r defo eq_refl). lia.
Qed.
Lemma default_measures A L : measures A L (defaultMeasurer A) cols.
Proof.
  split; [exact cols_nonneg|]. split; [exact cols_app|]. intros t Ht Hw. unfold defaultMeasurer.
  rewrite widths_default by (reflexivity || exact Ht). cbn [gbind]. fold colWidth. change (zsum (map _ t)) with (cols t).
  exists (fZ A (cols t)). split; [reflexivity|]. apply rep_Z. pose proof (cols_nonneg t). unfold exactZ. lia.
Qed.
Lemma default_punctuator u : cuts (defaultPunctuator u) (splitAt (punctSplitFunc u)).
Proof.
  intros w _. split; [apply punctuator_is|]. split; [apply splitAt_concat|apply splitAt_nonempty].
Qed.
Definition partsOf (f : splitFunc) (w : list rune) : list (list rune) := match f w with Ret ps => ps | Panic => [] end.
Lemma default_hyphenator u : cuts (defaultHyphenator u) (partsOf (defaultHyphenator u)).
Proof.
  intros w Hw. unfold partsOf, defaultHyphenator.
  destruct (breakWord_lossless u (loadFile u (defaultName usName) us_file) (mkHopts 4 2 2) w ltac:(cbn; lia)) as (ps & E & Hn & Hc & Hp).
  rewrite E. split; [reflexivity|]. split; [exact Hc|]. apply Forall_forall. intros p Hin Ep. subst p.
  apply in_split in Hin. destruct Hin as (pre & post & ->). destruct post as [|q post].
  - destruct pre as [|x pre] using rev_ind; [cbn in Hc; congruence|]. clear IHpre.
    destruct (Hp pre x [[]]) as [_ H]; [now rewrite <- app_assoc|discriminate|]. cbn in H. lia.
  - destruct (Hp pre [] (q :: post) eq_refl ltac:(discriminate)) as [H _]. cbn in H. lia.
Qed.

(** ** Any options *)
Record reached (A : arith) (L : laws A) (o : lopts A) : Prop := mkReached {
  re_tol : fle A (fZ A 10000) (k_tolerance (l_search o)) = false;
  re_scale : exists sc, scaling A L (l_scale o) sc;
  re_measure : exists mz, measures A L (l_measurer o) mz /\ mz [32] = 1 /\ mz [45] <= 2 ^ 20;
  re_hyph : exists g, cuts (l_hyphenator o) g;
  re_punct : exists g, cuts (l_punctuator o) g;
  re_pen : okPenalty A L (l_hyphenPenalty o)
}.
Lemma default_reached A L u : reached A L (defaultLopts A (defaultHyphenator u) (defaultPunctuator u)).
Proof.
  constructor; cbn [defaultLopts l_search l_measurer l_scale l_hyphenator l_punctuator l_hyphenPenalty k_tolerance].
  - apply (tol_inf A L).
  - exists (fun n => 1 * n). apply scaling_int; [lia|]. apply rep_Z. unfold exactZ. lia.
  - exists cols. split; [apply default_measures|]. split; [vm_compute; reflexivity|]. vm_compute. discriminate.
  - eexists. apply default_hyphenator.
  - eexists. apply default_punctuator.
  - assert (forall n, 0 <= n <= 1000 -> rep A L (fZ A n) n) as Z0 by (intros n Hn; apply rep_Z; unfold exactZ; lia).
    split; [apply bnd_rep with 300; [apply Z0|..]; lia|].
    rewrite (rep_eq A L _ _ 0 300), (rep_eq A L _ _ 200 300), (rep_eq A L _ _ 400 300) by (apply Z0; lia). auto.
Qed.
Lemma options_reached A L u opts : Forall (okOption A L) opts -> reached A L (withOptions A (defaultHyphenator u) (defaultPunctuator u) opts).
Proof.
  intros H. unfold withOptions. pose proof (default_reached A L u) as R. revert R. generalize (defaultLopts A (defaultHyphenator u) (defaultPunctuator u)).
  induction H as [|opt opts Ho _ IH]; intros o R; [exact R|]. cbn [fold_left]. apply IH. clear IH.
  destruct o as [[tol bad li fl fi] ms sc wb rh hp hh pp h p mi gl]. destruct R as [R1 R2 R3 R4 R5 R6].
  destruct opt as [t|x|b|f|[f|]|[f|]|q|b|q]; cbn in Ho; constructor; cbn in *; try assumption.
  - eexists. apply default_hyphenator.
  - eexists. apply default_punctuator.
Qed.

Lemma make_settings A L u opts sc mz pg hg : let o := withOptions A (defaultHyphenator u) (defaultPunctuator u) opts in
  fle A (fZ A 10000) (k_tolerance (l_search o)) = false -> scaling A L (l_scale o) sc ->
  measures A L (l_measurer o) mz -> mz [32] = 1 -> mz [45] <= 2 ^ 20 -> cuts (l_punctuator o) pg -> cuts (l_hyphenator o) hg ->
  okPenalty A L (l_hyphenPenalty o) -> settings A L u o (fun t => sc (mz t)) pg hg.
Proof.
  intros o R1 [C1 C2 C3 C4 C5 C6] R3 R4 R5 R7 R6 [R9 R10].
  assert (M := R3). destruct M as (M1 & M2 & M3).
  constructor.
  - exists opts. reflexivity.
  - exact R1.
  - exact R9.
  - intros _. exact R10.
  - exact R7.
  - intros _. exact R6.
  - intros t. pose proof (M1 t) as H0. split; [now apply C1|]. intros Ht Hb.
    destruct (M3 t Ht) as (x & E & Hx); [now apply C3|]. unfold measure. rewrite E. cbn [gbind]. eexists. split; [reflexivity|].
    now apply C4.
  - rewrite R4. pose proof (C1 1). pose proof (M1 [45]). pose proof (C1 (mz [45])). lia.
  - exact C5.
  - intros x Hx. apply C6. now rewrite <- R4.
Qed.
Theorem options_settings A L u opts : Forall (okOption A L) opts ->
  exists sc mz punct parts, scaling A L (l_scale (withOptions A (defaultHyphenator u) (defaultPunctuator u) opts)) sc /\
    measures A L (l_measurer (withOptions A (defaultHyphenator u) (defaultPunctuator u) opts)) mz /\ mz [32] = 1 /\ mz [45] <= 2 ^ 20 /\
    settings A L u (withOptions A (defaultHyphenator u) (defaultPunctuator u) opts) (fun t => sc (mz t)) punct parts.
Proof.
  intros H. destruct (options_reached A L u opts H) as [R1 (sc & R2) (mz & R3 & R4 & R5) (hg & R6) (pg & R7) R8].
  exists sc, mz, pg, hg. do 4 (split; [assumption|]). now apply make_settings.
Qed.
(** with an integral scale factor *)
Theorem options_settings_int A L u opts k : Forall (okOption A L) opts -> 1 <= k <= 2 ^ 20 ->
  rep A L (l_scale (withOptions A (defaultHyphenator u) (defaultPunctuator u) opts)) k ->
  exists mz punct parts, measures A L (l_measurer (withOptions A (defaultHyphenator u) (defaultPunctuator u) opts)) mz /\
    settings A L u (withOptions A (defaultHyphenator u) (defaultPunctuator u) opts) (fun t => k * mz t) punct parts.
Proof.
  intros H Hk R. destruct (options_reached A L u opts H) as [R1 _ (mz & R3 & R4 & R5) (hg & R6) (pg & R7) R8].
  exists mz, pg, hg. split; [assumption|]. apply (make_settings A L u opts (fun n => k * n)); auto. now apply scaling_int.
Qed.
(** the width given to LeftAlignUniform *)
Lemma scaled_width A L (o : lopts A) k n x : rep A L (l_scale o) k -> 1 <= k <= 2 ^ 20 -> rep A L x n -> 0 < n -> k * n <= 2 ^ 50 ->
  rep A L (scale A o x) (k * n).
Proof.
  intros Hk Hk1 Hx Hn Hb. unfold scale. apply rep_round. rewrite Z.mul_comm. apply rep_mul; [exact Hx|exact Hk|]. unfold exactZ. nia.
Qed.
