(** When LeftAlignUniform succeeds, and how short its lines can be, with the default tolerance. *)
From Verif Require Import Base Arith Unicode Split SpecSplit SplitProofs Ansi SpecAnsi AnsiProofs Attr Hyph KP Nodes Render SpecKP Tokens Align
  Options Call Settings AlignProofs Fresh.

(** [mayStart c]: a line other than the first can start with c; [mayEnd rh c]: a line other than the last can end with c. *)
Definition mayStart (c : list frag) : Prop := startsWithMark c = false.
Definition mayEnd (rh : bool) (c : list frag) : Prop := rh = true \/ lastSoft c = false.

Section Fill.
Variable A : arith.
Variable L : laws A.
Variable rh softOn : bool.
Variable m : list rune -> Z.
Variable sp hy : Z.
Hypothesis Hm : forall t, 0 <= m t.
Hypothesis Hsp : 0 <= sp.
Hypothesis Hhy : 0 <= hy.
Variable W : Z.
Hypothesis HW : 0 < W <= 2 ^ 50.
Notation lineWidth := (lineWidth rh m sp hy).
Notation lineOk := (lineOk rh m sp hy A (fTolerance A) W).
Notation linesOk := (linesOk rh m sp hy A (fTolerance A) W).
Notation layout := (layout softOn).

Lemma lineWidth_pos c : 0 <= lineWidth c.
Proof.
  induction c as [|f c IH]; [cbn; lia|]. pose proof (Hm (f_text f)). cbn [SpecKP.lineWidth].
  destruct c; [destruct (rh && isSoft f); lia|destruct (isSpaced f); lia].
Qed.
Lemma lineWidth_app a b : lineWidth (a ++ b) <= lineWidth a + sp + lineWidth b.
Proof.
  pose proof (lineWidth_pos b) as Pb. induction a as [|f a IH]; [cbn; lia|]. destruct a as [|g a].
  - destruct b as [|h b].
    + rewrite app_nil_r. lia.
    + change (lineWidth ([f] ++ h :: b)) with (m (f_text f) + (if isSpaced f then sp else 0) + lineWidth (h :: b)).
      cbn [SpecKP.lineWidth]. destruct (isSpaced f), (rh && isSoft f); lia.
  - change (lineWidth ((f :: g :: a) ++ b)) with (m (f_text f) + (if isSpaced f then sp else 0) + lineWidth ((g :: a) ++ b)).
    change (lineWidth (f :: g :: a)) with (m (f_text f) + (if isSpaced f then sp else 0) + lineWidth (g :: a)). lia.
Qed.
Lemma ratio_ok w st : w <= W -> 0 < st <= 10000 -> 5 * (W - w) <= 43 * st -> 0 <= w ->
  within A (fTolerance A) (lineRatio A W w st) = true.
Proof.
  intros H1 H2 H3 H4. unfold within, lineRatio. destruct (Z.ltb_spec w W) as [H|H].
  - destruct (Z.ltb_spec 0 st) as [_|]; [|lia]. destruct (quo_low A L (W - w) st) as [_ ->]; [lia|lia|].
    rewrite (quo_tol A L) by lia. cbn [andb]. apply Z.leb_le. lia.
  - destruct (Z.ltb_spec W w) as [|_]; [lia|]. rewrite (tol_zero A L), andb_true_r.
    rewrite (rep_le A L _ _ (-1) 0); [reflexivity| |]; apply rep_Z; unfold exactZ; lia.
Qed.
(** lines other than the last are not short *)
Lemma inner_short b c : lineOk b false c = true -> W <= lineWidth c + 51.
Proof.
  unfold SpecKP.lineOk, within, lineRatio. pose proof (lineWidth_pos c). destruct (Z.ltb_spec (lineWidth c) W) as [H'|H']; [|lia].
  destruct (Z.ltb_spec 0 (lineStretch rh b false c)) as [Hs|Hs].
  - intros G. apply andb_prop in G. destruct G as [_ G].
    assert (lineStretch rh b false c <= 6).
    { unfold lineStretch. destruct (lastSoft c && negb rh), (negb b && startsWithMark c); lia. }
    rewrite (quo_tol A L) in G by lia. apply Z.leb_le in G. lia.
  - intros G. apply andb_prop in G. destruct G as [_ G]. pose proof (tol_inf A L). congruence.
Qed.
Lemma inner_exact b c : lineOk b false c = true -> ((negb b && startsWithMark c) || (lastSoft c && negb rh)) = true -> W <= lineWidth c.
Proof.
  unfold SpecKP.lineOk, within, lineRatio. destruct (Z.ltb_spec (lineWidth c) W) as [H'|H']; [|lia].
  intros G Hc. destruct (Z.ltb_spec 0 (lineStretch rh b false c)) as [Hs|Hs].
  - unfold lineStretch in Hs. destruct (lastSoft c && negb rh), (negb b && startsWithMark c); cbn in Hc; try discriminate; lia.
  - apply andb_prop in G. destruct G as [_ G]. pose proof (tol_inf A L). congruence.
Qed.

Hypothesis Hwide : W <= 85948.
Lemma last_ok b c : lineWidth c <= W -> b = true \/ mayStart c -> lineOk b true c = true.
Proof.
  intros H Hb. unfold SpecKP.lineOk. pose proof (lineWidth_pos c). apply ratio_ok; try assumption; unfold lineStretch.
  - destruct Hb as [->| ->]; rewrite ?andb_false_r; cbn [negb andb]; lia.
  - destruct Hb as [->| ->]; rewrite ?andb_false_r; cbn [negb andb]; lia.
Qed.
Lemma inner_ok b c : lineWidth c <= W -> W - lineWidth c <= 51 -> b = true \/ mayStart c -> mayEnd rh c -> lineOk b false c = true.
Proof.
  intros H H51 Hb He. unfold SpecKP.lineOk. pose proof (lineWidth_pos c).
  assert (lineStretch rh b false c = 6) as ->.
  { unfold lineStretch. assert ((lastSoft c && negb rh) = false) as -> by (destruct He as [->| ->]; [apply andb_false_r|reflexivity]).
    destruct Hb as [->| ->]; rewrite ?andb_false_r; reflexivity. }
  apply ratio_ok; lia.
Qed.

Lemma startsWithMark_app a b : a <> [] -> startsWithMark (a ++ b) = startsWithMark a.
Proof. destruct a; [congruence|reflexivity]. Qed.
Lemma lastSoft_app a b : b <> [] -> lastSoft (a ++ b) = lastSoft b.
Proof. intros Hb. destruct (exists_last Hb) as (x & f & ->). unfold lastSoft. now rewrite app_assoc, !rev_app_distr. Qed.

(** filling the lines *)
Definition fits (c : list frag) : Prop := lineWidth c <= W /\ lineWidth c + sp <= 52.
Lemma fill rest chunks : layout rest chunks -> forall pre f b, cuttable softOn f = true -> lineWidth (pre ++ [f]) <= W ->
  b = true \/ mayStart (pre ++ [f]) -> mayEnd rh (pre ++ [f]) ->
  Forall fits chunks -> Forall mayStart chunks -> Forall (mayEnd rh) chunks ->
  exists lines, layout ((pre ++ [f]) ++ rest) lines /\ linesOk b lines = true /\ (length lines <= S (length chunks))%nat.
Proof.
  induction 1 as [seg Hs|seg g rest lines Hc Hl IH]; intros pre f b Hf Hw Hb He Hfit Hst Hen;
    pose proof (Forall_inv Hfit) as [F1 F2]; pose proof (Forall_inv Hst) as S1; pose proof (Forall_inv Hen) as E1.
  - destruct (Z_le_gt_dec (lineWidth ((pre ++ [f]) ++ seg)) W) as [G|G].
    + exists [(pre ++ [f]) ++ seg]. split; [apply lay_last; now destruct pre|]. split; [|cbn [length]; lia]. apply last_ok; [exact G|].
      destruct Hb as [Hb|Hb]; [now left|right]. unfold mayStart. rewrite startsWithMark_app by (now destruct pre). exact Hb.
    + exists [pre ++ [f]; seg]. split; [apply lay_cut; [exact Hf|now apply lay_last]|]. split; [|cbn [length]; lia].
      change (lineOk b false (pre ++ [f]) && lineOk false true seg = true). rewrite inner_ok; try assumption.
      * apply last_ok; [exact F1|now right].
      * pose proof (lineWidth_app (pre ++ [f]) seg). lia.
  - inversion Hfit as [|x1 x2 _ Hfit']; subst. inversion Hst as [|y1 y2 _ Hst']; subst. inversion Hen as [|z1 z2 _ Hen']; subst.
    destruct (Z_le_gt_dec (lineWidth ((pre ++ [f]) ++ seg ++ [g])) W) as [G|G].
    + destruct (IH ((pre ++ [f]) ++ seg) g b) as (ls & L1 & L2 & L3); try assumption.
      * now rewrite <- app_assoc.
      * destruct Hb as [Hb|Hb]; [now left|right]. unfold mayStart in *. rewrite <- !app_assoc, app_assoc, startsWithMark_app by (now destruct pre). exact Hb.
      * unfold mayEnd in *. rewrite lastSoft_app in * by discriminate. exact E1.
      * exists ls. rewrite <- !app_assoc in *. split; [exact L1|]. split; [exact L2|]. cbn [length]. lia.
    + destruct (IH seg g false) as (ls & L1 & L2 & L3); try assumption; [now right|].
      exists ((pre ++ [f]) :: ls). split; [now apply lay_cut|]. split; [|cbn [length] in *; lia].
      destruct ls as [|l ls]; [inversion L1|].
      change (lineOk b false (pre ++ [f]) && linesOk false (l :: ls) = true). rewrite inner_ok; try assumption.
      pose proof (lineWidth_app (pre ++ [f]) (seg ++ [g])). lia.
Qed.
Theorem fill_count frs chunks : layout frs chunks -> Forall fits chunks -> Forall mayStart (tl chunks) -> Forall (mayEnd rh) chunks ->
  exists lines, layout frs lines /\ linesOk true lines = true /\ (length lines <= length chunks)%nat.
Proof.
  intros H Hfit Hst Hen. destruct H as [seg Hs|seg f rest lines Hc Hl]; pose proof (Forall_inv Hfit) as [F1 F2].
  - exists [seg]. split; [now apply lay_last|]. split; [|cbn [length]; lia]. apply last_ok; auto.
  - inversion Hfit as [|x1 x2 _ Hfit']; subst. inversion Hen as [|z1 z2 Z1 Hen']; subst. cbn [tl] in Hst.
    destruct (fill rest lines Hl seg f true) as (ls & L1 & L2 & L3); auto. exists ls. auto.
Qed.
Theorem fill_all frs chunks : layout frs chunks -> Forall fits chunks -> Forall mayStart (tl chunks) -> Forall (mayEnd rh) chunks ->
  exists lines, layout frs lines /\ linesOk true lines = true.
Proof. intros H1 H2 H3 H4. destruct (fill_count frs chunks H1 H2 H3 H4) as (ls & L1 & L2 & _). eauto. Qed.
End Fill.

Section Calls.
Variable A : arith.
Variable L : laws A.
Variable u : unicode.
Variable o : lopts A.
Variable m : list rune -> Z.
Variable punct parts : list rune -> list (list rune).
Variable lb : breaker A.
Variable tokens : list (list rune).
Variable spare : nat -> list rune.
Variable maxWidth : F A.
Variable W : Z.
Variable ord : nat -> nat -> list fclass.
Hypothesis C : plainCall A L u o m punct parts lb tokens spare maxWidth W ord.
Hypothesis Htol : k_tolerance (l_search o) = fTolerance A.
Notation rh := (l_renderHyphens o).
Notation softOn := (negb (feq A (l_hyphenPenalty o) (fZ A 10000))).
Notation frs := (fragsOf u o punct parts tokens).
Notation lineWidth := (lineWidth rh m (m [32]) (hyphenW o m)).
Notation align := (leftAlignUniform A u ord spare lb tokens maxWidth).

Lemma m_pos t : 0 <= m t. Proof. destruct C as [[] _ _ _ _ _ _ _]. apply se_measure. Qed.
Lemma hy_pos : 0 <= hyphenW o m. Proof. unfold hyphenW. destruct (l_wordBreak o); [apply m_pos|lia]. Qed.

Theorem align_succeeds segs : W <= 85948 -> layout softOn frs segs ->
  Forall (fun s => lineWidth s <= W /\ lineWidth s + m [32] <= 52) segs ->
  Forall (fun s => startsWithMark s = false) (tl segs) -> Forall (fun s => rh = true \/ lastSoft s = false) segs ->
  exists ls lb', align = Ret (Some ls, lb').
Proof.
  intros HW Hl H1 H2 H3. destruct (align_complete A L u o m punct parts lb tokens spare maxWidth W ord C) as (res & lb' & E & Hres).
  destruct res as [ls|]; [eauto|]. exfalso. apply (proj1 Hres eq_refl). rewrite Htol.
  apply (fill_all A L rh softOn m (m [32]) (hyphenW o m) m_pos (m_pos _) hy_pos W) with (chunks := segs); try assumption. apply C.
Qed.

(** lines are at most 51 short of the width; lines that cannot be stretched are full *)
Lemma lines_short segs : linesOk rh m (m [32]) (hyphenW o m) A (fTolerance A) W true segs = true ->
  forall pre s post, segs = pre ++ s :: post -> post <> [] -> W <= lineWidth s + 51 /\
    (pre <> [] /\ startsWithMark s = true \/ lastSoft s = true /\ rh = false -> W <= lineWidth s).
Proof.
  assert (forall segs b, linesOk rh m (m [32]) (hyphenW o m) A (fTolerance A) W b segs = true ->
    forall pre s post, segs = pre ++ s :: post -> post <> [] -> W <= lineWidth s + 51 /\
      ((b = false \/ pre <> []) /\ startsWithMark s = true \/ lastSoft s = true /\ rh = false -> W <= lineWidth s)) as K.
  { clear segs. intros segs. induction segs as [|c segs IH]; intros b H pre s post E Hp; [destruct pre; discriminate|].
    destruct segs as [|c2 segs]; [destruct pre as [|x [|y pre]]; cbn in E; try discriminate; injection E as _ <-; congruence|].
    change (lineOk rh m (m [32]) (hyphenW o m) A (fTolerance A) W b false c && linesOk rh m (m [32]) (hyphenW o m) A (fTolerance A) W false (c2 :: segs) = true) in H.
    apply andb_prop in H. destruct H as [H1 H2]. destruct pre as [|x pre].
    - cbn [app] in E. injection E as -> _. split.
      + apply (inner_short A L rh m (m [32]) (hyphenW o m) m_pos (m_pos _) hy_pos W (pc_bounds _ _ _ _ _ _ _ _ _ _ _ _ _ C) b). exact H1.
      + intros G. apply (inner_exact A L rh m (m [32]) (hyphenW o m) W b); [exact H1|]. destruct G as [[[->|N] ->]|[-> ->]]; [reflexivity|congruence|apply orb_true_r].
    - cbn [app] in E. injection E as _ E. destruct (IH false H2 pre s post E Hp) as [G1 G2]. split; [exact G1|]. intros G. apply G2.
      destruct G as [[_ G]|G]; [left; split; [now left|exact G]|now right]. }
  intros H pre s post E Hp. destruct (K segs true H pre s post E Hp) as [G1 G2]. split; [exact G1|]. intros G. apply G2.
  destruct G as [[G G']|G]; [left; split; [now right|exact G']|now right].
Qed.
Lemma seg_width (Hadd : forall a b, m (a ++ b) = m a + m b) s : (forall f, In f s -> In f frs) -> lineWidth s = m (lineText rh s).
Proof.
  intros Hin. apply (width_text rh m (m [32]) (hyphenW o m) Hadd); [reflexivity|]. intros _ f Hf Hsoft. unfold hyphenW.
  destruct (l_wordBreak o) eqn:Ew; [reflexivity|exfalso].
  pose proof (frs_nosoft A u o punct parts tokens Ew) as N. rewrite Forall_forall in N. rewrite (N f) in Hsoft; [discriminate|auto].
Qed.
Theorem align_ragged : (forall a b, m (a ++ b) = m a + m b) -> forall ls lb', align = Ret (Some ls, lb') ->
  forall pre l post, ls = pre ++ l :: post -> post <> [] -> W - 51 <= m l <= W.
Proof.
  intros Hadd ls lb' E pre l post El Hp. destruct (align_sound A L u o m punct parts lb tokens spare maxWidth W ord C _ _ E) as (segs & -> & Hl & Hok).
  rewrite Htol in Hok. destruct (map_eq_app _ _ _ _ El) as (p1 & p2 & -> & <- & E2). destruct p2 as [|s p2]; [discriminate|]. cbn [map] in E2.
  injection E2 as E2 E3. assert (p2 <> []) as Hp2 by (intros ->; cbn in E3; congruence).
  rewrite <- E2, <- seg_width; [|exact Hadd|].
  - split; [destruct (lines_short _ Hok p1 s p2 eq_refl Hp2); lia|]. pose proof (tol_inf A L) as Hti.
    pose proof (linesOk_width A rh m (m [32]) (hyphenW o m) (fTolerance A) W Hti _ _ Hok) as K. rewrite Forall_forall in K. apply K. apply in_or_app. right. now left.
  - intros f Hf. eapply layout_in; [exact Hl| |exact Hf]. apply in_or_app. right. now left.
Qed.

Theorem align_full ls lb' : align = Ret (Some ls, lb') -> exists segs, ls = map (lineText rh) segs /\ concat segs = frs /\
  forall pre s post, segs = pre ++ s :: post -> post <> [] ->
    pre <> [] /\ startsWithMark s = true \/ lastSoft s = true /\ rh = false -> lineWidth s = W.
Proof.
  intros E. destruct (align_sound A L u o m punct parts lb tokens spare maxWidth W ord C _ _ E) as (segs & -> & Hl & Hok).
  rewrite Htol in Hok. exists segs. split; [reflexivity|]. split; [now apply layout_ne in Hl|]. intros pre s post -> Hp H.
  destruct (lines_short _ Hok pre s post eq_refl Hp) as [_ K]. specialize (K H).
  pose proof (linesOk_width A rh m (m [32]) (hyphenW o m) (fTolerance A) W (tol_inf A L) _ _ Hok) as N. rewrite Forall_forall in N.
  specialize (N s ltac:(apply in_or_app; right; now left)). cbn beta in N. lia.
Qed.

(** one token after the other *)
Hypothesis Hadd : forall a b, m (a ++ b) = m a + m b.
Notation tf := (tokenFrags punct (splitAt isHyphenRune) parts (single (punctSplitFunc u)) (single isHyphenRune) (fun w => l_wordBreak o && negb (zlen w <=? 4))).
Fixpoint tokenSegs (ts : list (list rune)) : list (list frag) :=
  match ts with [] => [] | [t] => [endWith End_ (tf t)] | t :: ts' => endWith Space (tf t) :: tokenSegs ts' end.
Lemma tf_eq t : tf t = tokenFrags punct (splitAt isHyphenRune) parts (single (punctSplitFunc u)) (single isHyphenRune) (breakable A lb) t.
Proof.
  destruct C as [C1 C2 _ _ _ _ _ _]. destruct (settings_regular A L u o m punct parts C1 lb C2) as (_ & _ & E).
  destruct C1 as [(opts & Eo) _ _ _ _ _ _ _ _ _].
  destruct (options_fixed A (defaultHyphenator u) (defaultPunctuator u) opts) as (_ & _ & _ & F4 & _).
  rewrite <- Eo in F4. unfold breakable. rewrite E, F4. reflexivity.
Qed.
Lemma tf_shape t : t <> [] -> exists ini f, tf t = ini ++ [f] /\ paraText ini ++ f_text f = t /\ concat (map f_text (tf t)) = t.
Proof.
  intros Ht. rewrite tf_eq. destruct C as [C1 C2 _ _ _ _ _ _]. destruct (settings_regular A L u o m punct parts C1 lb C2) as (R & _ & E).
  destruct (tokenFrags_ok A L u lb m _ _ punct parts R t Ht) as [H1 H2].
  destruct (glued_unspaced _ (tokenFrags_glued A u lb punct parts (Hparts1 A L u lb m _ _ punct parts R) (Hpunct1 A L u lb m _ _ punct parts R) t Ht)) as (ini & f & E' & Hi).
  exists ini, (mkFrag (f_text f) (f_mark f) Glued). split; [exact E'|]. split; [|exact H2].
  rewrite E' in H2. rewrite textOf_app in H2. rewrite paraText_unspaced by exact Hi. cbn in H2. rewrite app_nil_r in H2. exact H2.
Qed.
Lemma tokenSegs_layout ts : ts <> [] -> Forall (fun t => t <> []) ts ->
  layout softOn (paragraph punct (splitAt isHyphenRune) parts (single (punctSplitFunc u)) (single isHyphenRune) (fun w => l_wordBreak o && negb (zlen w <=? 4)) ts) (tokenSegs ts).
Proof.
  intros Hn H. induction H as [|t ts Ht Hts IH]; [congruence|]. destruct (tf_shape t Ht) as (ini & f & E & _ & _). destruct ts as [|t2 ts].
  - cbn [paragraph tokenSegs]. rewrite E, endWith_snoc. apply lay_last. now destruct ini.
  - change (paragraph punct (splitAt isHyphenRune) parts (single (punctSplitFunc u)) (single isHyphenRune) (fun w => l_wordBreak o && negb (zlen w <=? 4)) (t :: t2 :: ts))
      with (endWith Space (tf t) ++ paragraph punct (splitAt isHyphenRune) parts (single (punctSplitFunc u)) (single isHyphenRune) (fun w => l_wordBreak o && negb (zlen w <=? 4)) (t2 :: ts)).
    change (tokenSegs (t :: t2 :: ts)) with (endWith Space (tf t) :: tokenSegs (t2 :: ts)). rewrite E, endWith_snoc.
    apply lay_cut; [unfold cuttable; cbn [f_mark f_joint]; apply orb_true_r|]. apply IH. discriminate.
Qed.
Lemma tokenSegs_in ts s : In s (tokenSegs ts) -> exists j t, In t ts /\ j <> Soft /\ s = endWith j (tf t).
Proof.
  induction ts as [|t ts IH]; [intros []|]. destruct ts as [|t2 ts].
  - intros [<-|[]]. exists End_, t. split; [now left|]. split; [discriminate|reflexivity].
  - change (tokenSegs (t :: t2 :: ts)) with (endWith Space (tf t) :: tokenSegs (t2 :: ts)). intros [<-|H].
    + exists Space, t. split; [now left|]. split; [discriminate|reflexivity].
    + destruct (IH H) as (j & t' & H1 & H2). exists j, t'. split; [now right|exact H2].
Qed.
Lemma tokenSegs_tl ts : tl (tokenSegs ts) = tokenSegs (tl ts).
Proof. destruct ts as [|t [|t2 ts]]; reflexivity. Qed.
Lemma tf_start r t j : punctSplitFunc u r = false -> isHyphenRune r = false -> startsWithMark (endWith j (tf (r :: t))) = false.
Proof.
  intros H1 H2. destruct (tf_shape (r :: t) ltac:(discriminate)) as (ini & f & E & _ & Et).
  destruct (tf (r :: t)) as [|g fs] eqn:Ef; [reflexivity|]. assert (f_mark g = false) as Hg.
  { destruct (f_mark g) eqn:Em; [exfalso|reflexivity].
    destruct (token_origin punct (splitAt isHyphenRune) parts (single (punctSplitFunc u)) (single isHyphenRune) (fun w => l_wordBreak o && negb (zlen w <=? 4)) (r :: t) g) as [K _]; [rewrite Ef; now left|].
    cbn [map concat] in Et. specialize (K Em). unfold single in K. destruct (f_text g) as [|r' [|? ?]]; [destruct K; discriminate| |destruct K; discriminate].
    cbn [app] in Et. injection Et as -> _. destruct K; congruence. }
  destruct fs as [|g2 fs]; cbn [endWith startsWithMark f_mark]; exact Hg.
Qed.
Theorem align_tokens : W <= 85948 -> Forall (fun t => m t <= W /\ m t + m [32] <= 52) tokens ->
  (forall r t, In (r :: t) (tl tokens) -> punctSplitFunc u r = false /\ isHyphenRune r = false) ->
  exists ls lb', align = Ret (Some ls, lb').
Proof.
  intros HW Hfit Hst. destruct (pc_nonempty _ _ _ _ _ _ _ _ _ _ _ _ _ C) as [Hn Hne].
  pose proof (tokenSegs_layout tokens Hn Hne) as Hl. fold (fragsOf u o punct parts tokens) in Hl.
  apply (align_succeeds (tokenSegs tokens)); [exact HW|exact Hl| | |].
  - apply Forall_forall. intros s Hs. destruct (tokenSegs_in _ _ Hs) as (j & t & Ht & Hj & ->). rewrite Forall_forall in Hne, Hfit.
    specialize (Hfit t Ht). destruct (tf_shape t (Hne t Ht)) as (ini & f & E & Et & _).
    assert (lineWidth (endWith j (tf t)) = m t) as ->; [|exact Hfit].
    rewrite seg_width; [|exact Hadd|intros g Hg; eapply layout_in; [exact Hl|exact Hs|exact Hg]].
    f_equal. rewrite E, endWith_snoc, lineText_snoc. cbn [f_text]. unfold isSoft. cbn [f_joint].
    destruct j; try congruence; rewrite andb_false_r, app_nil_r; exact Et.
  - rewrite tokenSegs_tl. apply Forall_forall. intros s Hs.
    destruct (tokenSegs_in _ _ Hs) as (j & t & Ht & _ & ->). destruct t as [|r t].
    + rewrite Forall_forall in Hne. destruct (Hne []); [|reflexivity]. clear -Ht. destruct tokens; [destruct Ht|now right].
    + destruct (Hst r t Ht). now apply tf_start.
  - apply Forall_forall. intros s Hs. destruct (tokenSegs_in _ _ Hs) as (j & t & Ht & Hj & ->). rewrite Forall_forall in Hne.
    destruct (tf_shape t (Hne t Ht)) as (ini & f & E & _). right. rewrite E, endWith_snoc. unfold lastSoft. rewrite rev_app_distr. cbn [rev app].
    unfold isSoft. cbn [f_joint]. now destruct j.
Qed.
End Calls.
