(** Scale factors compared; the beginnings of a text. *)
From Verif Require Import Base Arith Unicode Split SpecSplit SplitProofs Ansi SpecAnsi AnsiProofs Attr Hyph KP Nodes Render SpecKP Tokens Align
  Options Call Settings AlignProofs Fresh Succeed Compare.

Lemma linesOk_cons rh m sp hy A tol W b l ls : ls <> [] ->
  linesOk rh m sp hy A tol W b (l :: ls) = lineOk rh m sp hy A tol W b false l && linesOk rh m sp hy A tol W false ls.
Proof. destruct ls; [congruence|reflexivity]. Qed.
Lemma layout_some softOn fs segs : layout softOn fs segs -> segs <> [].
Proof. destruct 1; discriminate. Qed.

Section Widths.
Variable rh : bool.
Variable m : list rune -> Z.
Variable sp hy : Z.
Hypothesis Hm : forall t, 0 <= m t.
Hypothesis Hsp : 0 <= sp.
Hypothesis Hhy : 0 <= hy.
Lemma lineWidth_nonneg seg : 0 <= lineWidth rh m sp hy seg.
Proof.
  induction seg as [|f seg IH]; [cbn; lia|]. pose proof (Hm (f_text f)). destruct seg as [|g seg].
  - cbn [lineWidth]. destruct (rh && isSoft f); lia.
  - change (lineWidth rh m sp hy (f :: g :: seg)) with (m (f_text f) + (if isSpaced f then sp else 0) + lineWidth rh m sp hy (g :: seg)).
    destruct (isSpaced f); lia.
Qed.
Lemma lineWidth_cut ini z c : isSoft z = false -> lineWidth rh m sp hy (ini ++ [mkFrag (f_text z) (f_mark z) End_]) <= lineWidth rh m sp hy ((ini ++ [z]) ++ c).
Proof.
  intros Hz. induction ini as [|f ini IH].
  - cbn [app lineWidth]. unfold isSoft at 1. cbn [f_joint f_text]. rewrite andb_false_r. destruct c as [|g c].
    + rewrite Hz, andb_false_r. lia.
    + pose proof (lineWidth_nonneg (g :: c)). destruct (isSpaced z); lia.
  - assert (forall x y : list frag, x <> [] -> lineWidth rh m sp hy (f :: x) = m (f_text f) + (if isSpaced f then sp else 0) + lineWidth rh m sp hy x) as K.
    { intros x y Hx. destruct x; [congruence|reflexivity]. }
    cbn [app]. rewrite (K _ []) by (destruct ini; discriminate). rewrite (K _ []) by (destruct ini; discriminate). lia.
Qed.
Lemma lineWidth_scale k seg : lineWidth rh (fun t => k * m t) (k * sp) (k * hy) seg = k * lineWidth rh m sp hy seg.
Proof.
  induction seg as [|f seg IH]; [cbn; lia|]. destruct seg as [|g seg].
  - cbn [lineWidth]. destruct (rh && isSoft f); lia.
  - change (lineWidth rh (fun t => k * m t) (k * sp) (k * hy) (f :: g :: seg)) with
      (k * m (f_text f) + (if isSpaced f then k * sp else 0) + lineWidth rh (fun t => k * m t) (k * sp) (k * hy) (g :: seg)).
    rewrite IH. change (lineWidth rh m sp hy (f :: g :: seg)) with (m (f_text f) + (if isSpaced f then sp else 0) + lineWidth rh m sp hy (g :: seg)).
    destruct (isSpaced f); lia.
Qed.
End Widths.
Lemma stretch_bound rh b e seg : lineStretch rh b e seg <= 10000.
Proof. unfold lineStretch. destruct e, (lastSoft seg && negb rh), (negb b && startsWithMark seg); lia. Qed.

(** ** A smaller scale factor *)
Section Scale.
Variable A : arith.
Variable L : laws A.
Variable rh : bool.
Variable m : list rune -> Z.
Variable sp hy n k1 k2 : Z.
Variable tol : F A.
Hypothesis Hm : forall t, 0 <= m t.
Hypothesis Hsp : 0 <= sp.
Hypothesis Hhy : 0 <= hy.
Hypothesis Hk : 1 <= k2 <= k1.
Hypothesis Hn : k1 * n <= 2 ^ 50.
Notation ok k := (lineOk rh (fun t => k * m t) (k * sp) (k * hy) A tol (k * n)).
Lemma lineOk_scale b e seg : ok k1 b e seg = true -> ok k2 b e seg = true.
Proof.
  unfold lineOk. rewrite !lineWidth_scale. set (w := lineWidth rh m sp hy seg).
  assert (0 <= w) as Hw by now apply lineWidth_nonneg. pose proof (stretch_bound rh b e seg) as Hst. set (st := lineStretch rh b e seg) in *.
  assert (forall k x y, 1 <= k -> (k * x <? k * y) = (x <? y)) as K.
  { intros k x y H. destruct (Z.ltb_spec (k * x) (k * y)), (Z.ltb_spec x y); try reflexivity; nia. }
  unfold lineRatio. rewrite !K by lia. destruct (Z.ltb_spec w n) as [H|H].
  - destruct (Z.ltb_spec 0 st) as [Hs|Hs]; [|auto].
    unfold within. intros Ho. apply andb_prop in Ho. destruct Ho as [_ Ho].
    assert (0 < k2 * n - k2 * w <= k1 * n - k1 * w) as Hd by (rewrite <- !Z.mul_sub_distr_l; split; [apply Z.mul_pos_pos; lia|apply Z.mul_le_mono_nonneg_r; lia]).
    assert (k1 * n - k1 * w <= 2 ^ 50) as Hd2 by (pose proof (Z.mul_nonneg_nonneg k1 w ltac:(lia) Hw); lia).
    rewrite (proj2 (quo_low A L (k2 * n - k2 * w) st ltac:(lia) ltac:(lia))). cbn [andb].
    apply (le_trans A L) with (2 := Ho). apply (quo_mono A L); try lia.
    apply Z.mul_le_mono_nonneg_r; lia.
  - auto.
Qed.
Lemma linesOk_scale lines : forall b, linesOk rh (fun t => k1 * m t) (k1 * sp) (k1 * hy) A tol (k1 * n) b lines = true ->
  linesOk rh (fun t => k2 * m t) (k2 * sp) (k2 * hy) A tol (k2 * n) b lines = true.
Proof.
  induction lines as [|l lines IH]; intros b H; [reflexivity|]. destruct lines as [|l2 lines]; [now apply lineOk_scale|].
  rewrite linesOk_cons in * by discriminate. apply andb_prop in H. destruct H as [H1 H2]. now rewrite (IH _ H2), lineOk_scale.
Qed.
End Scale.
Lemma scale_layout A (L : laws A) u opts x1 x2 k1 k2 m punct parts tokens n segs :
  (forall t, 0 <= m t) -> 1 <= k2 <= k1 -> k1 * n <= 2 ^ 50 ->
  let o1 := newWith A u opts (WithScaleFactor x1) in let o2 := newWith A u opts (WithScaleFactor x2) in
  layout (negb (feq A (l_hyphenPenalty o1) (fZ A 10000))) (fragsOf u o1 punct parts tokens) segs ->
  linesOk (l_renderHyphens o1) (fun t => k1 * m t) (k1 * m [32]) (hyphenW o1 (fun t => k1 * m t)) A (k_tolerance (l_search o1)) (k1 * n) true segs = true ->
  layout (negb (feq A (l_hyphenPenalty o2) (fZ A 10000))) (fragsOf u o2 punct parts tokens) segs /\
  linesOk (l_renderHyphens o2) (fun t => k2 * m t) (k2 * m [32]) (hyphenW o2 (fun t => k2 * m t)) A (k_tolerance (l_search o2)) (k2 * n) true segs = true.
Proof.
  intros Hm Hk Hw o1 o2 Hl Hok. subst o1 o2. unfold newWith, withOptions, fragsOf, hyphenW in *. rewrite fold_left_app in *.
  destruct (fold_left _ opts _) as [[tol bad li fl fi] ms sc wb rh hp hh pp h p mi gl]. cbn in Hl, Hok |- *. split; [exact Hl|].
  pose proof (Hm [32]). pose proof (Hm [45]).
  destruct wb; [now apply (linesOk_scale A L rh m (m [32]) (m [45]) n k1 k2 tol Hm)|].
  replace 0 with (k1 * 0) in Hok by lia. replace 0 with (k2 * 0) by lia. apply (linesOk_scale A L rh m (m [32]) 0 n k1 k2 tol Hm); try lia. exact Hok.
Qed.
Theorem align_scale A L u opts x1 x2 k1 k2 m punct parts tokens maxWidth n lb1 spare1 ord1 lb2 spare2 ord2 :
  plainCall A L u (newWith A u opts (WithScaleFactor x1)) (fun t => k1 * m t) punct parts lb1 tokens spare1 maxWidth (k1 * n) ord1 ->
  plainCall A L u (newWith A u opts (WithScaleFactor x2)) (fun t => k2 * m t) punct parts lb2 tokens spare2 maxWidth (k2 * n) ord2 ->
  1 <= k2 <= k1 -> forall ls lb1', leftAlignUniform A u ord1 spare1 lb1 tokens maxWidth = Ret (Some ls, lb1') ->
  exists ls2 lb2', leftAlignUniform A u ord2 spare2 lb2 tokens maxWidth = Ret (Some ls2, lb2').
Proof.
  intros C1 C2 Hk ls lb1' E1. destruct (align_sound _ _ _ _ _ _ _ _ _ _ _ _ _ C1 _ _ E1) as (segs & _ & Hl & Hok).
  destruct (align_complete _ _ _ _ _ _ _ _ _ _ _ _ _ C2) as ([ls2|] & lb2' & E2 & Hn); [eauto|]. exfalso.
  assert (forall t, 0 <= m t) as Hm.
  { intros t. pose proof (proj1 (se_measure _ _ _ _ _ _ _ (pc_settings _ _ _ _ _ _ _ _ _ _ _ _ _ C1) t)). cbn beta in *. nia. }
  pose proof (pc_bounds _ _ _ _ _ _ _ _ _ _ _ _ _ C1) as Hw.
  apply (proj1 Hn eq_refl). exists segs. apply scale_layout with (x1 := x1) (k1 := k1); try assumption. lia.
Qed.

(** ** The beginning of a text *)
Lemma endWith_app j (a b : list frag) : b <> [] -> endWith j (a ++ b) = a ++ endWith j b.
Proof. intros Hb. induction a as [|f a IH]; [reflexivity|]. cbn [app endWith]. rewrite IH. destruct a, b; try congruence; reflexivity. Qed.
Section Prefix.
Variable A : arith.
Variable L : laws A.
Variable rh softOn : bool.
Variable m : list rune -> Z.
Variable sp hy W : Z.
Variable tol : F A.
Hypothesis Hm : forall t, 0 <= m t.
Hypothesis Hsp : 0 <= sp.
Hypothesis Hhy : 0 <= hy.
Hypothesis HW : 0 < W <= 2 ^ 50.
Hypothesis Hno : fle A (fZ A 10000) tol = false.
Hypothesis Hlast : fle A (fdiv A (fZ A W) (fZ A 9994)) tol = true.
Notation lineOk := (lineOk rh m sp hy A tol W).
Notation linesOk := (linesOk rh m sp hy A tol W).
Notation lineWidth := (lineWidth rh m sp hy).
Lemma lineOk_end b e seg seg' : lineOk b e seg = true -> lineWidth seg' <= lineWidth seg -> lineOk b true seg' = true.
Proof.
  unfold SpecKP.lineOk. pose proof (lineWidth_nonneg rh m sp hy Hm Hsp Hhy seg') as Hw. set (w := lineWidth seg). set (w' := lineWidth seg') in *.
  intros Ho Hle. unfold lineRatio in *.
  assert (9994 <= lineStretch rh b true seg' <= 10000) as Hst by (unfold lineStretch; destruct (negb b && startsWithMark seg'); lia).
  destruct (Z.ltb_spec W w) as [H|H].
  { exfalso. destruct (Z.ltb_spec w W); [lia|]. unfold within in Ho. rewrite Hno, andb_false_r in Ho. discriminate. }
  destruct (Z.ltb_spec w' W) as [H1|H1].
  - destruct (Z.ltb_spec 0 (lineStretch rh b true seg')); [|lia]. unfold within.
    rewrite (proj2 (quo_low A L (W - w') (lineStretch rh b true seg') ltac:(lia) ltac:(lia))). cbn [andb].
    apply (le_trans A L) with (2 := Hlast). apply (quo_mono A L); try lia. nia.
  - destruct (Z.ltb_spec W w'); [lia|]. destruct (Z.ltb_spec w W); [lia|]. exact Ho.
Qed.
Lemma prefix_ok segs all : layout softOn all segs -> forall ini z post b, all = (ini ++ [z]) ++ post -> isSoft z = false -> linesOk b segs = true ->
  exists segs', layout softOn (ini ++ [mkFrag (f_text z) (f_mark z) End_]) segs' /\ linesOk b segs' = true /\ (length segs' <= length segs)%nat.
Proof.
  intros Hl. induction Hl as [seg Hs|seg f rest lines Hc Hl IH]; intros ini z post b E Hz Hok.
  - exists [ini ++ [mkFrag (f_text z) (f_mark z) End_]]. split; [apply lay_last; now destruct ini|]. split; [|cbn; lia].
    apply (lineOk_end b true seg); [exact Hok|]. subst seg. now apply lineWidth_cut.
  - rewrite linesOk_cons in Hok by (eapply layout_some; exact Hl). apply andb_prop in Hok. destruct Hok as [Ho1 Ho2].
    apply app_eq_app in E. destruct E as (c & [[E1 E2]|[E1 E2]]).
    + exists [ini ++ [mkFrag (f_text z) (f_mark z) End_]]. split; [apply lay_last; now destruct ini|]. split; [|cbn; lia].
      apply (lineOk_end b false (seg ++ [f])); [exact Ho1|]. rewrite E1. now apply lineWidth_cut.
    + destruct c as [|z' c] using rev_ind.
      * exists [ini ++ [mkFrag (f_text z) (f_mark z) End_]]. split; [apply lay_last; now destruct ini|]. split; [|cbn; lia].
        apply (lineOk_end b false (seg ++ [f])); [exact Ho1|]. rewrite app_nil_r in E1. rewrite <- E1.
        rewrite <- (app_nil_r (ini ++ [z])). now apply lineWidth_cut.
      * clear IHc. rewrite app_assoc in E1. apply app_inj_tail in E1. destruct E1 as [-> <-].
        destruct (IH c z post false E2 Hz Ho2) as (segs' & H1 & H2 & H3). exists ((seg ++ [f]) :: segs'). split; [|split].
        -- rewrite <- app_assoc. now apply lay_cut.
        -- rewrite linesOk_cons by (eapply layout_some; exact H1). now rewrite Ho1.
        -- cbn [length]. lia.
Qed.
End Prefix.
Section Paragraph.
Variable punct dashes parts : list rune -> list (list rune).
Variable isMark isDash breakable : list rune -> bool.
Notation paragraph := (paragraph punct dashes parts isMark isDash breakable).
Lemma paragraph_app t1 t2 : t1 <> [] -> t2 <> [] -> Forall (fun t => tokenFrags punct dashes parts isMark isDash breakable t <> []) t1 ->
  paragraph (t1 ++ t2) = endWith Space (paragraph t1) ++ paragraph t2.
Proof.
  intros H1 H2 Hf. induction Hf as [|t ts Ht Hts IH]; [congruence|]. clear H1.
  destruct (exists_last Ht) as (x & y & E). destruct ts as [|t' ts].
  - destruct t2 as [|t2 ts2]; [congruence|]. cbn [app]. change (paragraph (t :: t2 :: ts2)) with
      (endWith Space (tokenFrags punct dashes parts isMark isDash breakable t) ++ paragraph (t2 :: ts2)). f_equal.
    cbn [SpecKP.paragraph]. rewrite E, !endWith_snoc'. reflexivity.
  - cbn [app]. change (paragraph (t :: t' :: ts ++ t2)) with
      (endWith Space (tokenFrags punct dashes parts isMark isDash breakable t) ++ paragraph ((t' :: ts) ++ t2)).
    rewrite IH by discriminate. change (paragraph (t :: t' :: ts)) with
      (endWith Space (tokenFrags punct dashes parts isMark isDash breakable t) ++ paragraph (t' :: ts)).
    rewrite endWith_app; [apply app_assoc|]. inversion Hts as [|? ? Ht' _]; subst. destruct (exists_last Ht') as (x' & y' & E').
    destruct ts; [cbn [SpecKP.paragraph]; rewrite E', endWith_snoc'; now destruct x'|].
    change (paragraph (t' :: l :: ts)) with (endWith Space (tokenFrags punct dashes parts isMark isDash breakable t') ++ paragraph (l :: ts)).
    rewrite E', endWith_snoc'. now destruct x'.
Qed.
End Paragraph.
Lemma frags_app A L u (o : lopts A) m punct parts lb t1 t2 spare : settings A L u o m punct parts -> usable A u o lb -> plainTokens t1 spare ->
  t1 <> [] -> t2 <> [] -> Forall (fun t => t <> []) t1 ->
  fragsOf u o punct parts (t1 ++ t2) = endWith Space (fragsOf u o punct parts t1) ++ fragsOf u o punct parts t2.
Proof.
  intros S U [P1 P2] H1 H2 Hne. unfold fragsOf. apply paragraph_app; [exact H1|exact H2|]. rewrite Forall_forall in *. intros t Hin.
  destruct (In_nth_error _ _ Hin) as (j & Ej).
  destruct (frs_shape A L u o m punct parts S lb U [t] (fun _ => spare j)) as (ini & f & E & _).
  - split; [constructor; [now apply P1|constructor]|]. intros [|i] t' Ei; [injection Ei as <-; now apply P2|destruct i; discriminate].
  - split; [discriminate|]. constructor; [now apply Hne|constructor].
  - intros N. unfold fragsOf in E. cbn [paragraph] in E. rewrite N in E. now destruct ini.
Qed.
Lemma beginning_layout A L u o m punct parts t1 t2 maxWidth W lb2 spare2 ord2 :
  plainCall A L u o m punct parts lb2 t1 spare2 maxWidth W ord2 ->
  fle A (fdiv A (fZ A W) (fZ A 9994)) (k_tolerance (l_search o)) = true ->
  forall segs, layout (negb (feq A (l_hyphenPenalty o) (fZ A 10000))) (fragsOf u o punct parts (t1 ++ t2)) segs ->
  linesOk (l_renderHyphens o) m (m [32]) (hyphenW o m) A (k_tolerance (l_search o)) W true segs = true ->
  exists segs', layout (negb (feq A (l_hyphenPenalty o) (fZ A 10000))) (fragsOf u o punct parts t1) segs' /\
    linesOk (l_renderHyphens o) m (m [32]) (hyphenW o m) A (k_tolerance (l_search o)) W true segs' = true /\ (length segs' <= length segs)%nat.
Proof.
  intros C2 Hlast segs Hl Hok. pose proof (pc_settings _ _ _ _ _ _ _ _ _ _ _ _ _ C2) as S.
  destruct (shape _ _ _ _ _ _ _ _ _ _ _ _ _ C2) as (ini & f & Ef & Hf & _).
  destruct t2 as [|t t2]; [rewrite app_nil_r in *; exists segs; split; [exact Hl|]; split; [exact Hok|lia]|].
  rewrite (frags_app A L u o m punct parts lb2 t1 (t :: t2) spare2 S) in Hl;
    [|apply C2|apply C2|apply C2|discriminate|apply C2]. rewrite Ef, endWith_snoc' in Hl.
  assert (forall x, 0 <= m x) as Hm by (intros x; exact (proj1 (se_measure _ _ _ _ _ _ _ S x))).
  destruct (prefix_ok A L (l_renderHyphens o) _ m (m [32]) (hyphenW o m) W (k_tolerance (l_search o)) Hm (Hm _)
    ltac:(unfold hyphenW; destruct (l_wordBreak o); [apply Hm|lia]) (pc_bounds _ _ _ _ _ _ _ _ _ _ _ _ _ C2)
    (tol_no _ _ _ _ _ _ _ _ _ _ _ _ _ C2) Hlast segs _ Hl ini _ _ true eq_refl eq_refl Hok) as (segs' & H1 & H2 & H3).
  exists segs'. cbn [f_text f_mark] in H1. replace (mkFrag (f_text f) (f_mark f) End_) with f in H1; [rewrite Ef; now split|].
  destruct f; cbn in *; now subst.
Qed.
Theorem align_beginning A L u o m punct parts t1 t2 maxWidth W lb1 spare1 ord1 lb2 spare2 ord2 :
  plainCall A L u o m punct parts lb1 (t1 ++ t2) spare1 maxWidth W ord1 ->
  plainCall A L u o m punct parts lb2 t1 spare2 maxWidth W ord2 ->
  fle A (fdiv A (fZ A W) (fZ A 9994)) (k_tolerance (l_search o)) = true ->
  forall ls lb1', leftAlignUniform A u ord1 spare1 lb1 (t1 ++ t2) maxWidth = Ret (Some ls, lb1') ->
  exists ls2 lb2', leftAlignUniform A u ord2 spare2 lb2 t1 maxWidth = Ret (Some ls2, lb2').
Proof.
  intros C1 C2 Hlast ls lb1' E1. destruct (align_sound _ _ _ _ _ _ _ _ _ _ _ _ _ C1 _ _ E1) as (segs & _ & Hl & Hok).
  destruct (align_complete _ _ _ _ _ _ _ _ _ _ _ _ _ C2) as ([ls2|] & lb2' & E2 & Hn); [eauto|]. exfalso.
  apply (proj1 Hn eq_refl). destruct (beginning_layout _ _ _ _ _ _ _ _ t2 _ _ _ _ _ C2 Hlast segs Hl Hok) as (segs' & H1 & H2 & _). now exists segs'.
Qed.
