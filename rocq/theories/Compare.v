(** Calls on the same tokens with other settings: tolerance, width, word breaking, rendering of hyphens. *)
From Verif Require Import Base Arith Unicode Split SpecSplit SplitProofs Ansi SpecAnsi AnsiProofs Attr Hyph KP Nodes Render SpecKP Tokens Align
  Options Call Settings AlignProofs Fresh Succeed.

(** ** A greater tolerance *)
Section Tol.
Variable A : arith.
Variable L : laws A.
Variable rh : bool.
Variable m : list rune -> Z.
Variable sp hy W : Z.
Variable t1 t2 : F A.
Hypothesis Ht : fle A t1 t2 = true.
Lemma within_mono r : within A t1 r = true -> within A t2 r = true.
Proof. unfold within. intros H. apply andb_prop in H. destruct H as [-> H]. now rewrite (le_trans A L _ _ _ H Ht). Qed.
Lemma linesOk_mono lines : forall b, linesOk rh m sp hy A t1 W b lines = true -> linesOk rh m sp hy A t2 W b lines = true.
Proof.
  induction lines as [|l lines IH]; intros b H; [reflexivity|]. destruct lines as [|l2 lines].
  - now apply within_mono.
  - change (lineOk rh m sp hy A t1 W b false l && linesOk rh m sp hy A t1 W false (l2 :: lines) = true) in H.
    apply andb_prop in H. destruct H as [H1 H2].
    change (lineOk rh m sp hy A t2 W b false l && linesOk rh m sp hy A t2 W false (l2 :: lines) = true).
    rewrite (IH _ H2), andb_true_r. now apply within_mono.
Qed.
End Tol.

(** New(opts..., opt) *)
Definition newWith (A : arith) (u : unicode) (opts : list (lbOption A)) (opt : lbOption A) : lopts A :=
  withOptions A (defaultHyphenator u) (defaultPunctuator u) (opts ++ [opt]).

Lemma tolerance_layout A (L : laws A) u opts t1 t2 m punct parts tokens W segs :
  fle A t1 t2 = true -> let o1 := newWith A u opts (WithTolerance t1) in let o2 := newWith A u opts (WithTolerance t2) in
  layout (negb (feq A (l_hyphenPenalty o1) (fZ A 10000))) (fragsOf u o1 punct parts tokens) segs ->
  linesOk (l_renderHyphens o1) m (m [32]) (hyphenW o1 m) A (k_tolerance (l_search o1)) W true segs = true ->
  layout (negb (feq A (l_hyphenPenalty o2) (fZ A 10000))) (fragsOf u o2 punct parts tokens) segs /\
  linesOk (l_renderHyphens o2) m (m [32]) (hyphenW o2 m) A (k_tolerance (l_search o2)) W true segs = true.
Proof.
  intros Ht o1 o2 Hl Hok. subst o1 o2. unfold newWith, withOptions in *. rewrite fold_left_app in *.
  destruct (fold_left _ opts _) as [[tol bad li fl fi] ms sc wb rh hp hh pp h p mi gl]. cbn in *. split; [exact Hl|].
  now apply (linesOk_mono A L _ _ _ _ _ t1 t2).
Qed.
Theorem align_tolerance A L u opts t1 t2 m punct parts tokens maxWidth W lb1 spare1 ord1 lb2 spare2 ord2 :
  plainCall A L u (newWith A u opts (WithTolerance t1)) m punct parts lb1 tokens spare1 maxWidth W ord1 ->
  plainCall A L u (newWith A u opts (WithTolerance t2)) m punct parts lb2 tokens spare2 maxWidth W ord2 ->
  fle A t1 t2 = true -> forall ls lb1', leftAlignUniform A u ord1 spare1 lb1 tokens maxWidth = Ret (Some ls, lb1') ->
  exists ls2 lb2', leftAlignUniform A u ord2 spare2 lb2 tokens maxWidth = Ret (Some ls2, lb2').
Proof.
  intros C1 C2 Ht ls lb1' E1. destruct (align_sound _ _ _ _ _ _ _ _ _ _ _ _ _ C1 _ _ E1) as (segs & _ & Hl & Hok).
  destruct (align_complete _ _ _ _ _ _ _ _ _ _ _ _ _ C2) as ([ls2|] & lb2' & E2 & Hn); [eauto|]. exfalso.
  apply (proj1 Hn eq_refl). exists segs. now apply tolerance_layout with (t1 := t1).
Qed.

(** ** Word breaking on: the same fragments, cut further *)
Section Refine.
Variable punct dashes parts : list rune -> list (list rune).
Variable isMark isDash breakable : list rune -> bool.
Hypothesis Hdash : forall w, w <> [] -> dashes w <> [] /\ concat (dashes w) = w /\ Forall (fun p => p <> []) (dashes w).
Hypothesis Hparts : forall w, w <> [] -> parts w <> [] /\ concat (parts w) = w.
Hypothesis Hpunct : forall w, w <> [] -> punct w <> [] /\ Forall (fun p => p <> []) (punct w).
Notation wordFrags := (wordFrags parts isDash).
Notation fine := (paragraph punct dashes parts isMark isDash breakable).
Notation coarse := (paragraph punct dashes parts isMark isDash (fun _ => false)).

Definition refine (f : frag) : list frag :=
  if f_mark f then [f] else if breakable (f_text f) then endWith (f_joint f) (flat_map wordFrags (dashes (f_text f))) else [f].

(** [ends j fs]: fs ends with the joint j, the others being soft or glued *)
Definition inside (f : frag) : Prop := isSpaced f = false /\ f_joint f <> End_.
Definition ends (j : joint) (fs : list frag) : Prop := exists ini g, fs = ini ++ [g] /\ f_joint g = j /\ Forall inside ini.
Lemma endWith_snoc' j ini g : endWith j (ini ++ [g]) = ini ++ [mkFrag (f_text g) (f_mark g) j].
Proof. induction ini as [|x ini IH]; [reflexivity|]. cbn [app endWith]. rewrite IH. destruct ini; reflexivity. Qed.
Lemma ends_endWith j k fs : ends j fs -> ends k (endWith k fs) /\ textOf (endWith k fs) = textOf fs.
Proof.
  intros (ini & g & -> & Hj & Hi). rewrite endWith_snoc'. split; [exists ini; eexists; split; [reflexivity|]; now split|].
  rewrite !textOf_app. reflexivity.
Qed.
Lemma endWith_same j fs : ends j fs -> endWith j fs = fs.
Proof. intros (ini & [t mk jt] & -> & Hj & Hi). cbn in Hj. subst. now rewrite endWith_snoc'. Qed.
Lemma partFrags_ends ps : ps <> [] -> ends Glued (partFrags ps) /\ textOf (partFrags ps) = concat ps.
Proof.
  induction ps as [|p ps IH]; [congruence|]. intros _. destruct ps as [|q ps].
  - split; [|reflexivity]. exists [], (mkFrag p false Glued). repeat split. constructor.
  - destruct (IH ltac:(discriminate)) as [(ini & g & E & Hj & Hi) E2].
    change (partFrags (p :: q :: ps)) with (mkFrag p false Soft :: partFrags (q :: ps)). split.
    + rewrite E. exists (mkFrag p false Soft :: ini), g. split; [reflexivity|]. split; [exact Hj|].
      constructor; [split; [reflexivity|discriminate]|exact Hi].
    + change (p ++ textOf (partFrags (q :: ps)) = p ++ concat (q :: ps)). now rewrite E2.
Qed.
Lemma wordFrags_ends w : w <> [] -> ends Glued (wordFrags w) /\ textOf (wordFrags w) = w.
Proof.
  intros Hw. unfold SpecKP.wordFrags. destruct (isDash w).
  - split; [exists [], (mkFrag w true Glued); repeat split; constructor|]. cbn. apply app_nil_r.
  - destruct (Hparts w Hw) as [H1 H2]. rewrite <- H2 at 3. now apply partFrags_ends.
Qed.
Lemma ends_inside fs : ends Glued fs -> Forall inside fs.
Proof.
  intros (ini & g & -> & Hj & Hi). apply Forall_app. split; [exact Hi|]. constructor; [|constructor].
  unfold inside, isSpaced. rewrite Hj. split; [reflexivity|discriminate].
Qed.
Lemma ends_app_r j a b : Forall inside a -> ends j b -> ends j (a ++ b).
Proof.
  intros Ha (ini & g & -> & Hj & Hi). exists (a ++ ini), g. split; [now rewrite app_assoc|]. split; [exact Hj|].
  apply Forall_app. now split.
Qed.
Lemma words_ends ws : ws <> [] -> Forall (fun w => w <> []) ws -> ends Glued (flat_map wordFrags ws) /\ textOf (flat_map wordFrags ws) = concat ws.
Proof.
  intros Hn H. induction H as [|w ws Hw H IH]; [congruence|]. clear Hn. cbn [flat_map concat].
  destruct (wordFrags_ends w Hw) as [E1 E2]. rewrite textOf_app, E2. destruct ws as [|w2 ws].
  - cbn [flat_map concat textOf map]. rewrite !app_nil_r. split; [exact E1|reflexivity].
  - destruct (IH ltac:(discriminate)) as [I1 I2]. rewrite I2. split; [|reflexivity]. apply ends_app_r; [now apply ends_inside|exact I1].
Qed.
Lemma refine_ends f : f_text f <> [] -> ends (f_joint f) (refine f) /\ textOf (refine f) = f_text f.
Proof.
  intros Hf. unfold refine. assert (ends (f_joint f) [f] /\ textOf [f] = f_text f) as H1.
  { split; [exists [], f; repeat split; constructor|]. cbn. apply app_nil_r. }
  destruct (f_mark f); [exact H1|]. destruct (breakable (f_text f)); [|exact H1].
  destruct (Hdash _ Hf) as (D1 & D2 & D3). destruct (words_ends _ D1 D3) as [E1 E2].
  destruct (ends_endWith _ (f_joint f) _ E1) as [E3 E4]. split; [exact E3|]. now rewrite E4, E2, D2.
Qed.
Lemma refine_joint t mk j : t <> [] -> refine (mkFrag t mk j) = endWith j (refine (mkFrag t mk Glued)).
Proof.
  intros Ht. unfold refine. cbn [f_mark f_text f_joint]. destruct mk; [reflexivity|]. destruct (breakable t); [|reflexivity].
  destruct (Hdash _ Ht) as (D1 & D2 & D3). destruct (words_ends _ D1 D3) as [E1 E2].
  rewrite (endWith_same Glued) by exact E1. reflexivity.
Qed.
Lemma piece_refine p : p <> [] -> pieceFrags dashes parts isMark isDash breakable p = flat_map refine (pieceFrags dashes parts isMark isDash (fun _ => false) p).
Proof.
  intros Hp. unfold pieceFrags. destruct (isMark p); [reflexivity|]. cbn [flat_map]. rewrite app_nil_r. unfold refine. cbn [f_mark f_text f_joint].
  destruct (breakable p); [|reflexivity]. destruct (Hdash _ Hp) as (D1 & D2 & D3). destruct (words_ends _ D1 D3) as [E1 _].
  symmetry. now apply endWith_same.
Qed.
Definition coarsePiece (p : list rune) : frag := mkFrag p (isMark p) Glued.
Lemma coarse_token t : tokenFrags punct dashes parts isMark isDash (fun _ => false) t = map coarsePiece (punct t).
Proof.
  unfold tokenFrags. induction (punct t) as [|p ps IH]; [reflexivity|]. cbn [flat_map map]. rewrite IH. unfold pieceFrags, coarsePiece.
  destruct (isMark p); reflexivity.
Qed.
Lemma token_refine t : t <> [] -> tokenFrags punct dashes parts isMark isDash breakable t = flat_map refine (map coarsePiece (punct t)).
Proof.
  intros Ht. rewrite <- coarse_token. unfold tokenFrags. destruct (Hpunct t Ht) as [_ H]. induction H as [|p ps Hp _ IH]; [reflexivity|].
  cbn [flat_map]. now rewrite flat_map_app, IH, piece_refine.
Qed.
Lemma refine_endWith j fs : Forall (fun f => f_text f <> [] /\ f_joint f = Glued) fs -> flat_map refine (endWith j fs) = endWith j (flat_map refine fs).
Proof.
  intros H. destruct fs as [|z fs] using rev_ind; [reflexivity|]. clear IHfs. apply Forall_app in H. destruct H as [_ H].
  inversion H as [|? ? [H1 H2] _]; subst. rewrite endWith_snoc', !flat_map_app. cbn [flat_map]. rewrite !app_nil_r.
  rewrite refine_joint by exact H1. destruct z as [t mk jz]. cbn [f_text f_mark f_joint] in *. subst jz.
  destruct (refine_ends (mkFrag t mk Glued) H1) as [(ini & g & E & _) _]. rewrite E, endWith_snoc', (app_assoc _ ini [g]), endWith_snoc'.
  now rewrite app_assoc.
Qed.
Lemma para_refine tokens : Forall (fun t => t <> []) tokens -> fine tokens = flat_map refine (coarse tokens).
Proof.
  induction 1 as [|t ts Ht _ IH]; [reflexivity|].
  assert (Forall (fun f => f_text f <> [] /\ f_joint f = Glued) (map coarsePiece (punct t))) as K.
  { destruct (Hpunct t Ht) as [_ H]. apply Forall_map. eapply Forall_impl; [|exact H]. intros p Hp. now split. }
  destruct ts as [|t2 ts].
  - cbn [paragraph]. rewrite token_refine, coarse_token by exact Ht. symmetry. now apply refine_endWith.
  - change (fine (t :: t2 :: ts)) with (endWith Space (tokenFrags punct dashes parts isMark isDash breakable t) ++ fine (t2 :: ts)).
    change (coarse (t :: t2 :: ts)) with (endWith Space (tokenFrags punct dashes parts isMark isDash (fun _ => false) t) ++ coarse (t2 :: ts)).
    rewrite flat_map_app, IH, token_refine, coarse_token by exact Ht. f_equal. symmetry. now apply refine_endWith.
Qed.
Lemma coarse_text tokens : map f_text (coarse tokens) = flat_map punct tokens.
Proof.
  assert (forall j fs, map f_text (endWith j fs) = map f_text fs) as K.
  { intros j fs. induction fs as [|f fs IH]; [reflexivity|]. destruct fs as [|g fs]; [reflexivity|].
    change (f_text f :: map f_text (endWith j (g :: fs)) = f_text f :: map f_text (g :: fs)). now rewrite IH. }
  assert (forall t, map f_text (map coarsePiece (punct t)) = punct t) as K2 by (intros t; rewrite map_map; apply map_id).
  induction tokens as [|t ts IH]; [reflexivity|]. destruct ts as [|t2 ts].
  - cbn [paragraph flat_map]. now rewrite K, coarse_token, K2, app_nil_r.
  - change (coarse (t :: t2 :: ts)) with (endWith Space (tokenFrags punct dashes parts isMark isDash (fun _ => false) t) ++ coarse (t2 :: ts)).
    rewrite map_app, K, coarse_token, K2, IH. reflexivity.
Qed.
Lemma coarse_nosoft tokens : Forall (fun f => isSoft f = false) (coarse tokens).
Proof.
  assert (forall j fs, j <> Soft -> Forall (fun f => isSoft f = false) fs -> Forall (fun f => isSoft f = false) (endWith j fs)) as K.
  { intros j fs Hj H. induction H as [|f fs Hf H IH]; [constructor|]. destruct fs as [|g fs].
    - constructor; [|constructor]. unfold isSoft. cbn. now destruct j.
    - change (Forall (fun f => isSoft f = false) (f :: endWith j (g :: fs))). now constructor. }
  assert (forall t, Forall (fun f => isSoft f = false) (map coarsePiece (punct t))) as K2.
  { intros t. apply Forall_map. apply Forall_forall. intros p _. reflexivity. }
  induction tokens as [|t ts IH]; [constructor|]. destruct ts as [|t2 ts].
  - cbn [paragraph]. rewrite coarse_token. apply K; [discriminate|apply K2].
  - change (coarse (t :: t2 :: ts)) with (endWith Space (tokenFrags punct dashes parts isMark isDash (fun _ => false) t) ++ coarse (t2 :: ts)).
    apply Forall_app. split; [|exact IH]. rewrite coarse_token. apply K; [discriminate|apply K2].
Qed.

(** layouts *)
Notation full := (fun f : frag => f_text f <> []).
Lemma refine_cuttable softOn f : f_text f <> [] -> isSoft f = false -> cuttable softOn f = true ->
  exists ini g, refine f = ini ++ [g] /\ cuttable softOn g = true.
Proof.
  intros Hf Hs Hc. destruct (refine_ends f Hf) as [(ini & g & E & Hj & _) _]. exists ini, g. split; [exact E|].
  unfold cuttable in *. rewrite Hj. destruct (f_mark f) eqn:Em.
  - unfold refine in E. rewrite Em in E. destruct ini as [|x [|y ini]]; cbn in E; try discriminate. injection E as <-. now rewrite Em.
  - cbn [orb] in Hc. rewrite Hc. apply orb_true_r.
Qed.
Lemma refine_ne f : f_text f <> [] -> refine f <> [].
Proof. intros Hf E. destruct (refine_ends f Hf) as [(ini & g & E1 & _) _]. rewrite E in E1. now destruct ini. Qed.
Lemma layout_refine softOn fs segs : layout softOn fs segs -> Forall full fs -> Forall (fun f => isSoft f = false) fs ->
  layout softOn (flat_map refine fs) (map (flat_map refine) segs).
Proof.
  induction 1 as [seg Hs|seg f rest lines Hc Hl IH]; intros Hf Hn.
  - cbn [map]. constructor. destruct seg as [|f seg]; [congruence|]. inversion Hf; subst. cbn [flat_map]. intros E.
    apply app_eq_nil in E. now apply (refine_ne f).
  - apply Forall_app in Hf, Hn. destruct Hf as [Hf1 Hf2], Hn as [Hn1 Hn2]. specialize (IH Hf2 Hn2).
    apply Forall_app in Hf1, Hn1. destruct Hf1 as [_ Hf1], Hn1 as [_ Hn1]. inversion Hf1; subst. inversion Hn1; subst.
    destruct (refine_cuttable softOn f ltac:(assumption) ltac:(assumption) Hc) as (ini & g & E & Hg).
    cbn [map]. rewrite (flat_map_app _ _ rest), (flat_map_app _ seg). cbn [flat_map]. rewrite app_nil_r, E, app_assoc. now constructor.
Qed.

(** the text of a line *)
Lemma paraText_refine fs : Forall full fs -> paraText (flat_map refine fs) = paraText fs.
Proof.
  induction 1 as [|f fs Hf _ IH]; [reflexivity|]. cbn [flat_map]. unfold paraText in *. rewrite flat_map_app, IH. cbn [flat_map]. f_equal.
  destruct (refine_ends f Hf) as [(ini & g & E & Hj & Hi) Ht]. rewrite E in *. rewrite flat_map_app. cbn [flat_map]. rewrite app_nil_r.
  fold (paraText ini). rewrite paraText_unspaced by (eapply Forall_impl; [|exact Hi]; intros x [Hx _]; exact Hx).
  rewrite textOf_app in Ht. cbn in Ht. rewrite app_nil_r in Ht. unfold fragText. rewrite app_assoc, Ht. f_equal. unfold isSpaced. now rewrite Hj.
Qed.
Lemma lineText_refine rh seg : Forall full seg -> lineText rh (flat_map refine seg) = lineText rh seg.
Proof.
  intros H. destruct seg as [|f seg] using rev_ind; [reflexivity|]. clear IHseg. apply Forall_app in H. destruct H as [H1 H2].
  inversion H2 as [|? ? Hf _]; subst. rewrite flat_map_app. cbn [flat_map]. rewrite app_nil_r.
  destruct (refine_ends f Hf) as [(ini & g & E & Hj & Hi) Ht]. rewrite E, app_assoc, !lineText_snoc.
  unfold paraText. rewrite flat_map_app. fold (paraText (flat_map refine seg)) (paraText ini). rewrite paraText_refine by exact H1.
  rewrite (paraText_unspaced ini) by (eapply Forall_impl; [|exact Hi]; intros x [Hx _]; exact Hx).
  rewrite E, textOf_app in Ht. cbn in Ht. rewrite app_nil_r in Ht. unfold isSoft. rewrite Hj, <- Ht. now rewrite <- !app_assoc.
Qed.
Lemma lastSoft_refine seg : Forall full seg -> lastSoft (flat_map refine seg) = lastSoft seg.
Proof.
  intros H. destruct seg as [|f seg] using rev_ind; [reflexivity|]. clear IHseg. apply Forall_app in H. destruct H as [H1 H2].
  inversion H2 as [|? ? Hf _]; subst. rewrite flat_map_app. cbn [flat_map]. rewrite app_nil_r.
  destruct (refine_ends f Hf) as [(ini & g & E & Hj & Hi) Ht]. rewrite E. unfold lastSoft. rewrite !rev_app_distr. cbn. unfold isSoft. now rewrite Hj.
Qed.
(** a word that does not start with a hyphen *)
Hypothesis Hhead : forall w, w <> [] -> exists x ws, dashes w = x :: ws /\ (forall r t, w = r :: t -> isDash [r] = false -> isDash x = false).
Lemma starts_refine f seg : f_text f <> [] -> (forall r t, f_text f = r :: t -> isDash [r] = false) ->
  startsWithMark (flat_map refine (f :: seg)) = f_mark f.
Proof.
  intros Hf Hr. cbn [flat_map]. unfold refine. destruct (f_mark f) eqn:Em; [exact Em|]. destruct (breakable (f_text f)); [|exact Em].
  destruct (Hhead _ Hf) as (x & ws & E & Hx). destruct (f_text f) as [|r t] eqn:Et; [congruence|].
  specialize (Hx r t eq_refl (Hr r t eq_refl)). rewrite E. cbn [flat_map]. unfold SpecKP.wordFrags. rewrite Hx.
  assert (x <> []) as Hxn. { destruct (Hdash (r :: t) ltac:(discriminate)) as (_ & _ & D). rewrite E in D. now inversion D. }
  destruct (Hparts x Hxn) as [P _]. destruct (parts x) as [|p [|q ps]]; [congruence| |].
  - cbn [partFrags app endWith]. destruct (flat_map _ ws); reflexivity.
  - change (partFrags (p :: q :: ps)) with (mkFrag p false Soft :: partFrags (q :: ps)). generalize (partFrags (q :: ps)). intros l.
    cbn [app endWith]. destruct (l ++ _); reflexivity.
Qed.
End Refine.

Section RefineOk.
Variable A : arith.
Variable L : laws A.
Variable dashes parts : list rune -> list (list rune).
Variable isDash breakable : list rune -> bool.
Hypothesis Hdash : forall w, w <> [] -> dashes w <> [] /\ concat (dashes w) = w /\ Forall (fun p => p <> []) (dashes w).
Hypothesis Hparts : forall w, w <> [] -> parts w <> [] /\ concat (parts w) = w.
Hypothesis Hhead : forall w, w <> [] -> exists x ws, dashes w = x :: ws /\ (forall r t, w = r :: t -> isDash [r] = false -> isDash x = false).
Notation refine := (refine dashes parts isDash breakable).
Variable rh : bool.
Variable m : list rune -> Z.
Hypothesis Hm : forall a b, m (a ++ b) = m a + m b.
Variable tol : F A.
Variable W hy : Z.
Notation full := (fun f : frag => f_text f <> []).
Notation hard := (fun f : frag => isSoft f = false).
Notation lineOk1 := (lineOk rh m (m [32]) hy A tol W).
Notation lineOk2 := (lineOk rh m (m [32]) (m [45]) A tol W).
Definition noDash (f : frag) : Prop := forall (r : rune) (t : list rune), f_text f = r :: t -> isDash [r] = false.

Lemma lineOk_refine b1 b2 seg : seg <> [] -> Forall full seg -> Forall hard seg -> (b1 = true \/ Forall noDash seg) ->
  lineOk2 b1 b2 (flat_map refine seg) = lineOk1 b1 b2 seg.
Proof.
  intros Hne Hf Hh Hd. unfold lineOk. f_equal. f_equal.
  - rewrite (width_text rh m (m [32]) (m [45]) Hm) by auto. rewrite (width_text rh m (m [32]) hy Hm); [|reflexivity|].
    + f_equal. now apply lineText_refine.
    + intros _ f Hin Hs. rewrite Forall_forall in Hh. rewrite (Hh f Hin) in Hs. discriminate.
  - unfold lineStretch. rewrite lastSoft_refine by assumption. f_equal. destruct b1; [reflexivity|]. cbn [negb andb].
    destruct Hd as [|Hd]; [discriminate|]. destruct seg as [|f seg]; [congruence|].
    rewrite starts_refine; try assumption; [reflexivity|now inversion Hf|]. inversion Hd; assumption.
Qed.
Lemma linesOk_refine (segs : list (list frag)) : forall b : bool, Forall (fun s => s <> [] /\ Forall full s /\ Forall hard s) segs ->
  Forall (Forall noDash) (if b then tl segs else segs) ->
  linesOk rh m (m [32]) (m [45]) A tol W b (map (flat_map refine) segs) = linesOk rh m (m [32]) hy A tol W b segs.
Proof.
  induction segs as [|s segs IH]; intros b Hs Hd; [reflexivity|]. inversion Hs as [|? ? (S1 & S2 & S3) Hs']; subst.
  assert (b = true \/ Forall noDash s) as Hb by (destruct b; [now left|]; inversion Hd; subst; now right).
  destruct segs as [|s2 segs].
  - cbn [map linesOk]. now apply lineOk_refine.
  - change (lineOk2 b false (flat_map refine s) && linesOk rh m (m [32]) (m [45]) A tol W false (map (flat_map refine) (s2 :: segs)) =
      lineOk1 b false s && linesOk rh m (m [32]) hy A tol W false (s2 :: segs)).
    rewrite lineOk_refine by assumption. f_equal. apply IH; [exact Hs'|]. destruct b; [exact Hd|]. now inversion Hd.
Qed.
End RefineOk.

Lemma dashes_ok w : w <> [] -> splitAt isHyphenRune w <> [] /\ concat (splitAt isHyphenRune w) = w /\ Forall (fun p => p <> []) (splitAt isHyphenRune w).
Proof.
  intros Hw. pose proof (splitAt_concat isHyphenRune w) as C. split; [|split; [exact C|apply splitAt_nonempty]].
  intros E. rewrite E in C. cbn in C. congruence.
Qed.
Lemma dashes_head w : w <> [] -> exists x ws, splitAt isHyphenRune w = x :: ws /\
  (forall r t, w = r :: t -> single isHyphenRune [r] = false -> single isHyphenRune x = false).
Proof.
  intros Hw. pose proof (splitAt_head isHyphenRune w) as H. destruct (splitAt isHyphenRune w) as [|x ws]; [congruence|].
  destruct H as (d & r & -> & w' & ->). exists (d :: r), ws. split; [reflexivity|]. intros r0 t [= <- <-] Hd. cbn in Hd.
  destruct r; [exact Hd|reflexivity].
Qed.

(** [hyphenFree]: no piece of the tokens, except the first one, starts with a hyphen *)
Definition hyphenFree (punct : list rune -> list (list rune)) (tokens : list (list rune)) : Prop :=
  forall r t, In (r :: t) (tl (flat_map punct tokens)) -> isHyphenRune r = false.

Lemma wordbreak_layout A L u opts m punct parts tokens maxWidth W lb2 spare2 ord2 :
  plainCall A L u (newWith A u opts (WithWordBreak true)) m punct parts lb2 tokens spare2 maxWidth W ord2 ->
  (forall a b, m (a ++ b) = m a + m b) -> hyphenFree punct tokens ->
  let o1 := newWith A u opts (WithWordBreak false) in let o2 := newWith A u opts (WithWordBreak true) in
  forall segs, layout (negb (feq A (l_hyphenPenalty o1) (fZ A 10000))) (fragsOf u o1 punct parts tokens) segs ->
  linesOk (l_renderHyphens o1) m (m [32]) (hyphenW o1 m) A (k_tolerance (l_search o1)) W true segs = true ->
  exists segs2, layout (negb (feq A (l_hyphenPenalty o2) (fZ A 10000))) (fragsOf u o2 punct parts tokens) segs2 /\
    linesOk (l_renderHyphens o2) m (m [32]) (hyphenW o2 m) A (k_tolerance (l_search o2)) W true segs2 = true /\ length segs2 = length segs.
Proof.
  intros C2 Hm Hfree o1 o2 segs Hl Hok. subst o1 o2.
  pose proof (proj2 (pc_nonempty _ _ _ _ _ _ _ _ _ _ _ _ _ C2)) as Ht.
  pose proof (se_punct _ _ _ _ _ _ _ (pc_settings _ _ _ _ _ _ _ _ _ _ _ _ _ C2)) as Sp.
  pose proof (se_parts _ _ _ _ _ _ _ (pc_settings _ _ _ _ _ _ _ _ _ _ _ _ _ C2)) as Sh.
  assert (forall w, w <> [] -> punct w <> [] /\ Forall (fun p => p <> []) (punct w)) as Hpunct.
  { intros w Hw. destruct (Sp w Hw) as (_ & C & N). split; [|exact N]. intros E. rewrite E in C. cbn in C. congruence. }
  assert (forall w, w <> [] -> parts w <> [] /\ concat (parts w) = w) as Hparts.
  { assert (l_wordBreak (newWith A u opts (WithWordBreak true)) = true) as Ew.
    { unfold newWith, withOptions. rewrite fold_left_app. destruct (fold_left _ opts _) as [[] ]. reflexivity. }
    intros w Hw. destruct (Sh Ew w Hw) as (_ & C & _). split; [|exact C]. intros E. rewrite E in C. cbn in C. congruence. }
  clear - Hl Hok Hm Hfree Hpunct Hparts Ht L.
  unfold newWith, withOptions in *. rewrite fold_left_app in *.
  destruct (fold_left _ opts _) as [[tol bad li fl fi] ms sc wb rh hp hh pp h p mi gl].
  unfold fragsOf, hyphenW in *. cbn [fold_left applyOption l_search l_renderHyphens l_hyphenPenalty l_wordBreak k_tolerance andb] in *.
  set (brk := fun w : list rune => negb (zlen w <=? 4)) in *.
  change (fun w : list rune => false) with (fun _ : list rune => false) in Hl.
  pose proof (coarse_text punct (splitAt isHyphenRune) parts (single (punctSplitFunc u)) (single isHyphenRune) tokens) as Ctext.
  pose proof (coarse_nosoft punct (splitAt isHyphenRune) parts (single (punctSplitFunc u)) (single isHyphenRune) tokens) as Chard.
  rewrite (para_refine punct (splitAt isHyphenRune) parts (single (punctSplitFunc u)) (single isHyphenRune) brk dashes_ok Hparts Hpunct tokens Ht).
  set (fs := paragraph _ _ _ _ _ _ tokens) in *.
  assert (Forall (fun f => f_text f <> []) fs) as Cfull.
  { apply Forall_forall. intros f Hf E. assert (In [] (flat_map punct tokens)) as K by (rewrite <- Ctext, <- E; now apply in_map).
    apply in_flat_map in K. destruct K as (t & K1 & K2). rewrite Forall_forall in Ht. destruct (Hpunct t (Ht t K1)) as [_ K3].
    rewrite Forall_forall in K3. now apply (K3 [] K2). }
  exists (map (flat_map (refine (splitAt isHyphenRune) parts (single isHyphenRune) brk)) segs). rewrite map_length. split; [|split; [|reflexivity]].
  - now apply layout_refine; try exact dashes_ok.
  - rewrite (linesOk_refine A (splitAt isHyphenRune) parts (single isHyphenRune) brk dashes_ok Hparts dashes_head rh m Hm tol W 0); [exact Hok|..].
    + destruct (layout_ne _ _ _ Hl) as [Ls Lc]. rewrite Forall_forall in Ls, Cfull, Chard. apply Forall_forall. intros s Hs.
      split; [now apply Ls|]. split; apply Forall_forall; intros f Hf; [apply Cfull|apply Chard]; eapply layout_in; eassumption.
    + destruct (layout_ne _ _ _ Hl) as [Ls Lc]. destruct segs as [|s segs]; [constructor|]. cbn [tl]. apply Forall_forall. intros s' Hs'.
      apply Forall_forall. intros f Hf r t Et. cbn. apply (Hfree r t). rewrite <- Ctext, <- Lc, <- Et.
      inversion Ls as [|? ? Hsn _]; subst. destruct s as [|f0 s]; [congruence|]. cbn [concat app map tl]. apply in_map.
      apply in_or_app. right. apply in_concat. eauto.
Qed.
Theorem align_wordbreak A L u opts m punct parts tokens maxWidth W lb1 spare1 ord1 lb2 spare2 ord2 :
  plainCall A L u (newWith A u opts (WithWordBreak false)) m punct parts lb1 tokens spare1 maxWidth W ord1 ->
  plainCall A L u (newWith A u opts (WithWordBreak true)) m punct parts lb2 tokens spare2 maxWidth W ord2 ->
  (forall a b, m (a ++ b) = m a + m b) -> hyphenFree punct tokens ->
  forall ls lb1', leftAlignUniform A u ord1 spare1 lb1 tokens maxWidth = Ret (Some ls, lb1') ->
  exists ls2 lb2', leftAlignUniform A u ord2 spare2 lb2 tokens maxWidth = Ret (Some ls2, lb2').
Proof.
  intros C1 C2 Hm Hfree ls lb1' E1. destruct (align_sound _ _ _ _ _ _ _ _ _ _ _ _ _ C1 _ _ E1) as (segs & _ & Hl & Hok).
  destruct (align_complete _ _ _ _ _ _ _ _ _ _ _ _ _ C2) as ([ls2|] & lb2' & E2 & Hn); [eauto|]. exfalso.
  apply (proj1 Hn eq_refl). destruct (wordbreak_layout _ _ _ _ _ _ _ _ _ _ _ _ _ C2 Hm Hfree segs Hl Hok) as (segs2 & H1 & H2 & _). now exists segs2.
Qed.

(** ** A greater width *)
(** [marksGlued]: no mark comes just after a place where the line can be cut *)
Definition marksGlued (softOn : bool) (fs : list frag) : Prop :=
  forall pre f g post, fs = pre ++ f :: g :: post -> cuttable softOn f = true -> f_mark g = false.
Fixpoint marksGluedb (softOn : bool) (fs : list frag) : bool :=
  match fs with f :: r => match r with g :: _ => negb (cuttable softOn f && f_mark g) | [] => true end && marksGluedb softOn r | [] => true end.
Lemma marksGluedb_ok softOn fs : marksGluedb softOn fs = true -> marksGlued softOn fs.
Proof.
  intros H pre f g post ->. induction pre as [|x pre IH].
  - cbn [app marksGluedb] in H. apply andb_prop in H. destruct H as [H _]. intros Hc. rewrite Hc in H. now destruct (f_mark g).
  - apply IH. cbn [app marksGluedb] in H. now apply andb_prop in H.
Qed.
Lemma layout_starts softOn fs segs : layout softOn fs segs -> marksGlued softOn fs -> Forall (fun s => startsWithMark s = false) (tl segs).
Proof.
  induction 1 as [seg Hs|seg f rest lines Hc Hl IH]; intros Hg; [constructor|]. cbn [tl].
  assert (marksGlued softOn rest) as Hr.
  { intros pre f' g post E. apply (Hg ((seg ++ [f]) ++ pre) f' g post). now rewrite E, app_assoc. }
  specialize (IH Hr). destruct (layout_ne _ _ _ Hl) as [Ls Lc]. destruct lines as [|s lines]; [constructor|]. constructor; [|exact IH].
  inversion Ls as [|? ? Hsn _]; subst. destruct s as [|g s]; [congruence|]. cbn [startsWithMark].
  apply (Hg seg f g (s ++ concat lines)); [|exact Hc]. cbn [concat app]. now rewrite <- app_assoc.
Qed.
Theorem align_wider A L u o m punct parts tokens w1 w2 W1 W2 lb1 spare1 ord1 lb2 spare2 ord2 :
  plainCall A L u o m punct parts lb1 tokens spare1 w1 W1 ord1 ->
  plainCall A L u o m punct parts lb2 tokens spare2 w2 W2 ord2 ->
  k_tolerance (l_search o) = fTolerance A -> l_renderHyphens o = true \/ l_wordBreak o = false ->
  marksGlued (negb (feq A (l_hyphenPenalty o) (fZ A 10000))) (fragsOf u o punct parts tokens) ->
  W1 + m [32] <= 52 -> W1 <= W2 <= 85948 ->
  forall ls lb1', leftAlignUniform A u ord1 spare1 lb1 tokens w1 = Ret (Some ls, lb1') ->
  exists ls2 lb2', leftAlignUniform A u ord2 spare2 lb2 tokens w2 = Ret (Some ls2, lb2').
Proof.
  intros C1 C2 Htol Hrh Hg H1 H2 ls lb1' E1. destruct (align_sound _ _ _ _ _ _ _ _ _ _ _ _ _ C1 _ _ E1) as (segs & _ & Hl & Hok).
  assert (fle A (fZ A 10000) (k_tolerance (l_search o)) = false) as Ht by (rewrite Htol; apply (tol_inf A L)).
  apply (linesOk_width _ _ _ _ _ _ _ Ht) in Hok.
  apply (align_succeeds A L u o m punct parts lb2 tokens spare2 w2 W2 ord2 C2 Htol segs); [lia|exact Hl| |now apply (layout_starts _ _ _ Hl)|].
  - eapply Forall_impl; [|exact Hok]. intros s Hs. cbv beta in *. lia.
  - apply Forall_forall. intros s Hs. destruct Hrh as [Hrh|Hw]; [now left|]. right.
    pose proof (frs_nosoft A u o punct parts tokens Hw) as N. rewrite Forall_forall in N.
    unfold lastSoft. destruct (rev s) as [|f s'] eqn:Er; [reflexivity|]. apply N. eapply layout_in; [exact Hl|exact Hs|].
    apply in_rev. rewrite Er. now left.
Qed.

(** ** Hyphens rendered or not *)
Lemma lineWidth_hard rh1 rh2 m sp hy seg : Forall (fun f => isSoft f = false) seg -> lineWidth rh1 m sp hy seg = lineWidth rh2 m sp hy seg.
Proof.
  induction 1 as [|f seg Hf H IH]; [reflexivity|]. cbn [lineWidth]. destruct seg; [now rewrite Hf, !andb_false_r|now rewrite IH].
Qed.
Lemma lineStretch_hard rh1 rh2 b1 b2 seg : Forall (fun f => isSoft f = false) seg -> lineStretch rh1 b1 b2 seg = lineStretch rh2 b1 b2 seg.
Proof.
  intros H. assert (lastSoft seg = false) as E.
  { unfold lastSoft. destruct (rev seg) as [|f l] eqn:Er; [reflexivity|]. rewrite Forall_forall in H. apply H. apply in_rev. rewrite Er. now left. }
  unfold lineStretch. now rewrite E.
Qed.
Lemma linesOk_hard A rh1 rh2 m sp hy tol W segs : forall b, Forall (Forall (fun f => isSoft f = false)) segs ->
  linesOk rh1 m sp hy A tol W b segs = linesOk rh2 m sp hy A tol W b segs.
Proof.
  induction segs as [|s segs IH]; intros b H; [reflexivity|]. inversion H as [|? ? H1 H2]; subst.
  assert (forall b1 b2, lineOk rh1 m sp hy A tol W b1 b2 s = lineOk rh2 m sp hy A tol W b1 b2 s) as K.
  { intros b1 b2. unfold lineOk. now rewrite (lineWidth_hard rh1 rh2), (lineStretch_hard rh1 rh2) by exact H1. }
  destruct segs as [|s2 segs]; [apply K|].
  change (lineOk rh1 m sp hy A tol W b false s && linesOk rh1 m sp hy A tol W false (s2 :: segs) =
    lineOk rh2 m sp hy A tol W b false s && linesOk rh2 m sp hy A tol W false (s2 :: segs)). now rewrite K, IH.
Qed.
Theorem align_hyphens A L u opts b1 b2 m punct parts tokens maxWidth W lb1 spare1 ord1 lb2 spare2 ord2 :
  let o b := newWith A u (opts ++ [WithWordBreak false]) (WithRenderHyphens b) in
  plainCall A L u (o b1) m punct parts lb1 tokens spare1 maxWidth W ord1 ->
  plainCall A L u (o b2) m punct parts lb2 tokens spare2 maxWidth W ord2 ->
  forall ls lb1', leftAlignUniform A u ord1 spare1 lb1 tokens maxWidth = Ret (Some ls, lb1') ->
  exists ls2 lb2', leftAlignUniform A u ord2 spare2 lb2 tokens maxWidth = Ret (Some ls2, lb2').
Proof.
  intros o C1 C2 ls lb1' E1. destruct (align_sound _ _ _ _ _ _ _ _ _ _ _ _ _ C1 _ _ E1) as (segs & _ & Hl & Hok).
  destruct (align_complete _ _ _ _ _ _ _ _ _ _ _ _ _ C2) as ([ls2|] & lb2' & E2 & Hn); [eauto|]. exfalso.
  apply (proj1 Hn eq_refl). exists segs. clear - Hl Hok L.
  assert (l_wordBreak (o b1) = false) as Ew.
  { unfold o, newWith, withOptions. rewrite !fold_left_app. destruct (fold_left _ opts _) as [[] ]. reflexivity. }
  pose proof (frs_nosoft A u (o b1) punct parts tokens Ew) as N.
  assert (Forall (Forall (fun f => isSoft f = false)) segs) as Ns.
  { apply Forall_forall. intros s Hs. apply Forall_forall. intros f Hf. rewrite Forall_forall in N. apply N. eapply layout_in; eassumption. }
  unfold o, newWith, withOptions in *. rewrite !fold_left_app in *.
  destruct (fold_left _ opts _) as [[tol bad li fl fi] ms sc wb rh hp hh pp h p mi gl]. cbn in *. split; [exact Hl|].
  now rewrite (linesOk_hard A b2 b1).
Qed.

(** No line is cut inside a word: the same lines can be set whether hyphens are rendered or not *)
Lemma lastSoft_snoc seg f : lastSoft (seg ++ [f]) = isSoft f.
Proof. unfold lastSoft. now rewrite rev_app_distr. Qed.
Lemma lineWidth_uncut rh1 rh2 m sp hy seg : lastSoft seg = false -> lineWidth rh1 m sp hy seg = lineWidth rh2 m sp hy seg.
Proof.
  induction seg as [|f seg IH]; intros H; [reflexivity|]. cbn [lineWidth]. destruct seg as [|g seg].
  - change (isSoft f = false) in H. now rewrite H, !andb_false_r.
  - rewrite IH; [reflexivity|]. unfold lastSoft in *. cbn [rev] in *. destruct (rev seg ++ [g]) as [|x l] eqn:E; [destruct (rev seg); discriminate|exact H].
Qed.
Lemma linesOk_uncut A rh1 rh2 m sp hy tol W segs : forall b, Forall (fun s => lastSoft s = false) segs ->
  linesOk rh1 m sp hy A tol W b segs = linesOk rh2 m sp hy A tol W b segs.
Proof.
  induction segs as [|s segs IH]; intros b H; [reflexivity|]. inversion H as [|? ? H1 H2]; subst.
  assert (forall b1 b2, lineOk rh1 m sp hy A tol W b1 b2 s = lineOk rh2 m sp hy A tol W b1 b2 s) as K.
  { intros b1 b2. unfold lineOk, lineStretch. now rewrite (lineWidth_uncut rh1 rh2), H1 by exact H1. }
  destruct segs as [|s2 segs]; [apply K|].
  change (lineOk rh1 m sp hy A tol W b false s && linesOk rh1 m sp hy A tol W false (s2 :: segs) =
    lineOk rh2 m sp hy A tol W b false s && linesOk rh2 m sp hy A tol W false (s2 :: segs)). now rewrite K, IH.
Qed.
Theorem align_uncut A L u opts m punct parts tokens maxWidth W lb1 spare1 ord1 lb2 spare2 ord2 :
  plainCall A L u (newWith A u opts (WithRenderHyphens true)) m punct parts lb1 tokens spare1 maxWidth W ord1 ->
  plainCall A L u (newWith A u opts (WithRenderHyphens false)) m punct parts lb2 tokens spare2 maxWidth W ord2 ->
  forall ls lb1', leftAlignUniform A u ord1 spare1 lb1 tokens maxWidth = Ret (Some ls, lb1') -> Forall (fun l => last l 0 <> 45) ls ->
  exists ls2 lb2', leftAlignUniform A u ord2 spare2 lb2 tokens maxWidth = Ret (Some ls2, lb2').
Proof.
  intros C1 C2 ls lb1' E1 Hd. destruct (align_sound _ _ _ _ _ _ _ _ _ _ _ _ _ C1 _ _ E1) as (segs & Els & Hl & Hok).
  destruct (align_complete _ _ _ _ _ _ _ _ _ _ _ _ _ C2) as ([ls2|] & lb2' & E2 & Hn); [eauto|]. exfalso.
  apply (proj1 Hn eq_refl). exists segs. clear - Hl Hok L Hd Els.
  assert (l_renderHyphens (newWith A u opts (WithRenderHyphens true)) = true) as Er.
  { unfold newWith, withOptions. rewrite fold_left_app. destruct (fold_left _ opts _) as [[] ]. reflexivity. }
  assert (Forall (fun s => lastSoft s = false) segs) as Ns.
  { rewrite Er in Els. subst ls. clear - Hd. induction segs as [|s segs IH]; [constructor|]. cbn [map] in Hd. inversion Hd as [|? ? H1 H2]; subst.
    constructor; [|now apply IH]. destruct s as [|f s] using rev_ind; [reflexivity|]. rewrite lastSoft_snoc. rewrite lineText_snoc in H1.
    destruct (isSoft f); [|reflexivity]. exfalso. apply H1. cbn [andb]. rewrite !app_assoc. apply last_last. }
  unfold newWith, withOptions in *. rewrite !fold_left_app in *.
  destruct (fold_left _ opts _) as [[tol bad li fl fi] ms sc wb rh hp hh pp h p mi gl]. cbn in *. split; [exact Hl|].
  now rewrite (linesOk_uncut A false true).
Qed.
