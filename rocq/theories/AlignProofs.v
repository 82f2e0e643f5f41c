(** Properties of LeftAlignUniform on plain tokens. *)
From Verif Require Import Base Arith Unicode Split SpecSplit SplitProofs Ansi SpecAnsi AnsiProofs Attr Hyph KP Nodes Render SpecKP Tokens Align Options Call.

(** ** Layouts *)
Lemma seg_split (segs : list (list frag)) : Forall (fun s => s <> []) segs ->
  Forall (fun s => exists pre f, s = pre ++ [f]) segs.
Proof. intros H. eapply Forall_impl; [|exact H]. intros s Hs. destruct (exists_last Hs) as (pre & f & E). eauto. Qed.
Lemma layout_ne softOn fs segs : layout softOn fs segs -> Forall (fun s => s <> []) segs /\ concat segs = fs.
Proof. intros H. destruct (layout_last _ _ _ H) as (H1 & _ & H3). auto. Qed.
Lemma layout_in softOn fs segs s f : layout softOn fs segs -> In s segs -> In f s -> In f fs.
Proof. intros H Hs Hf. destruct (layout_ne _ _ _ H) as [_ <-]. apply in_concat. eauto. Qed.
(** every line but the last ends at a place where lines can be cut *)
Lemma layout_cuts softOn fs segs : layout softOn fs segs -> forall pre s post, segs = pre ++ s :: post -> post <> [] ->
  exists l f, s = l ++ [f] /\ cuttable softOn f = true.
Proof.
  induction 1 as [seg Hs|seg f rest lines Hc Hl IH]; intros pre s post E Hp.
  - destruct pre as [|x [|y pre]]; cbn in E; try discriminate. injection E as _ <-. congruence.
  - destruct pre as [|x pre]; cbn in E; injection E as <- E; [eauto|]. eapply IH; eassumption.
Qed.

Section Widths.
Variable A : arith.
Variable rh : bool.
Variable m : list rune -> Z.
Variable sp hy : Z.
Variable tol : F A.
Variable W : Z.
Hypothesis Htol : fle A (fZ A 10000) tol = false.
Lemma lineOk_width b1 b2 seg : lineOk rh m sp hy A tol W b1 b2 seg = true -> lineWidth rh m sp hy seg <= W.
Proof.
  unfold lineOk, within, lineRatio. destruct (Z.ltb_spec (lineWidth rh m sp hy seg) W); [lia|].
  destruct (Z.ltb_spec W (lineWidth rh m sp hy seg)); [|lia]. now rewrite Htol, andb_false_r.
Qed.
Lemma linesOk_width segs : forall b, linesOk rh m sp hy A tol W b segs = true -> Forall (fun s => lineWidth rh m sp hy s <= W) segs.
Proof.
  induction segs as [|s segs IH]; intros b H; [constructor|]. destruct segs as [|s2 segs].
  - constructor; [|constructor]. now apply lineOk_width in H.
  - change (lineOk rh m sp hy A tol W b false s && linesOk rh m sp hy A tol W false (s2 :: segs) = true) in H.
    apply andb_prop in H. destruct H as [H1 H2]. constructor; [now apply lineOk_width in H1|now apply (IH false)].
Qed.
Hypothesis Hm : forall a b, m (a ++ b) = m a + m b.
Lemma width_text seg : sp = m [32] -> (rh = true -> forall f, In f seg -> isSoft f = true -> hy = m [45]) ->
  lineWidth rh m sp hy seg = m (lineText rh seg).
Proof.
  intros Hs. assert (m [] = 0) as M0 by (pose proof (Hm [] []); cbn in H; lia).
  induction seg as [|f seg IH]; intros Hh; [cbn; lia|]. destruct seg as [|g seg].
  - cbn [lineWidth lineText]. rewrite Hm. destruct rh; cbn [andb]; [|lia]. destruct (isSoft f) eqn:E; [|lia].
    rewrite (Hh eq_refl f (or_introl eq_refl) E). lia.
  - change (lineWidth rh m sp hy (f :: g :: seg)) with (m (f_text f) + (if isSpaced f then sp else 0) + lineWidth rh m sp hy (g :: seg)).
    change (lineText rh (f :: g :: seg)) with (f_text f ++ (if isSpaced f then [32] else []) ++ lineText rh (g :: seg)).
    rewrite IH, !Hm by (intros Hr x Hx; apply (Hh Hr); now right). pose proof (M0 : m (@nil Z) = 0). destruct (isSpaced f); [rewrite Hs, Z.add_assoc; reflexivity|lia].
Qed.
End Widths.

(** ** Where fragments come from *)
Section Origin.
Variable punct dashes parts : list rune -> list (list rune).
Variable isMark isDash breakable : list rune -> bool.
Notation wordFrags := (wordFrags parts isDash).
Notation pieceFrags := (pieceFrags dashes parts isMark isDash breakable).
Notation tokenFrags := (tokenFrags punct dashes parts isMark isDash breakable).
Notation paragraph := (paragraph punct dashes parts isMark isDash breakable).

(** a mark, or a part of a word *)
Definition origin (f : frag) : Prop :=
  (f_mark f = true -> isMark (f_text f) = true \/ isDash (f_text f) = true) /\
  (f_joint f = Soft -> exists w pre post, breakable w = true /\ post <> [] /\
    exists d, In d (dashes w) /\ isDash d = false /\ parts d = pre ++ f_text f :: post).
Lemma partFrags_soft ps f : In f (partFrags ps) -> f_mark f = false /\ (f_joint f = Soft -> exists pre post, ps = pre ++ f_text f :: post /\ post <> []).
Proof.
  induction ps as [|p ps IH]; [intros []|]. destruct ps as [|q ps].
  - intros [<-|[]]. split; [reflexivity|]. discriminate.
  - change (partFrags (p :: q :: ps)) with (mkFrag p false Soft :: partFrags (q :: ps)). intros [<-|H].
    + split; [reflexivity|]. intros _. exists [], (q :: ps). split; [reflexivity|discriminate].
    + destruct (IH H) as [H1 H2]. split; [exact H1|]. intros E. destruct (H2 E) as (pre & post & -> & Hp).
      exists (p :: pre), post. split; [reflexivity|exact Hp].
Qed.
Lemma token_origin t f : In f (tokenFrags t) -> origin f.
Proof.
  unfold SpecKP.tokenFrags. rewrite in_flat_map. intros (p & _ & H). unfold SpecKP.pieceFrags in H.
  destruct (isMark p) eqn:Em; [destruct H as [<-|[]]; split; [cbn; auto|discriminate]|].
  destruct (breakable p) eqn:Eb; [|destruct H as [<-|[]]; split; discriminate].
  apply in_flat_map in H. destruct H as (d & Hd & H). unfold SpecKP.wordFrags in H.
  destruct (isDash d) eqn:Ed; [destruct H as [<-|[]]; split; [cbn; auto|discriminate]|].
  apply partFrags_soft in H. destruct H as [H1 H2]. split; [congruence|]. intros E. destruct (H2 E) as (pre & post & E2 & Hp).
  exists p, pre, post. split; [exact Eb|]. split; [exact Hp|]. exists d. auto.
Qed.
Lemma endWith_origin j fs : j <> Soft -> Forall origin fs -> Forall origin (endWith j fs).
Proof.
  intros Hj. induction 1 as [|f fs Hf H IH]; [constructor|]. destruct fs as [|g fs].
  - constructor; [|constructor]. destruct Hf as [H1 _]. split; cbn [f_mark f_text f_joint]; [exact H1|congruence].
  - change (endWith j (f :: g :: fs)) with (f :: endWith j (g :: fs)). now constructor.
Qed.
Lemma paragraph_origin tokens : Forall origin (paragraph tokens).
Proof.
  assert (forall t, Forall origin (tokenFrags t)) as K by (intros t; apply Forall_forall; intros f; apply token_origin).
  induction tokens as [|t ts IH]; [constructor|]. destruct ts as [|t2 ts].
  - apply endWith_origin; [discriminate|apply K].
  - change (paragraph (t :: t2 :: ts)) with (endWith Space (tokenFrags t) ++ paragraph (t2 :: ts)). apply Forall_app.
    split; [|exact IH]. apply endWith_origin; [discriminate|apply K].
Qed.
End Origin.
(** ** Blanks *)
Definition noBlank (t : list rune) : Prop := Forall (fun r => r <> 32) t.
Definition trimmed (l : list rune) : Prop := (forall x, l <> 32 :: x) /\ (forall x, l <> x ++ [32]) /\ forall x y, l <> x ++ 32 :: 32 :: y.
Fixpoint scan (b : bool) (l : list rune) : bool :=
  match l with [] => negb b | r :: l' => if r =? 32 then negb b && scan true l' else scan false l' end.
Lemma scan_app t : noBlank t -> t <> [] -> forall b x, scan b (t ++ x) = scan false x.
Proof.
  intros H. induction H as [|r t Hr Ht IH]; [intros N; now destruct N|]. intros _ b x. cbn [app scan]. destruct (Z.eqb_spec r 32); [congruence|].
  destruct t as [|r2 t]; [reflexivity|]. now apply IH.
Qed.
Lemma scan_mono l : scan true l = true -> scan false l = true.
Proof. destruct l as [|r l]; [reflexivity|]. cbn [scan]. destruct (r =? 32); [discriminate|auto]. Qed.
Lemma scan_after x : forall b y, scan b (x ++ y) = true -> scan false y = true \/ scan true y = true.
Proof.
  induction x as [|r x IH]; intros b y; cbn [app].
  - destruct b; auto.
  - cbn [scan]. destruct (r =? 32); [|apply IH]. intros H. apply andb_prop in H. destruct H as [_ H]. now apply IH in H.
Qed.
Lemma scan_trim l : scan true l = true -> trimmed l.
Proof.
  intros H. split; [|split].
  - intros x ->. discriminate.
  - intros x ->. apply scan_after in H. destruct H; discriminate.
  - intros x y ->. apply scan_after in H. destruct H; discriminate.
Qed.
Lemma line_trim rh seg : seg <> [] -> Forall (fun f => f_text f <> [] /\ noBlank (f_text f)) seg -> trimmed (lineText rh seg).
Proof.
  intros Hs H. apply scan_trim. cut (forall b, scan b (lineText rh seg) = true); [auto|]. induction H as [|f seg [Hf1 Hf2] H IH]; [congruence|]. intros b. destruct seg as [|g seg].
  - cbn [lineText]. rewrite scan_app by assumption. now destruct (rh && isSoft f).
  - change (lineText rh (f :: g :: seg)) with (f_text f ++ (if isSpaced f then [32] else []) ++ lineText rh (g :: seg)).
    rewrite scan_app by assumption. destruct (isSpaced f); [cbn [app scan Z.eqb Pos.eqb negb andb]|cbn [app]]; apply IH; discriminate.
Qed.

(** ** The properties *)
Section Props.
Variable A : arith.
Variable L : laws A.
Variable u : unicode.
Variable o : lopts A.
Variable m : list rune -> Z.
Variable punct parts : list rune -> list (list rune).
Variable lb : breaker A.
Variable tokens : list (list rune).
Variable spare : nat -> list rune.
Variable maxWidth : F A.
Variable W : Z.
Variable ord : nat -> nat -> list fclass.
Hypothesis C : plainCall A L u o m punct parts lb tokens spare maxWidth W ord.
Notation rh := (l_renderHyphens o).
Notation tol := (k_tolerance (l_search o)).
Notation softOn := (negb (feq A (l_hyphenPenalty o) (fZ A 10000))).
Notation frs := (fragsOf u o punct parts tokens).
Notation linesOk := (linesOk rh m (m [32]) (hyphenW o m) A tol W true).
Notation align := (leftAlignUniform A u ord spare lb tokens maxWidth).

Lemma call : exists res lb', align = Ret (res, lb') /\ usable A u o lb' /\
  match res with
  | None => ~ exists segs, layout softOn frs segs /\ linesOk segs = true
  | Some ls => exists segs, ls = map (lineText rh) segs /\ layout softOn frs segs /\ linesOk segs = true /\
      (W <= 4997 -> forall segs', layout softOn frs segs' -> linesOk segs' = true ->
         (length (last segs' []) <= length (last segs []))%nat)
  end.
Proof. destruct C as [C1 C2 C3 C4 C5 C6 C7 C8]. now apply (call_spec A L u o m punct parts C1 lb C2 tokens spare C3 C4 C5 W C7 maxWidth C6 ord C8). Qed.
Lemma texts : Forall (fun f => f_text f <> []) frs /\ Forall (fun f => f_mark f = true -> f_joint f <> Soft) frs /\
  paraText frs = joinWith 32 tokens.
Proof. destruct C as [C1 C2 C3 C4 C5 C6 C7 C8]. now apply (frs_text A L u o m punct parts C1 lb C2). Qed.
Lemma shape : exists ini f, frs = ini ++ [f] /\ f_joint f = End_ /\ Forall (fun g => f_joint g <> End_) ini.
Proof. destruct C as [C1 C2 C3 C4 C5 C6 C7 C8]. now apply (frs_shape A L u o m punct parts C1 lb C2 tokens spare). Qed.
Lemma tol_no : fle A (fZ A 10000) tol = false.
Proof. apply C. Qed.

(** C44 *)
Lemma align_reflow ls lb' : align = Ret (Some ls, lb') -> reflow rh (joinWith 32 tokens) ls.
Proof.
  intros E. destruct call as (res & lb'' & E' & _ & H). rewrite E in E'. injection E' as <- <-. destruct H as (segs & -> & Hl & _).
  destruct texts as (H1 & _ & <-). eapply layout_reflow; [exact Hl|exact H1|]. destruct shape as (ini & f & H2 & H3 & _). eauto.
Qed.
(** C46 *)
Lemma align_sound ls lb' : align = Ret (Some ls, lb') -> exists segs, ls = map (lineText rh) segs /\ layout softOn frs segs /\ linesOk segs = true.
Proof.
  intros E. destruct call as (res & lb'' & E' & _ & H). rewrite E in E'. injection E' as <- <-. destruct H as (segs & H1 & H2 & H3 & _). eauto.
Qed.
(** C47 *)
Lemma align_complete : exists res lb', align = Ret (res, lb') /\
  (res = None <-> ~ exists segs, layout softOn frs segs /\ linesOk segs = true).
Proof.
  destruct call as (res & lb' & E & _ & H). exists res, lb'. split; [exact E|]. destruct res as [ls|]; [|tauto].
  destruct H as (segs & _ & H2 & H3 & _). split; [discriminate|]. intros N. exfalso. eauto.
Qed.
(** C51 *)
Lemma lineText_ne seg : seg <> [] -> Forall (fun f => f_text f <> []) seg -> lineText rh seg <> [].
Proof.
  intros Hs Hf. destruct seg as [|f seg]; [congruence|]. inversion Hf as [|? ? H _]; subst. destruct (f_text f) eqn:E; [congruence|].
  destruct seg; cbn [lineText]; rewrite E; discriminate.
Qed.
Lemma align_returns : exists res lb', align = Ret (res, lb') /\ usable A u o lb' /\
  forall ls, res = Some ls -> ls <> [] /\ Forall (fun l => l <> []) ls.
Proof.
  destruct call as (res & lb' & E & Hu & H). exists res, lb'. split; [exact E|]. split; [exact Hu|]. intros ls ->. destruct H as (segs & -> & Hl & _).
  destruct (layout_last _ _ _ Hl) as (Hc & Hn & Hs). split; [destruct segs; [congruence|discriminate]|].
  apply Forall_map. rewrite Forall_forall in *. intros s Hin. apply lineText_ne; [now apply Hs|].
  destruct texts as (Ht & _). rewrite Forall_forall in Ht. apply Forall_forall. intros f Hf. apply Ht. eapply layout_in; eassumption.
Qed.
(** C53 *)
Lemma align_too_wide f : In f frs -> W < m (f_text f) -> exists lb', align = Ret (None, lb').
Proof.
  intros Hf Hw. destruct call as (res & lb' & E & _ & H). destruct res as [ls|]; [|eauto]. exfalso.
  destruct H as (segs & _ & Hl & Hok & _). apply (linesOk_width _ _ _ _ _ _ _ tol_no) in Hok. destruct (layout_ne _ _ _ Hl) as [_ Hc].
  rewrite <- Hc in Hf. apply in_concat in Hf. destruct Hf as (s & Hs & Hfs). rewrite Forall_forall in Hok. specialize (Hok s Hs). cbn beta in Hok.
  destruct C as [C1 C2 C3 C4 C5 C6 C7 C8]. destruct (settings_regular A L u o m punct parts C1 lb C2) as (R & _ & Eo).
  pose proof (lineWidth_frag A L u lb m _ _ punct parts R s f Hfs) as K. rewrite Eo in K. lia.
Qed.
(** no hyphenation when word breaking is off *)
Lemma frs_whole : l_wordBreak o = false -> forall g h p, frs = paragraph punct g h (single (punctSplitFunc u)) p (fun _ => false) tokens.
Proof. intros E g h p. unfold fragsOf. rewrite E. cbn [andb]. reflexivity. Qed.
Lemma frs_nosoft : l_wordBreak o = false -> Forall (fun f => isSoft f = false) frs.
Proof.
  intros E. rewrite (frs_whole E (fun _ => []) (fun _ => []) (fun _ => false)). eapply Forall_impl; [|apply paragraph_origin].
  intros f [_ H]. unfold isSoft. destruct (f_joint f); try reflexivity. destruct (H eq_refl) as (w & _ & _ & H1 & _). discriminate.
Qed.
(** C45 *)
Lemma align_width : (forall a b, m (a ++ b) = m a + m b) -> forall ls lb', align = Ret (Some ls, lb') ->
  Forall (fun l => m l <= W) ls.
Proof.
  intros Hm ls lb' E. destruct (align_sound _ _ E) as (segs & -> & Hl & Hok). apply (linesOk_width _ _ _ _ _ _ _ tol_no) in Hok.
  apply Forall_map. rewrite Forall_forall in *. intros s Hs. rewrite <- (width_text rh m (m [32]) (hyphenW o m) Hm); [now apply Hok|reflexivity|].
  intros _ f Hf Hsoft. unfold hyphenW. destruct (l_wordBreak o) eqn:Ew; [reflexivity|exfalso].
  pose proof (frs_nosoft Ew) as N. rewrite Forall_forall in N. rewrite (N f) in Hsoft; [discriminate|]. eapply layout_in; eassumption.
Qed.
(** C50 *)
Lemma single_layout softOn' : frs <> [] -> layout softOn' frs [frs]. Proof. intros H. now constructor. Qed.
Lemma frs_ne : frs <> []. Proof. destruct shape as (ini & f & -> & _). now destruct ini. Qed.
Lemma layout_long softOn' segs : layout softOn' frs segs -> (length frs <= length (last segs []))%nat -> segs = [frs].
Proof.
  intros Hl Hlen. destruct (layout_last _ _ _ Hl) as (Hc & Hn & Hs). destruct (exists_last Hn) as (pre & s & ->). rewrite last_last in Hlen.
  rewrite concat_app in Hc. cbn [concat] in Hc. rewrite app_nil_r in Hc.
  destruct pre as [|p pre]; [cbn in Hc; subst; reflexivity|exfalso]. rewrite <- Hc, app_length in Hlen. cbn [concat] in Hlen. rewrite app_length in Hlen.
  inversion Hs as [|? ? Hp _]; subst. destruct p; [congruence|]. cbn [length] in Hlen. lia.
Qed.
Lemma lineText_all : lineText rh frs = joinWith 32 tokens.
Proof.
  destruct texts as (_ & _ & <-). destruct shape as (ini & f & -> & Hf & _). rewrite lineText_snoc. unfold paraText. rewrite flat_map_app.
  cbn [flat_map]. unfold fragText at 3, isSoft, isSpaced. now rewrite Hf, andb_false_r, !app_nil_r.
Qed.
Lemma align_one_line : W <= 4997 -> lineOk rh m (m [32]) (hyphenW o m) A tol W true true frs = true ->
  exists lb', align = Ret (Some [joinWith 32 tokens], lb').
Proof.
  intros HW Hok. destruct call as (res & lb' & E & _ & H). exists lb'. rewrite E. destruct res as [ls|].
  - destruct H as (segs & -> & Hl & _ & Hlong). specialize (Hlong HW [frs] (single_layout _ frs_ne) Hok). cbn [last] in Hlong.
    rewrite (layout_long _ _ Hl Hlong). cbn [map]. now rewrite lineText_all.
  - exfalso. apply H. exists [frs]. split; [apply single_layout, frs_ne|exact Hok].
Qed.
Lemma fit_ok : tol = fTolerance A -> (forall a b, m (a ++ b) = m a + m b) -> W <= 4997 -> m (joinWith 32 tokens) <= W ->
  lineOk rh m (m [32]) (hyphenW o m) A tol W true true frs = true.
Proof.
  intros Ht Hm HW Hfit. unfold lineOk.
  assert (lineWidth rh m (m [32]) (hyphenW o m) frs = m (joinWith 32 tokens)) as ->.
  { rewrite <- lineText_all. apply (width_text rh m (m [32]) (hyphenW o m) Hm); [reflexivity|]. intros _ f Hf Hsoft.
    unfold hyphenW. destruct (l_wordBreak o) eqn:Ew; [reflexivity|exfalso].
    pose proof (frs_nosoft Ew) as N. rewrite Forall_forall in N. rewrite (N f) in Hsoft; [discriminate|exact Hf]. }
  unfold lineRatio, lineStretch. cbn [negb andb]. set (w := m (joinWith 32 tokens)) in *.
  pose proof (proj1 (se_measure _ _ _ _ _ _ _ (pc_settings _ _ _ _ _ _ _ _ _ _ _ _ _ C) (joinWith 32 tokens))) as H0.
  destruct (Z.ltb_spec w W).
  - cbn [Z.ltb Z.compare Z.sub Z.opp Z.add]. unfold within. rewrite Ht.
    rewrite (proj2 (quo_low A L (W - w) 10000 ltac:(lia) ltac:(lia))), (quo_tol A L (W - w) 10000 ltac:(lia) ltac:(lia)). lia.
  - destruct (Z.ltb_spec W w); [lia|]. unfold within. rewrite Ht, (tol_zero A L).
    rewrite (rep_le A L _ _ (-1) 0); [reflexivity|apply rep_Z; unfold exactZ; lia|apply rep_Z; unfold exactZ; lia].
Qed.
(** C52, C57 *)
Lemma align_cuts ls lb' : align = Ret (Some ls, lb') -> exists segs, concat segs = frs /\
  Forall2 (fun l s => exists pre f, s = pre ++ [f] /\ l = paraText pre ++ f_text f ++ (if rh && isSoft f then [45] else [])) ls segs /\
  (forall pre s post, segs = pre ++ s :: post -> post <> [] -> exists l f, s = l ++ [f] /\
     ((exists r, f_text f = [r] /\ (punctSplitFunc u r = true \/ isHyphenRune r = true)) \/ f_joint f = Space \/
      (f_joint f = Soft /\ l_wordBreak o = true /\ exists w pre post, post <> [] /\ parts w = pre ++ f_text f :: post))).
Proof.
  intros E. destruct (align_sound _ _ E) as (segs & -> & Hl & _). exists segs. destruct (layout_ne _ _ _ Hl) as [Hs Hc].
  split; [exact Hc|]. split.
  - clear -Hs. induction Hs as [|s segs Hs _ IH]; constructor; [|exact IH]. destruct (exists_last Hs) as (pre & f & ->).
    exists pre, f. split; [reflexivity|]. apply lineText_snoc.
  - intros pre s post Es Hp. destruct (layout_cuts _ _ _ Hl pre s post Es Hp) as (l & f & -> & Hcut). exists l, f. split; [reflexivity|].
    assert (In f frs) as Hin by (eapply layout_in; [exact Hl|rewrite Es; apply in_or_app; right; now left|apply in_or_app; right; now left]).
    unfold fragsOf in Hin.
    pose proof (paragraph_origin punct (splitAt isHyphenRune) parts (single (punctSplitFunc u)) (single isHyphenRune)
      (fun w => l_wordBreak o && negb (zlen w <=? 4)) tokens) as O. rewrite Forall_forall in O. destruct (O f Hin) as [O1 O2].
    unfold cuttable in Hcut. destruct (f_mark f).
    + left. destruct (O1 eq_refl) as [H|H]; unfold single in H; destruct (f_text f) as [|r [|? ?]]; try discriminate; eauto.
    + destruct (f_joint f) eqn:Ej; try discriminate; [|tauto]. right. right. split; [reflexivity|].
      destruct (O2 eq_refl) as (w & pr & po & H1 & H2 & d & _ & _ & H3). apply andb_prop in H1. split; [tauto|]. eauto.
Qed.
(** C55 *)
Lemma align_no_break ls lb' : l_wordBreak o = false -> align = Ret (Some ls, lb') ->
  reflow false (joinWith 32 tokens) ls /\
  exists segs, Forall2 (fun l s => exists pre f, s = pre ++ [f] /\ l = paraText pre ++ f_text f) ls segs /\
    layout false (paragraph punct (fun w => [w]) (fun w => [w]) (single (punctSplitFunc u)) (fun _ => false) (fun _ => false) tokens) segs.
Proof.
  intros Ew E. destruct (align_sound _ _ E) as (segs & -> & Hl & _). pose proof (frs_nosoft Ew) as N.
  assert (map (lineText rh) segs = map (lineText false) segs) as El.
  { apply map_ext_in. intros s Hs. assert (Forall (fun f => isSoft f = false) s) as Ns.
    { rewrite Forall_forall in *. intros f Hf. apply N. eapply layout_in; eassumption. }
    clear -Ns. induction Ns as [|f s Hf _ IH]; [reflexivity|]. cbn [lineText]. rewrite Hf, andb_false_r. destruct s; [reflexivity|]. now rewrite IH. }
  rewrite El. assert (layout false frs segs) as Hl0.
  { clear -Hl N. revert Hl N. generalize frs. intros fs Hl. induction Hl as [seg Hs|seg f rest lines Hc Hl IH]; intros N; [now constructor|].
    apply Forall_app in N. destruct N as [N1 N2]. constructor; [|now apply IH]. apply Forall_app in N1. destruct N1 as [_ N1].
    inversion N1 as [|? ? Hf _]; subst. unfold cuttable, isSoft in *. destruct (f_joint f); congruence. }
  split.
  - destruct texts as (H1 & _ & <-). eapply layout_reflow; [exact Hl0|exact H1|]. destruct shape as (ini & f & H2 & H3 & _). eauto.
  - exists segs. rewrite (frs_whole Ew (fun w => [w]) (fun w => [w]) (fun _ => false)) in Hl0. split; [|exact Hl0].
    destruct (layout_ne _ _ _ Hl0) as [Hs _].
    clear -Hs. induction Hs as [|s segs Hs _ IH]; constructor; [|exact IH]. destruct (exists_last Hs) as (pre & f & ->).
    exists pre, f. split; [reflexivity|]. rewrite lineText_snoc. cbn [andb]. now rewrite app_nil_r.
Qed.
(** C58 *)
Lemma noBlank_frs : Forall noBlank tokens -> Forall (fun f => noBlank (f_text f)) frs.
Proof.
  intros Ht. destruct C as [C1 C2 C3 [C4 C5] C6 C7 C8 C9]. destruct (settings_regular A L u o m punct parts C1 lb C2) as (R & _ & _).
  rewrite <- (frs_eq A L u o m punct parts C1 lb C2 tokens). clear -R Ht C5.
  assert (forall j t, t <> [] -> noBlank t -> Forall (fun f => noBlank (f_text f)) (endWith j (tokenFrags punct (splitAt isHyphenRune) parts (single (punctSplitFunc u)) (single isHyphenRune) (breakable A lb) t))) as K.
  { intros j t Hn Hb. destruct (tokenFrags_ok A L u lb m _ _ punct parts R t Hn) as [_ H]. rewrite <- H in Hb. apply (Forall_map f_text noBlank).
    rewrite endWith_text. unfold textOf in Hb. revert Hb. generalize (map f_text (tokenFrags punct (splitAt isHyphenRune) parts (single (punctSplitFunc u)) (single isHyphenRune) (breakable A lb) t)).
    intros l. induction l as [|x l IH]; [constructor|]. cbn [concat]. intros Hb. apply Forall_app in Hb. destruct Hb. constructor; [assumption|now apply IH]. }
  induction Ht as [|t ts Hb Hts IH]; [constructor|]. inversion C5; subst. destruct ts as [|t2 ts]; [now apply K|].
  cbn [paragraph]. apply Forall_app. split; [now apply K|now apply IH].
Qed.
Lemma align_trimmed ls lb' : Forall noBlank tokens -> align = Ret (Some ls, lb') -> Forall trimmed ls.
Proof.
  intros Hb E. destruct (align_sound _ _ E) as (segs & -> & Hl & _). destruct (layout_ne _ _ _ Hl) as [Hs _]. pose proof (noBlank_frs Hb) as Hn.
  destruct texts as (Ht & _). apply Forall_map. rewrite Forall_forall in *. intros s Hin. apply line_trim; [now apply Hs|].
  apply Forall_forall. intros f Hf. pose proof (layout_in _ _ _ _ _ Hl Hin Hf) as Hfr. auto.
Qed.
(** C62 *)
Lemma align_last ls lb' : W <= 4997 -> align = Ret (Some ls, lb') -> exists segs, ls = map (lineText rh) segs /\ layout softOn frs segs /\
  forall segs', layout softOn frs segs' -> linesOk segs' = true -> (length (last segs' []) <= length (last segs []))%nat.
Proof.
  intros HW E. destruct call as (res & lb'' & E' & _ & H). rewrite E in E'. injection E' as <- <-. destruct H as (segs & H1 & H2 & H3 & H4). eauto.
Qed.
End Props.

(** C48: two calls that differ by the history of the line breaker, the spare capacities and the iteration orders *)
Lemma last_map {S T} (f : S -> T) (l : list S) d : l <> [] -> last (map f l) (f d) = f (last l d).
Proof. intros H. destruct (exists_last H) as (x & y & ->). rewrite map_app. cbn [map]. now rewrite !last_last. Qed.
Lemma concat_last {T} (segs : list (list T)) fs : segs <> [] -> concat segs = fs -> exists p, fs = p ++ last segs [].
Proof. intros H <-. destruct (exists_last H) as (x & y & ->). rewrite last_last, concat_app. cbn. rewrite app_nil_r. eauto. Qed.
Lemma align_same A L u o m punct parts tokens maxWidth W lb1 spare1 ord1 lb2 spare2 ord2 :
  plainCall A L u o m punct parts lb1 tokens spare1 maxWidth W ord1 ->
  plainCall A L u o m punct parts lb2 tokens spare2 maxWidth W ord2 -> exists r1 lb1' r2 lb2',
  leftAlignUniform A u ord1 spare1 lb1 tokens maxWidth = Ret (r1, lb1') /\
  leftAlignUniform A u ord2 spare2 lb2 tokens maxWidth = Ret (r2, lb2') /\
  match r1, r2 with
  | None, None => True
  | Some ls1, Some ls2 => W <= 4997 -> last ls1 [] = last ls2 []
  | _, _ => False
  end.
Proof.
  intros C1 C2. destruct (call _ _ _ _ _ _ _ _ _ _ _ _ _ C1) as (r1 & lb1' & E1 & _ & H1).
  destruct (call _ _ _ _ _ _ _ _ _ _ _ _ _ C2) as (r2 & lb2' & E2 & _ & H2).
  exists r1, lb1', r2, lb2'. split; [exact E1|]. split; [exact E2|]. destruct r1 as [ls1|], r2 as [ls2|]; [|apply H2; destruct H1 as (sg & _ & X & Y & _); exists sg; auto|apply H1; destruct H2 as (sg & _ & X & Y & _); exists sg; auto|exact I].
  intros HW. destruct H1 as (s1 & -> & L1 & O1 & M1), H2 as (s2 & -> & L2 & O2 & M2).
  specialize (M1 HW _ L2 O2). specialize (M2 HW _ L1 O1).
  destruct (layout_last _ _ _ L1) as (Hc1 & Hn1 & _), (layout_last _ _ _ L2) as (Hc2 & Hn2 & _).
  destruct (concat_last _ _ Hn1 Hc1) as (p1 & P1), (concat_last _ _ Hn2 Hc2) as (p2 & P2).
  rewrite P1 in P2. assert (length p1 = length p2) as Hlen by (apply (f_equal (@length _)) in P2; rewrite !app_length in P2; lia).
  assert (last s1 [] = last s2 []) as Es.
  { clear -P2 Hlen. revert p2 P2 Hlen. induction p1 as [|x p1 IH]; intros [|y p2] P H; cbn in *; try discriminate; [exact P|].
    injection P as _ P. apply (IH p2); [exact P|lia]. }
  change (@nil rune) with (lineText (l_renderHyphens o) []). rewrite !last_map by assumption. now rewrite Es.
Qed.
