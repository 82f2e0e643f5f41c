(** Exactly which layouts LeftAlignUniform returns on plain tokens; consequences for the hyphen penalty. *)
From Verif Require Import Base Arith Unicode Split SpecSplit SplitProofs Ansi SpecAnsi AnsiProofs Attr Hyph KP Nodes Render SpecKP SpecGreedy
  KPProofs Frags Para Tokens Align Options Call Settings AlignProofs Fresh Succeed Compare.

Section Call.
Variable A : arith.
Variable L : laws A.
Variable u : unicode.
Variable o : lopts A.
Variable m : list rune -> Z.
Variable punct parts : list rune -> list (list rune).
Variable lb : breaker A.
Variable tokens : list (list rune).
Variable spare : nat -> list rune.
Variable maxWidth : F A.
Variable W : Z.
Variable ord : nat -> nat -> list fclass.
Hypothesis C : plainCall A L u o m punct parts lb tokens spare maxWidth W ord.
Notation rh := (l_renderHyphens o).
Notation tol := (k_tolerance (l_search o)).
Notation softOn := (negb (feq A (l_hyphenPenalty o) (fZ A 10000))).
Notation frs := (fragsOf u o punct parts tokens).
Notation greedy := (greedy rh softOn m (m [32]) (hyphenW o m) A tol W frs 0).

Ltac setup := destruct C as [S U [Ht1 Ht2] [Hne1 Hne2] Hwidth HmaxW HW Hord];
  destruct (settings_regular A L u o m punct parts S lb U) as (R & Hp & E);
  pose proof (frs_eq A L u o m punct parts S lb U tokens) as Ef;
  assert (Forall (fun t => t <> [] /\ ~ hasCSI t /\ Forall okRune t) tokens) as Htok
    by (rewrite Forall_forall in *; intros t Hin; split; [now apply Hne2|now apply Ht1]);
  rewrite <- Ef, <- E in Hwidth; rewrite <- E in HmaxW; rewrite <- E in R.
Lemma call_greedy ord' ls lb' : (forall i k c, In c (ord' i k)) -> leftAlignUniform A u ord' spare lb tokens maxWidth = Ret (Some ls, lb') ->
  exists segs, greedy segs /\ ls = map (lineText rh) segs.
Proof.
  intros Ho'. setup. pose proof (align_greedy A L u lb m (m [32]) (hyphenW (lb_opts lb) m) punct parts R Hp tokens spare Hne1 Htok Ht2 Hwidth W HW maxWidth HmaxW ord' Ho' ls lb') as G.
  rewrite Ef, E in G. exact G.
Qed.
Lemma call_steered segs : greedy segs -> exists f lb',
  leftAlignUniform A u (fun i _ => rotation (f i)) spare lb tokens maxWidth = Ret (Some (map (lineText rh) segs), lb').
Proof.
  setup. pose proof (align_steered A L u lb m (m [32]) (hyphenW (lb_opts lb) m) punct parts R Hp tokens spare Hne1 Htok Ht2 Hwidth W HW maxWidth HmaxW segs) as G.
  rewrite Ef, E in G. intros Hg. destruct (G Hg) as (f & Hf). eauto.
Qed.
(** C88 *)
Theorem greedy_exact ls :
  (exists segs, greedy segs /\ ls = map (lineText rh) segs) <->
  exists ord' lb', (forall i k, Permutation.Permutation (ord' i k) [C0; C1; C2; C3]) /\
    leftAlignUniform A u ord' spare lb tokens maxWidth = Ret (Some ls, lb').
Proof.
  split.
  - intros (segs & Hg & ->). destruct (call_steered segs Hg) as (f & lb' & E). exists (fun i _ => rotation (f i)), lb'. split; [|exact E].
    intros i _. destruct (f i); cbn [rotation].
    + apply Permutation.Permutation_refl.
    + symmetry. apply (Permutation.Permutation_cons_append [C1; C2; C3] C0).
    + apply (Permutation.Permutation_app_comm [C2; C3] [C0; C1]).
    + apply (Permutation.Permutation_cons_append [C0; C1; C2] C3).
  - intros (ord' & lb' & Ho & E). apply (call_greedy ord' ls lb'); [|exact E].
    intros i k c. apply (Permutation.Permutation_in c (Permutation.Permutation_sym (Ho i k))). destruct c; cbn; tauto.
Qed.
(** C50: the layouts with a single line *)
Lemma one_line_greedy : lineOk rh m (m [32]) (hyphenW o m) A tol W true true frs = true <-> greedy [frs].
Proof.
  pose proof (shape _ _ _ _ _ _ _ _ _ _ _ _ _ C) as (ini & z & Ez & Hz & _).
  assert (forall j, isLast frs j = true -> piece frs 0 j = frs) as Hpiece.
  { intros j Hj. unfold isLast in Hj. apply Nat.eqb_eq in Hj. unfold piece. rewrite Hj, firstn_all. reflexivity. }
  split.
  - intros Hok. set (j := length ini).
    assert (isLast frs j = true) as Hj by (unfold isLast, j; rewrite Ez, app_length; cbn [length]; apply Nat.eqb_eq; lia).
    assert (nth_error frs j = Some z) as Hn by (unfold j; rewrite Ez, nth_error_app2, Nat.sub_diag; [reflexivity|lia]).
    enough (greedy [piece frs 0 j]) as G by (now rewrite (Hpiece j Hj) in G). apply gr_last; [|exact Hj]. split; [|split].
    + split; [apply st_first|]. split; [lia|]. split; [exists z; tauto|]. unfold SpecGreedy.fits. rewrite (Hpiece j Hj), Hj. exact Hok.
    + intros. lia.
    + intros (k' & _ & Hr). exfalso. revert Hr. unfold rank, afterWord. rewrite Hn. unfold isSpaced. rewrite Hz. cbn [andb].
      unfold tightness. destruct (_ || _); [discriminate|]. now destruct (_ <=? _).
  - intros G. remember [frs] as segs eqn:Es. remember 0%nat as k eqn:Ek. destruct G as [k j [(_ & _ & _ & Hf) _] Hj|k j lines _ _ G'].
    + subst k. unfold SpecGreedy.fits in Hf. now rewrite Hj, (Hpiece j Hj) in Hf.
    + injection Es as _ ->. inversion G'.
Qed.
Theorem one_line_possible :
  lineOk rh m (m [32]) (hyphenW o m) A tol W true true frs = true <->
  exists ord' lb', (forall i k, Permutation.Permutation (ord' i k) [C0; C1; C2; C3]) /\
    leftAlignUniform A u ord' spare lb tokens maxWidth = Ret (Some [joinWith 32 tokens], lb').
Proof.
  rewrite one_line_greedy, <- greedy_exact. pose proof (lineText_all _ _ _ _ _ _ _ _ _ _ _ _ _ C) as Ht. split.
  - intros G. exists [frs]. split; [exact G|]. cbn [map]. now rewrite Ht.
  - intros (segs & G & E). destruct segs as [|seg [|]]; try discriminate. enough (seg = frs) as Eseg by (now rewrite Eseg in G).
    remember [seg] as segs eqn:Es. remember 0%nat as k eqn:Ek. destruct G as [k j _ Hj|k j lines _ _ G'].
    + injection Es as <-. subst k. unfold isLast in Hj. apply Nat.eqb_eq in Hj. unfold piece. now rewrite Hj, firstn_all.
    + injection Es as _ ->. inversion G'.
Qed.
Lemma fit_exact : tol = fTolerance A -> (forall a b, m (a ++ b) = m a + m b) ->
  (lineOk rh m (m [32]) (hyphenW o m) A tol W true true frs = true <-> m (joinWith 32 tokens) <= W <= m (joinWith 32 tokens) + 86000).
Proof.
  intros Ht Hm. unfold lineOk.
  assert (lineWidth rh m (m [32]) (hyphenW o m) frs = m (joinWith 32 tokens)) as ->.
  { rewrite <- (lineText_all _ _ _ _ _ _ _ _ _ _ _ _ _ C). apply (width_text rh m (m [32]) (hyphenW o m) Hm); [reflexivity|]. intros _ f Hf Hsoft.
    unfold hyphenW. destruct (l_wordBreak o) eqn:Ew; [reflexivity|exfalso].
    pose proof (frs_nosoft A u o punct parts tokens Ew) as N. rewrite Forall_forall in N. rewrite (N f) in Hsoft; [discriminate|exact Hf]. }
  unfold lineRatio, lineStretch. cbn [negb andb]. set (w := m (joinWith 32 tokens)) in *.
  pose proof (proj1 (se_measure _ _ _ _ _ _ _ (pc_settings _ _ _ _ _ _ _ _ _ _ _ _ _ C) (joinWith 32 tokens))) as H0.
  pose proof (pc_bounds _ _ _ _ _ _ _ _ _ _ _ _ _ C) as HW.
  destruct (Z.ltb_spec w W).
  - cbn [Z.ltb Z.compare Z.sub Z.opp Z.add]. unfold within. rewrite Ht.
    rewrite (proj2 (quo_low A L (W - w) 10000 ltac:(lia) ltac:(lia))), (quo_tol A L (W - w) 10000 ltac:(lia) ltac:(lia)). lia.
  - destruct (Z.ltb_spec W w).
    + split; [|lia]. unfold within. rewrite (tol_no _ _ _ _ _ _ _ _ _ _ _ _ _ C), andb_false_r. discriminate.
    + unfold within. rewrite Ht, (tol_zero A L).
      rewrite (rep_le A L _ _ (-1) 0); [|apply rep_Z; unfold exactZ; lia|apply rep_Z; unfold exactZ; lia]. cbn. split; [lia|reflexivity].
Qed.
Theorem one_line_exact : tol = fTolerance A -> (forall a b, m (a ++ b) = m a + m b) ->
  (m (joinWith 32 tokens) <= W <= m (joinWith 32 tokens) + 86000 <->
   exists ord' lb', (forall i k, Permutation.Permutation (ord' i k) [C0; C1; C2; C3]) /\
     leftAlignUniform A u ord' spare lb tokens maxWidth = Ret (Some [joinWith 32 tokens], lb')).
Proof. intros Ht Hm. rewrite <- (fit_exact Ht Hm). exact one_line_possible. Qed.
End Call.

(** ** The hyphen penalty *)
(** C88: two penalties that allow hyphenation, or two that do not *)
Theorem penalty_same A L u opts p1 p2 m punct parts tokens maxWidth W lb1 spare1 ord1 lb2 spare2 ord2 :
  plainCall A L u (newWith A u opts (WithHyphenPenalty p1)) m punct parts lb1 tokens spare1 maxWidth W ord1 ->
  plainCall A L u (newWith A u opts (WithHyphenPenalty p2)) m punct parts lb2 tokens spare2 maxWidth W ord2 ->
  feq A p1 (fZ A 10000) = feq A p2 (fZ A 10000) ->
  forall ls lb1', leftAlignUniform A u ord1 spare1 lb1 tokens maxWidth = Ret (Some ls, lb1') ->
  exists ord lb2', (forall i k, Permutation.Permutation (ord i k) [C0; C1; C2; C3]) /\
    leftAlignUniform A u ord spare2 lb2 tokens maxWidth = Ret (Some ls, lb2').
Proof.
  intros C1 C2 Hp ls lb1' E.
  destruct (call_greedy A L u _ m punct parts lb1 tokens spare1 maxWidth W ord1 C1 ord1 ls lb1' (pc_order _ _ _ _ _ _ _ _ _ _ _ _ _ C1) E) as (segs & Hg & ->).
  apply (greedy_exact A L u _ m punct parts lb2 tokens spare2 maxWidth W ord2 C2). exists segs. clear C1 C2 E.
  unfold newWith, withOptions in *. rewrite !fold_left_app in *.
  destruct (fold_left _ opts _) as [[tol bad li fl fi] ms sc wb rh hp hh pp h p mi gl]. cbn in *. rewrite <- Hp. split; [exact Hg|reflexivity].
Qed.
Lemma layout_cut_text (rh : bool) fs segs : layout false fs segs -> Forall (fun f => f_mark f = true -> f_joint f <> Soft) fs ->
  (exists ini f, fs = ini ++ [f] /\ f_joint f = End_) -> map (lineText rh) segs = map (lineText false) segs.
Proof.
  induction 1 as [seg Hs|seg f rest lines Hc Hl IH]; intros Hf (ini & z & E & Hz).
  - cbn [map]. rewrite E, !lineText_snoc. unfold isSoft. now rewrite Hz, andb_false_r.
  - apply Forall_app in Hf. destruct Hf as [Hf1 Hf2]. apply Forall_app in Hf1. destruct Hf1 as [_ Hf1]. inversion Hf1 as [|? ? Hf _]; subst.
    cbn [map]. rewrite !lineText_snoc. assert (isSoft f = false) as ->.
    { unfold cuttable in Hc. unfold isSoft. destruct (f_joint f); try reflexivity. destruct (f_mark f); [now destruct Hf|discriminate]. }
    rewrite andb_false_r. f_equal. apply IH; [exact Hf2|]. destruct (layout_last _ _ _ Hl) as (E0 & Hne & H3).
    assert (rest <> []) as Hr.
    { intros ->. destruct lines as [|l lines]; [congruence|]. cbn in E0. inversion H3; subst. apply app_eq_nil in E0. tauto. }
    destruct (exists_last Hr) as (r' & g & ->). rewrite app_assoc in E. apply app_inj_tail in E. destruct E as [_ ->]. eauto.
Qed.
(** C89: the penalty 10000 *)
Theorem penalty_infinite A L u o m punct parts lb tokens spare maxWidth W ord :
  plainCall A L u o m punct parts lb tokens spare maxWidth W ord -> feq A (l_hyphenPenalty o) (fZ A 10000) = true ->
  forall ls lb', leftAlignUniform A u ord spare lb tokens maxWidth = Ret (Some ls, lb') ->
  reflow false (joinWith 32 tokens) ls /\
  exists segs, ls = map (lineText false) segs /\ concat segs = fragsOf u o punct parts tokens /\
    forall pre s post, segs = pre ++ s :: post -> post <> [] -> exists l f, s = l ++ [f] /\
      ((exists r, f_text f = [r] /\ (punctSplitFunc u r = true \/ isHyphenRune r = true)) \/ f_joint f = Space).
Proof.
  intros C Hp ls lb' E. pose proof (align_sound _ _ _ _ _ _ _ _ _ _ _ _ _ C _ _ E) as (segs & -> & Hl & _). rewrite Hp in Hl. cbn [negb] in Hl.
  pose proof (texts _ _ _ _ _ _ _ _ _ _ _ _ _ C) as (T1 & T2 & T3). pose proof (shape _ _ _ _ _ _ _ _ _ _ _ _ _ C) as (ini & z & Ez & Hz & _).
  rewrite (layout_cut_text _ _ _ Hl T2) by eauto. split; [rewrite <- T3; eapply layout_reflow; eauto|].
  exists segs. destruct (layout_ne _ _ _ Hl) as [_ Hc]. split; [reflexivity|]. split; [exact Hc|].
  intros pre s post Es Hne. destruct (layout_cuts _ _ _ Hl pre s post Es Hne) as (l & f & -> & Hcut). exists l, f. split; [reflexivity|].
  assert (In f (fragsOf u o punct parts tokens)) as Hin by (eapply layout_in; [exact Hl|rewrite Es; apply in_or_app; right; now left|apply in_or_app; right; now left]).
  unfold fragsOf in Hin.
  pose proof (paragraph_origin punct (splitAt isHyphenRune) parts (single (punctSplitFunc u)) (single isHyphenRune)
    (fun w => l_wordBreak o && negb (zlen w <=? 4)) tokens) as O. rewrite Forall_forall in O. destruct (O f Hin) as [O1 _].
  unfold cuttable in Hcut. destruct (f_mark f).
  - left. destruct (O1 eq_refl) as [H|H]; unfold single in H; destruct (f_text f) as [|r [|? ?]]; try discriminate; eauto.
  - destruct (f_joint f) eqn:Ej; try discriminate; tauto.
Qed.

(** C90: WithLooseness *)
Theorem looseness_ignored A u opts1 q opts2 :
  newLineBreaker A u (opts1 ++ WithLooseness q :: opts2) = newLineBreaker A u (opts1 ++ opts2).
Proof.
  unfold newLineBreaker, withOptions. rewrite !fold_left_app. cbn [fold_left].
  destruct (fold_left _ opts1 _) as [[tol bad li fl fi] ms sc wb rh hp hh pp h p mi gl]. reflexivity.
Qed.

(** C48: when all calls return the same lines *)
Theorem determined_iff A L u o m punct parts tokens maxWidth W lb spare ord :
  plainCall A L u o m punct parts lb tokens spare maxWidth W ord ->
  (forall lb1 spare1 ord1 ls1 lb1' lb2 spare2 ord2 ls2 lb2',
     plainCall A L u o m punct parts lb1 tokens spare1 maxWidth W ord1 ->
     plainCall A L u o m punct parts lb2 tokens spare2 maxWidth W ord2 ->
     leftAlignUniform A u ord1 spare1 lb1 tokens maxWidth = Ret (Some ls1, lb1') ->
     leftAlignUniform A u ord2 spare2 lb2 tokens maxWidth = Ret (Some ls2, lb2') -> ls1 = ls2) <->
  (forall segs1 segs2,
     SpecGreedy.greedy (l_renderHyphens o) (negb (feq A (l_hyphenPenalty o) (fZ A 10000))) m (m [32]) (hyphenW o m) A (k_tolerance (l_search o)) W
       (fragsOf u o punct parts tokens) 0 segs1 ->
     SpecGreedy.greedy (l_renderHyphens o) (negb (feq A (l_hyphenPenalty o) (fZ A 10000))) m (m [32]) (hyphenW o m) A (k_tolerance (l_search o)) W
       (fragsOf u o punct parts tokens) 0 segs2 ->
     map (lineText (l_renderHyphens o)) segs1 = map (lineText (l_renderHyphens o)) segs2).
Proof.
  intros C. split.
  - intros H segs1 segs2 G1 G2.
    destruct (call_steered A L u o m punct parts lb tokens spare maxWidth W ord C segs1 G1) as (f1 & lb1' & E1).
    destruct (call_steered A L u o m punct parts lb tokens spare maxWidth W ord C segs2 G2) as (f2 & lb2' & E2).
    assert (forall f : nat -> fclass, forall i k c, In c ((fun i (_ : nat) => rotation (f i)) i k)) as Hr
      by (intros f i k c; destruct (f i), c; cbn; tauto).
    destruct C as [X1 X2 X3 X4 X5 X6 X7 X8].
    refine (H lb spare _ _ lb1' lb spare _ _ lb2' _ _ E1 E2); constructor; auto.
  - intros H lb1 spare1 ord1 ls1 lb1' lb2 spare2 ord2 ls2 lb2' P1 P2 E1 E2.
    destruct (call_greedy A L u o m punct parts lb1 tokens spare1 maxWidth W ord1 P1 ord1 ls1 lb1' (pc_order _ _ _ _ _ _ _ _ _ _ _ _ _ P1) E1) as (s1 & G1 & ->).
    destruct (call_greedy A L u o m punct parts lb2 tokens spare2 maxWidth W ord2 P2 ord2 ls2 lb2' (pc_order _ _ _ _ _ _ _ _ _ _ _ _ _ P2) E2) as (s2 & G2 & ->).
    exact (H s1 s2 G1 G2).
Qed.
