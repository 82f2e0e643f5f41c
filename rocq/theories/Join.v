(** Two texts set together. *)
From Coq Require Import Permutation.
From Verif Require Import Base Arith Unicode Split SpecSplit SplitProofs Ansi SpecAnsi AnsiProofs Attr Hyph KP Nodes Render SpecKP Tokens Align
  Options Call Settings AlignProofs Reuse Fresh Compare Sub Again Succeed SpecGreedy Greedy Fewest Atoms.
Open Scope Z_scope.

Lemma layout_join rh softOn m sp hy fs2 segs2 : layout softOn fs2 segs2 -> forall fs1 segs1, layout softOn fs1 segs1 ->
  forall ini f, fs1 = ini ++ [f] -> isSoft f = false ->
  exists segs, layout softOn (endWith Space fs1 ++ fs2) (segs ++ segs2) /\ length segs = length segs1 /\
    forall s, In s segs -> exists s1, In s1 segs1 /\ lineWidth rh m sp hy s = lineWidth rh m sp hy s1 /\ (lastSoft s = true -> lastSoft s1 = true).
Proof.
  intros H2. induction 1 as [seg Hs|seg g rest ls Hc Hl IH]; intros ini f E Hf.
  - subst seg. rewrite endWith_snoc'. exists [ini ++ [mkFrag (f_text f) (f_mark f) Space]]. split; [|split; [reflexivity|]].
    + cbn [app]. constructor; [apply orb_true_r|exact H2].
    + intros s [<-|[]]. exists (ini ++ [f]). split; [now left|]. split; [apply lineWidth_end; [exact Hf|discriminate]|].
      unfold lastSoft. rewrite !rev_app_distr. cbn. discriminate.
  - assert (rest <> []) as Hr by (destruct Hl as [? ?|? ? ? ? ? ?]; [assumption|destruct seg0; discriminate]).
    destruct (exists_last Hr) as (a & x & Ea). assert (x = f) as ->.
    { rewrite Ea, app_assoc in E. now apply app_inj_tail in E. }
    destruct (IH a f Ea Hf) as (segs & L1 & L2 & L3). exists ((seg ++ [g]) :: segs). split; [|split; [cbn; now rewrite L2|]].
    + rewrite Ea in L1 |- *. rewrite app_assoc, endWith_snoc'. rewrite endWith_snoc' in L1. cbn [app]. rewrite <- app_assoc.
      rewrite <- (app_assoc (seg ++ [g])). apply lay_cut; [exact Hc|]. now rewrite <- app_assoc in L1.
    + intros s [<-|Hin]; [exists (seg ++ [g]); split; [now left|]; now split|]. destruct (L3 s Hin) as (s1 & H1 & H3). exists s1. split; [now right|exact H3].
Qed.

(** C134 *)
Theorem align_join A L u o m punct parts t1 t2 maxWidth W lb1 spare1 ord1 lb2 spare2 ord2 lb spare ord :
  plainCall A L u o m punct parts lb1 t1 spare1 maxWidth W ord1 ->
  plainCall A L u o m punct parts lb2 t2 spare2 maxWidth W ord2 ->
  plainCall A L u o m punct parts lb (t1 ++ t2) spare maxWidth W ord ->
  k_tolerance (l_search o) = fTolerance A -> l_renderHyphens o = true \/ l_wordBreak o = false ->
  marksGlued (negb (feq A (l_hyphenPenalty o) (fZ A 10000))) (fragsOf u o punct parts (t1 ++ t2)) ->
  (l_renderHyphens o = true -> Forall (fun f => hyphenW o m <= m (f_text f)) (fragsOf u o punct parts (t1 ++ t2))) ->
  W + m [32] <= 52 ->
  forall ls1 ls2 lb1' lb2', leftAlignUniform A u ord1 spare1 lb1 t1 maxWidth = Ret (Some ls1, lb1') ->
  leftAlignUniform A u ord2 spare2 lb2 t2 maxWidth = Ret (Some ls2, lb2') ->
  exists ls ord' lb', (forall i k, Permutation (ord' i k) [C0; C1; C2; C3]) /\
    leftAlignUniform A u ord' spare lb (t1 ++ t2) maxWidth = Ret (Some ls, lb') /\ (length ls <= length ls1 + length ls2)%nat.
Proof.
  intros C1 C2 C Htol Hrh Hg Hth HW ls1 ls2 lb1' lb2' E1 E2.
  destruct (align_sound _ _ _ _ _ _ _ _ _ _ _ _ _ C1 _ _ E1) as (segs1 & -> & Hl1 & Hok1).
  destruct (align_sound _ _ _ _ _ _ _ _ _ _ _ _ _ C2 _ _ E2) as (segs2 & -> & Hl2 & Hok2).
  assert (fle A (fZ A 10000) (k_tolerance (l_search o)) = false) as Ht by (rewrite Htol; apply (tol_inf A L)).
  apply (linesOk_width _ _ _ _ _ _ _ Ht) in Hok1, Hok2.
  assert (forall t, 0 <= m t) as Hm by (intros t; apply (se_measure _ _ _ _ _ _ _ (pc_settings _ _ _ _ _ _ _ _ _ _ _ _ _ C1))).
  assert (0 <= hyphenW o m) as Hhy by (unfold hyphenW; destruct (l_wordBreak o); [apply Hm|lia]).
  destruct (shape _ _ _ _ _ _ _ _ _ _ _ _ _ C1) as (ini & f & Ef & Hj & _).
  destruct (layout_join (l_renderHyphens o) _ m (m [32]) (hyphenW o m) _ _ Hl2 _ _ Hl1 ini f Ef) as (segs & Hl & Hlen & Hsame); [unfold isSoft; now rewrite Hj|].
  destruct (pc_nonempty _ _ _ _ _ _ _ _ _ _ _ _ _ C1) as [Hn1 Hne1]. pose proof (proj1 (pc_nonempty _ _ _ _ _ _ _ _ _ _ _ _ _ C2)) as Hn2.
  rewrite <- (frags_app A L u o m punct parts lb1 t1 t2 spare1 (pc_settings _ _ _ _ _ _ _ _ _ _ _ _ _ C1) (pc_breaker _ _ _ _ _ _ _ _ _ _ _ _ _ C1)
    (pc_tokens _ _ _ _ _ _ _ _ _ _ _ _ _ C1) Hn1 Hn2 Hne1) in Hl.
  assert (W <= 85948) as HW2 by (pose proof (Hm [32]); lia).
  assert (Forall (fun s => lineWidth (l_renderHyphens o) m (m [32]) (hyphenW o m) s <= W) (segs ++ segs2)) as Hw.
  { apply Forall_app. split; [|exact Hok2]. apply Forall_forall. intros s Hs. destruct (Hsame s Hs) as (s1 & Hin & -> & _).
    rewrite Forall_forall in Hok1. now apply Hok1. }
  destruct (fill_count A L (l_renderHyphens o) (negb (feq A (l_hyphenPenalty o) (fZ A 10000))) m (m [32]) (hyphenW o m) Hm (Hm _) Hhy W
    (pc_bounds _ _ _ _ _ _ _ _ _ _ _ _ _ C) HW2 (fragsOf u o punct parts (t1 ++ t2)) (segs ++ segs2) Hl) as (segs3 & L1 & L2 & L3).
  - eapply Forall_impl; [|exact Hw]. intros s Hs. cbv beta in *. unfold Succeed.fits. lia.
  - now apply (layout_starts _ _ _ Hl).
  - apply Forall_forall. intros s Hs. destruct Hrh as [Hrh|Hwb]; [now left|]. right.
    pose proof (frs_nosoft A u o punct parts (t1 ++ t2) Hwb) as N. rewrite Forall_forall in N.
    unfold lastSoft. destruct (rev s) as [|x s'] eqn:Er; [reflexivity|]. apply N. eapply layout_in; [exact Hl|exact Hs|].
    apply in_rev. rewrite Er. now left.
  - destruct (align_fewest A L u o m punct parts lb (t1 ++ t2) spare maxWidth W ord C) with (segs := segs3) as (ls & ord' & lb' & Ho & E3 & Hlen3); try assumption.
    + rewrite Htol. apply (tol_zero A L).
    + now rewrite Htol.
    + exists ls, ord', lb'. split; [exact Ho|]. split; [exact E3|]. rewrite !map_length. rewrite app_length in L3. lia.
Qed.

(** The other way: a text cut in two *)
Lemma layout_apart rh softOn m sp hy fs2 : (forall t, 0 <= m t) -> 0 <= sp -> 0 <= hy -> (rh = true -> Forall (fun f => hy <= m (f_text f)) fs2) -> fs2 <> [] ->
  forall fs segs, layout softOn fs segs -> forall ini f, fs = (ini ++ [mkFrag (f_text f) (f_mark f) Space]) ++ fs2 -> isSoft f = false ->
  exists segs1 segs2, layout softOn (ini ++ [f]) segs1 /\ layout softOn fs2 segs2 /\ (length segs1 + length segs2 <= S (length segs))%nat /\
    forall s, In s segs1 \/ In s segs2 -> exists seg, In seg segs /\ lineWidth rh m sp hy s <= lineWidth rh m sp hy seg.
Proof.
  intros Hm Hsp Hhy Hth Hn. set (f' := fun f : frag => mkFrag (f_text f) (f_mark f) Space).
  assert (forall ini f b, isSoft f = false -> (rh = true -> Forall (fun f => hy <= m (f_text f)) b) ->
    lineWidth rh m sp hy (ini ++ [f]) <= lineWidth rh m sp hy ((ini ++ [f' f]) ++ b)) as K.
  { intros ini f b Hf Hb. rewrite <- (lineWidth_end rh m sp hy ini f Space Hf ltac:(discriminate)). apply (width_piece rh m sp hy []); assumption. }
  induction 1 as [seg Hs|seg x rest ls Hc Hl IH]; intros ini f E Hf; fold (f' f) in E.
  - exists [ini ++ [f]], [fs2]. split; [apply lay_last; destruct ini; discriminate|]. split; [now apply lay_last|]. split; [cbn; lia|].
    intros s [[<-|[]]|[<-|[]]]; exists seg; (split; [now left|]); rewrite E; [now apply K|].
    rewrite <- (app_nil_r fs2) at 2. apply width_piece; try assumption. constructor.
  - destruct (app_eq_app _ _ _ _ E) as (l & [[E1 E2]|[E1 E2]]).
    + destruct l as [|y l _] using rev_ind.
      * rewrite app_nil_r in E1. cbn [app] in E2. subst rest. exists [ini ++ [f]], ls. split; [apply lay_last; destruct ini; discriminate|]. split; [exact Hl|].
        split; [cbn; lia|]. intros s [[<-|[]]|H]; [|exists s; split; [now right|lia]]. exists (seg ++ [x]). split; [now left|]. rewrite E1.
        rewrite <- (app_nil_r (ini ++ [f' f])). apply K; [exact Hf|constructor].
      * assert (y = x) as -> by (rewrite app_assoc in E1; apply app_inj_tail in E1; symmetry; apply E1).
        exists [ini ++ [f]], ((l ++ [x]) :: ls). split; [apply lay_last; destruct ini; discriminate|]. split; [rewrite E2; now apply lay_cut|]. split; [cbn; lia|].
        intros s [[<-|[]]|[<-|H]]; [| |exists s; split; [now right|lia]]; exists (seg ++ [x]); (split; [now left|]); rewrite E1.
        -- apply K; [exact Hf|]. intros Er. specialize (Hth Er). rewrite E2 in Hth. now apply Forall_app in Hth.
        -- rewrite <- (app_nil_r (l ++ [x])) at 2. apply width_piece; try assumption. constructor.
    + destruct l as [|y l _] using rev_ind.
      * rewrite app_nil_r in E1. cbn [app] in E2. subst rest. exists [ini ++ [f]], ls. split; [apply lay_last; destruct ini; discriminate|]. split; [exact Hl|].
        split; [cbn; lia|]. intros s [[<-|[]]|H]; [|exists s; split; [now right|lia]]. exists (seg ++ [x]). split; [now left|]. rewrite <- E1.
        rewrite <- (app_nil_r (ini ++ [f' f])). apply K; [exact Hf|constructor].
      * rewrite app_assoc in E1. apply app_inj_tail in E1. destruct E1 as [E1 <-].
        destruct (IH l f E2 Hf) as (s1 & s2 & L1 & L2 & L3 & L4). exists ((seg ++ [x]) :: s1), s2.
        split; [rewrite E1, <- app_assoc; now apply lay_cut|]. split; [exact L2|]. split; [cbn [length] in *; lia|].
        intros s [[<-|H]|H]; [exists (seg ++ [x]); split; [now left|lia]| |].
        -- destruct (L4 s (or_introl H)) as (z & Z1 & Z2). exists z. split; [now right|exact Z2].
        -- destruct (L4 s (or_intror H)) as (z & Z1 & Z2). exists z. split; [now right|exact Z2].
Qed.
Lemma glued_left softOn a b : marksGlued softOn (a ++ b) -> marksGlued softOn a.
Proof. intros H pre f g post E. apply (H pre f g (post ++ b)). rewrite E, <- app_assoc. reflexivity. Qed.
Lemma glued_right softOn a b : marksGlued softOn (a ++ b) -> marksGlued softOn b.
Proof. intros H pre f g post E. apply (H (a ++ pre) f g post). rewrite E, <- app_assoc. reflexivity. Qed.
Lemma glued_end softOn ini f j : marksGlued softOn (ini ++ [mkFrag (f_text f) (f_mark f) j]) -> marksGlued softOn (ini ++ [f]).
Proof.
  intros H pre x g post E Hc. destruct post as [|y post _] using rev_ind.
  - change (pre ++ [x; g]) with (pre ++ [x] ++ [g]) in E. rewrite app_assoc in E. apply app_inj_tail in E. destruct E as [E <-].
    apply (H pre x (mkFrag (f_text f) (f_mark f) j) []); [|exact Hc]. rewrite E, <- app_assoc. reflexivity.
  - change (pre ++ x :: g :: post ++ [y]) with (pre ++ (x :: g :: post) ++ [y]) in E. rewrite app_assoc in E. apply app_inj_tail in E. destruct E as [E <-].
    apply (H pre x g (post ++ [mkFrag (f_text f) (f_mark f) j])); [|exact Hc]. rewrite E, <- app_assoc. reflexivity.
Qed.
Lemma fewest_widths A L u o m punct parts lb tokens spare maxWidth W ord segs :
  plainCall A L u o m punct parts lb tokens spare maxWidth W ord ->
  k_tolerance (l_search o) = fTolerance A -> l_renderHyphens o = true \/ l_wordBreak o = false ->
  marksGlued (negb (feq A (l_hyphenPenalty o) (fZ A 10000))) (fragsOf u o punct parts tokens) ->
  (l_renderHyphens o = true -> Forall (fun f => hyphenW o m <= m (f_text f)) (fragsOf u o punct parts tokens)) ->
  W + m [32] <= 52 -> layout (negb (feq A (l_hyphenPenalty o) (fZ A 10000))) (fragsOf u o punct parts tokens) segs ->
  Forall (fun s => lineWidth (l_renderHyphens o) m (m [32]) (hyphenW o m) s <= W) segs ->
  exists ls ord' lb', (forall i k, Permutation (ord' i k) [C0; C1; C2; C3]) /\
    leftAlignUniform A u ord' spare lb tokens maxWidth = Ret (Some ls, lb') /\ (length ls <= length segs)%nat.
Proof.
  intros C Htol Hrh Hg Hth HW Hl Hw.
  assert (forall t, 0 <= m t) as Hm by (intros t; apply (se_measure _ _ _ _ _ _ _ (pc_settings _ _ _ _ _ _ _ _ _ _ _ _ _ C))).
  assert (0 <= hyphenW o m) as Hhy by (unfold hyphenW; destruct (l_wordBreak o); [apply Hm|lia]).
  assert (W <= 85948) as HW2 by (pose proof (Hm [32]); lia).
  destruct (fill_count A L (l_renderHyphens o) (negb (feq A (l_hyphenPenalty o) (fZ A 10000))) m (m [32]) (hyphenW o m) Hm (Hm _) Hhy W
    (pc_bounds _ _ _ _ _ _ _ _ _ _ _ _ _ C) HW2 (fragsOf u o punct parts tokens) segs Hl) as (segs3 & L1 & L2 & L3).
  - eapply Forall_impl; [|exact Hw]. intros s Hs. cbv beta in *. unfold Succeed.fits. lia.
  - now apply (layout_starts _ _ _ Hl).
  - apply Forall_forall. intros s Hs. destruct Hrh as [Hrh|Hwb]; [now left|]. right.
    pose proof (frs_nosoft A u o punct parts tokens Hwb) as N. rewrite Forall_forall in N.
    unfold lastSoft. destruct (rev s) as [|x s'] eqn:Er; [reflexivity|]. apply N. eapply layout_in; [exact Hl|exact Hs|].
    apply in_rev. rewrite Er. now left.
  - destruct (align_fewest A L u o m punct parts lb tokens spare maxWidth W ord C) with (segs := segs3) as (ls & ord' & lb' & Ho & E3 & Hlen3); try assumption.
    + rewrite Htol. apply (tol_zero A L).
    + now rewrite Htol.
    + exists ls, ord', lb'. split; [exact Ho|]. split; [exact E3|]. lia.
Qed.
Theorem align_apart A L u o m punct parts t1 t2 maxWidth W lb1 spare1 ord1 lb2 spare2 ord2 lb spare ord :
  plainCall A L u o m punct parts lb1 t1 spare1 maxWidth W ord1 ->
  plainCall A L u o m punct parts lb2 t2 spare2 maxWidth W ord2 ->
  plainCall A L u o m punct parts lb (t1 ++ t2) spare maxWidth W ord ->
  k_tolerance (l_search o) = fTolerance A -> l_renderHyphens o = true \/ l_wordBreak o = false ->
  marksGlued (negb (feq A (l_hyphenPenalty o) (fZ A 10000))) (fragsOf u o punct parts (t1 ++ t2)) ->
  (l_renderHyphens o = true -> Forall (fun f => hyphenW o m <= m (f_text f)) (fragsOf u o punct parts (t1 ++ t2))) ->
  W + m [32] <= 52 ->
  forall ls lb', leftAlignUniform A u ord spare lb (t1 ++ t2) maxWidth = Ret (Some ls, lb') ->
  exists ls1 ord1' lb1' ls2 ord2' lb2', (forall i k, Permutation (ord1' i k) [C0; C1; C2; C3] /\ Permutation (ord2' i k) [C0; C1; C2; C3]) /\
    leftAlignUniform A u ord1' spare1 lb1 t1 maxWidth = Ret (Some ls1, lb1') /\
    leftAlignUniform A u ord2' spare2 lb2 t2 maxWidth = Ret (Some ls2, lb2') /\ (length ls1 + length ls2 <= S (length ls))%nat.
Proof.
  intros C1 C2 C Htol Hrh Hg Hth HW ls lb' E. destruct (align_sound _ _ _ _ _ _ _ _ _ _ _ _ _ C _ _ E) as (segs & -> & Hl & Hok).
  assert (fle A (fZ A 10000) (k_tolerance (l_search o)) = false) as Ht by (rewrite Htol; apply (tol_inf A L)).
  apply (linesOk_width _ _ _ _ _ _ _ Ht) in Hok.
  assert (forall t, 0 <= m t) as Hm by (intros t; apply (se_measure _ _ _ _ _ _ _ (pc_settings _ _ _ _ _ _ _ _ _ _ _ _ _ C1))).
  assert (0 <= hyphenW o m) as Hhy by (unfold hyphenW; destruct (l_wordBreak o); [apply Hm|lia]).
  destruct (shape _ _ _ _ _ _ _ _ _ _ _ _ _ C1) as (ini & f & Ef & Hj & _).
  destruct (shape _ _ _ _ _ _ _ _ _ _ _ _ _ C2) as (ini2 & f2 & Ef2 & _).
  destruct (pc_nonempty _ _ _ _ _ _ _ _ _ _ _ _ _ C1) as [Hn1 Hne1]. pose proof (proj1 (pc_nonempty _ _ _ _ _ _ _ _ _ _ _ _ _ C2)) as Hn2.
  assert (fragsOf u o punct parts (t1 ++ t2) = (ini ++ [mkFrag (f_text f) (f_mark f) Space]) ++ fragsOf u o punct parts t2) as Ea.
  { rewrite (frags_app A L u o m punct parts lb1 t1 t2 spare1 (pc_settings _ _ _ _ _ _ _ _ _ _ _ _ _ C1) (pc_breaker _ _ _ _ _ _ _ _ _ _ _ _ _ C1)
      (pc_tokens _ _ _ _ _ _ _ _ _ _ _ _ _ C1) Hn1 Hn2 Hne1), Ef. now rewrite endWith_snoc'. }
  rewrite Ea in Hg, Hth.
  assert (fragsOf u o punct parts t2 <> []) as Hf2 by (rewrite Ef2; destruct ini2; discriminate).
  assert (l_renderHyphens o = true -> Forall (fun f => hyphenW o m <= m (f_text f)) (fragsOf u o punct parts t2)) as Hth2.
  { intros Er. specialize (Hth Er). now apply Forall_app in Hth. }
  assert (isSoft f = false) as Hs by (unfold isSoft; now rewrite Hj).
  destruct (layout_apart (l_renderHyphens o) _ m (m [32]) (hyphenW o m) _ Hm (Hm _) Hhy Hth2 Hf2 _ _ Hl ini f Ea Hs) as (s1 & s2 & L1 & L2 & L3 & L4).
  assert (forall s, In s s1 \/ In s s2 -> lineWidth (l_renderHyphens o) m (m [32]) (hyphenW o m) s <= W) as Hw.
  { intros s Hin. destruct (L4 s Hin) as (z & Z1 & Z2). rewrite Forall_forall in Hok. specialize (Hok z Z1). cbv beta in Hok. lia. }
  destruct (fewest_widths A L u o m punct parts lb1 t1 spare1 maxWidth W ord1 s1 C1 Htol Hrh) as (ls1 & o1 & lb1' & P1 & R1 & Q1); try assumption.
  - rewrite Ef. apply (glued_end _ _ _ Space). now apply glued_left in Hg.
  - intros Er. specialize (Hth Er). apply Forall_app in Hth. destruct Hth as [Hth _]. rewrite Ef. apply Forall_app in Hth. destruct Hth as [H1 H2]. apply Forall_app. split; [exact H1|].
    inversion H2; subst. constructor; [assumption|constructor].
  - now rewrite Ef.
  - apply Forall_forall. auto.
  - destruct (fewest_widths A L u o m punct parts lb2 t2 spare2 maxWidth W ord2 s2 C2 Htol Hrh) as (ls2 & o2 & lb2' & P2 & R2 & Q2); try assumption.
    + now apply glued_right in Hg.
    + apply Forall_forall. auto.
    + exists ls1, o1, lb1', ls2, o2, lb2'. split; [split; [apply P1|apply P2]|]. split; [exact R1|]. split; [exact R2|]. rewrite map_length. lia.
Qed.
