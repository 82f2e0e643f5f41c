(** The pieces of a text that cannot be cut. *)
From Verif Require Import Base Arith Unicode Split SpecSplit SplitProofs Ansi SpecAnsi AnsiProofs Attr Hyph KP Nodes Render SpecKP Tokens Align
  Options Call Settings AlignProofs Reuse Fresh Compare Sub Again Succeed.
Open Scope Z_scope.

(** A text cut wherever a line can be cut *)
Fixpoint atoms (softOn : bool) (fs : list frag) : list (list frag) :=
  match fs with
  | [] => []
  | f :: fs' => if cuttable softOn f then [f] :: atoms softOn fs' else match atoms softOn fs' with [] => [[f]] | s :: ss => (f :: s) :: ss end
  end.
Lemma atoms_concat softOn fs : concat (atoms softOn fs) = fs.
Proof.
  induction fs as [|f fs IH]; [reflexivity|]. cbn [atoms]. destruct (cuttable softOn f); [cbn [concat app]; now rewrite IH|].
  destruct (atoms softOn fs) as [|s ss]; cbn [concat app] in *; [now rewrite <- IH|now rewrite IH].
Qed.
Lemma atoms_ne softOn fs : fs <> [] -> atoms softOn fs <> [].
Proof. intros H E. apply H. rewrite <- (atoms_concat softOn fs), E. reflexivity. Qed.
Lemma atoms_layout softOn fs : fs <> [] -> layout softOn fs (atoms softOn fs).
Proof.
  induction fs as [|f fs IH]; [congruence|]. intros _. cbn [atoms]. destruct fs as [|g fs]; [destruct (cuttable softOn f); apply lay_last; discriminate|].
  specialize (IH ltac:(discriminate)). destruct (cuttable softOn f) eqn:Ec; [apply (lay_cut softOn [] f (g :: fs)); [exact Ec|exact IH]|].
  remember (atoms softOn (g :: fs)) as ss eqn:Ess. clear Ess. destruct IH as [s Hs|s x rest ls Hx Hl].
  - apply lay_last. discriminate.
  - change (layout softOn (((f :: s) ++ [x]) ++ rest) (((f :: s) ++ [x]) :: ls)). now constructor.
Qed.
(** No atom can be cut *)
Lemma atoms_whole softOn fs s a f b : In s (atoms softOn fs) -> s = a ++ f :: b -> b <> [] -> cuttable softOn f = false.
Proof.
  revert s a. induction fs as [|g fs IH]; intros s a; [intros []|]. cbn [atoms]. destruct (cuttable softOn g) eqn:Eg.
  - intros [<-|H] E Hb; [|now apply (IH s a)]. destruct a as [|x a]; [injection E as _ <-; congruence|]. injection E as _ E. now destruct a.
  - destruct (atoms softOn fs) as [|t ts].
    + intros [<-|[]] E Hb. destruct a as [|x a]; [injection E as _ <-; congruence|]. injection E as _ E. now destruct a.
    + intros [<-|H] E Hb; [|apply (IH s a); [now right|exact E|exact Hb]]. destruct a as [|x a]; [injection E as <- _; exact Eg|].
      injection E as _ E. apply (IH t a); [now left|exact E|exact Hb].
Qed.
Lemma atoms_app softOn a f b : cuttable softOn f = true -> atoms softOn ((a ++ [f]) ++ b) = atoms softOn (a ++ [f]) ++ atoms softOn b.
Proof.
  intros Hf. induction a as [|g a IH]; [cbn; now rewrite Hf|]. cbn [app atoms] in *. rewrite IH. destruct (cuttable softOn g); [reflexivity|].
  pose proof (atoms_ne softOn (a ++ [f]) ltac:(destruct a; discriminate)) as N. destruct (atoms softOn (a ++ [f])); [congruence|reflexivity].
Qed.
(** In any layout, an atom is on one line *)
Lemma atoms_line softOn fs segs s : layout softOn fs segs -> In s (atoms softOn fs) -> exists seg a b, In seg segs /\ seg = a ++ s ++ b.
Proof.
  assert (forall fs s, In s (atoms softOn fs) -> exists a b, fs = a ++ s ++ b) as K.
  { intros l x H. destruct (in_split _ _ H) as (p & q & E). exists (concat p), (concat q). rewrite <- (atoms_concat softOn l), E, concat_app. reflexivity. }
  induction 1 as [seg Hs|seg f rest ls Hc Hl IH]; intros Hin.
  - destruct (K _ _ Hin) as (a & b & E). exists seg, a, b. split; [now left|exact E].
  - rewrite (atoms_app _ _ _ _ Hc) in Hin. apply in_app_or in Hin. destruct Hin as [Hin|Hin].
    + destruct (K _ _ Hin) as (a & b & E). exists (seg ++ [f]), a, b. split; [now left|exact E].
    + destruct (IH Hin) as (x & a & b & H1 & H2). exists x, a, b. split; [now right|exact H2].
Qed.
Lemma width_piece rh m sp hy a s b : (forall t, 0 <= m t) -> 0 <= sp -> 0 <= hy -> (rh = true -> Forall (fun f => hy <= m (f_text f)) b) ->
  lineWidth rh m sp hy s <= lineWidth rh m sp hy (a ++ s ++ b).
Proof.
  intros Hm Hsp Hhy Hb. assert (forall l, 0 <= lineWidth rh m sp hy l) as Hpos.
  { induction l as [|f l IH]; [cbn; lia|]. pose proof (Hm (f_text f)). destruct l as [|g l]; [cbn [lineWidth]; destruct (rh && isSoft f); lia|].
    change (lineWidth rh m sp hy (f :: g :: l)) with (m (f_text f) + (if isSpaced f then sp else 0) + lineWidth rh m sp hy (g :: l)). destruct (isSpaced f); lia. }
  assert (lineWidth rh m sp hy s <= lineWidth rh m sp hy (s ++ b)) as H1.
  { destruct b as [|g b]; [rewrite app_nil_r; lia|]. induction s as [|f s IH]; [apply Hpos|]. destruct s as [|f2 s].
    - change (lineWidth rh m sp hy ([f] ++ g :: b)) with (m (f_text f) + (if isSpaced f then sp else 0) + lineWidth rh m sp hy (g :: b)).
      change (lineWidth rh m sp hy [f]) with (m (f_text f) + (if rh && isSoft f then hy else 0)).
      pose proof (Hpos (g :: b)). destruct rh; cbn [andb]; [|destruct (isSpaced f); lia]. destruct (isSoft f) eqn:Es; [|destruct (isSpaced f); lia].
      assert (hy <= lineWidth true m sp hy (g :: b)); [|destruct (isSpaced f); lia]. specialize (Hb eq_refl). inversion Hb as [|? ? Hg _]; subst.
      destruct b as [|g2 b]; [cbn [lineWidth andb]; destruct (isSoft g); lia|].
      change (lineWidth true m sp hy (g :: g2 :: b)) with (m (f_text g) + (if isSpaced g then sp else 0) + lineWidth true m sp hy (g2 :: b)). pose proof (Hpos (g2 :: b)).
      destruct (isSpaced g); lia.
    - change (lineWidth rh m sp hy ((f :: f2 :: s) ++ g :: b)) with (m (f_text f) + (if isSpaced f then sp else 0) + lineWidth rh m sp hy ((f2 :: s) ++ g :: b)).
      change (lineWidth rh m sp hy (f :: f2 :: s)) with (m (f_text f) + (if isSpaced f then sp else 0) + lineWidth rh m sp hy (f2 :: s)). lia. }
  induction a as [|f a IH]; [exact H1|]. cbn [app]. destruct (a ++ s ++ b) as [|g l]; [cbn [lineWidth] in IH |- *; pose proof (Hm (f_text f)); destruct (rh && isSoft f); lia|].
  change (lineWidth rh m sp hy (f :: g :: l)) with (m (f_text f) + (if isSpaced f then sp else 0) + lineWidth rh m sp hy (g :: l)).
  pose proof (Hm (f_text f)). destruct (isSpaced f); lia.
Qed.

(** C133 *)
Theorem align_atoms A L u o m punct parts lb tokens spare maxWidth W ord :
  plainCall A L u o m punct parts lb tokens spare maxWidth W ord -> k_tolerance (l_search o) = fTolerance A ->
  l_renderHyphens o = true \/ l_wordBreak o = false ->
  let softOn := negb (feq A (l_hyphenPenalty o) (fZ A 10000)) in
  let frs := fragsOf u o punct parts tokens in
  marksGlued softOn frs -> (l_renderHyphens o = true -> Forall (fun f => hyphenW o m <= m (f_text f)) frs) -> W + m [32] <= 52 ->
  ((exists ls lb', leftAlignUniform A u ord spare lb tokens maxWidth = Ret (Some ls, lb')) <->
   Forall (fun s => lineWidth (l_renderHyphens o) m (m [32]) (hyphenW o m) s <= W) (atoms softOn frs)).
Proof.
  intros C Htol Hrh softOn frs Hg Hthin HW.
  assert (forall t, 0 <= m t) as Hm by (intros t; apply (se_measure _ _ _ _ _ _ _ (pc_settings _ _ _ _ _ _ _ _ _ _ _ _ _ C))).
  assert (0 <= hyphenW o m) as Hhy by (unfold hyphenW; destruct (l_wordBreak o); [apply Hm|lia]).
  pose proof (pc_bounds _ _ _ _ _ _ _ _ _ _ _ _ _ C) as HW0. pose proof (Hm [32]) as Hsp. split.
  - intros (ls & lb' & E). destruct (align_sound _ _ _ _ _ _ _ _ _ _ _ _ _ C _ _ E) as (segs & _ & Hl & Hok).
    apply (linesOk_width _ _ _ _ _ _ _ (se_tol _ _ _ _ _ _ _ (pc_settings _ _ _ _ _ _ _ _ _ _ _ _ _ C))) in Hok.
    rewrite Forall_forall in *. intros s Hs. destruct (atoms_line _ _ _ _ Hl Hs) as (seg & a & b & H1 & ->). specialize (Hok _ H1). cbv beta in Hok.
    eapply Z.le_trans; [|exact Hok]. apply width_piece; [exact Hm|exact Hsp|exact Hhy|]. intros Er. specialize (Hthin Er). apply Forall_forall.
    intros f Hf. apply Hthin. eapply layout_in; [exact Hl|exact H1|]. apply in_or_app. right. apply in_or_app. now right.
  - intros H. assert (frs <> []) as Hne.
    { destruct (shape _ _ _ _ _ _ _ _ _ _ _ _ _ C) as (ini & f & E2 & _). unfold frs. rewrite E2. destruct ini; discriminate. }
    pose proof (atoms_layout softOn frs Hne) as Hl.
    apply (align_succeeds A L u o m punct parts lb tokens spare maxWidth W ord C Htol (atoms softOn frs)); [lia|exact Hl| |now apply (layout_starts _ _ _ Hl)|].
    + eapply Forall_impl; [|exact H]. intros s Hs. cbv beta in *. lia.
    + apply Forall_forall. intros s Hs. destruct Hrh as [Hr|Hw]; [now left|]. right.
      pose proof (frs_nosoft A u o punct parts tokens Hw) as N. rewrite Forall_forall in N.
      unfold lastSoft. destruct (rev s) as [|f s'] eqn:Er; [reflexivity|]. apply N. eapply layout_in; [exact Hl|exact Hs|].
      apply in_rev. rewrite Er. now left.
Qed.
