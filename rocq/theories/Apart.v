(** Pieces of a text that cannot be on the same line. *)
From Verif Require Import Base Arith Unicode Split SpecSplit SplitProofs Ansi SpecAnsi AnsiProofs Attr Hyph KP Nodes Render SpecKP Tokens Align
  Options Call Settings AlignProofs Reuse Fresh Compare Sub Again Succeed Atoms.
Open Scope Z_scope.

(** The lines of any layout are groups of pieces *)
Lemma layout_groups softOn fs segs : layout softOn fs segs ->
  exists gs, segs = map (@concat frag) gs /\ concat gs = atoms softOn fs /\ Forall (fun g => g <> []) gs.
Proof.
  induction 1 as [seg Hs|seg f rest ls Hc Hl (gs & E1 & E2 & E3)].
  - exists [atoms softOn seg]. cbn. rewrite atoms_concat, app_nil_r. split; [reflexivity|]. split; [reflexivity|]. constructor; [now apply atoms_ne|constructor].
  - exists (atoms softOn (seg ++ [f]) :: gs). cbn [map concat]. rewrite atoms_concat, E1, E2, (atoms_app _ _ _ _ Hc). split; [reflexivity|]. split; [reflexivity|].
    constructor; [|exact E3]. apply atoms_ne. destruct seg; discriminate.
Qed.
(** C136 *)
Theorem align_apart_pieces A L u o m punct parts lb tokens spare maxWidth W ord :
  plainCall A L u o m punct parts lb tokens spare maxWidth W ord ->
  let softOn := negb (feq A (l_hyphenPenalty o) (fZ A 10000)) in
  let frs := fragsOf u o punct parts tokens in
  (forall p a b q, atoms softOn frs = p ++ a :: b :: q -> W < lineWidth (l_renderHyphens o) m (m [32]) (hyphenW o m) (a ++ b)) ->
  forall ls lb', leftAlignUniform A u ord spare lb tokens maxWidth = Ret (Some ls, lb') -> ls = map (lineText (l_renderHyphens o)) (atoms softOn frs).
Proof.
  intros C softOn frs Hsep ls lb' E. destruct (align_sound _ _ _ _ _ _ _ _ _ _ _ _ _ C _ _ E) as (segs & -> & Hl & Hok).
  apply (linesOk_width _ _ _ _ _ _ _ (se_tol _ _ _ _ _ _ _ (pc_settings _ _ _ _ _ _ _ _ _ _ _ _ _ C))) in Hok.
  assert (forall t, 0 <= m t) as Hm by (intros t; apply (se_measure _ _ _ _ _ _ _ (pc_settings _ _ _ _ _ _ _ _ _ _ _ _ _ C))).
  assert (0 <= hyphenW o m) as Hhy by (unfold hyphenW; destruct (l_wordBreak o); [apply Hm|lia]).
  f_equal. fold softOn frs in Hl. destruct (layout_groups _ _ _ Hl) as (gs & E1 & E2 & E3).
  assert (Forall (fun g => exists a, g = [a]) gs) as K.
  { apply Forall_forall. intros g Hg. pose proof E3 as E4. rewrite Forall_forall in E4. specialize (E4 g Hg).
    destruct g as [|b g _] using rev_ind; [congruence|]. destruct g as [|a g _] using rev_ind; [exists b; reflexivity|]. exfalso.
    destruct (in_split _ _ Hg) as (x & y & Es). rewrite Es, concat_app in E2. cbn [concat] in E2. rewrite <- !app_assoc, app_assoc in E2. cbn [app] in E2.
    specialize (Hsep _ a b _ (Logic.eq_sym E2)). assert (In (concat ((g ++ [a]) ++ [b])) segs) as Hin by (rewrite E1; now apply in_map).
    rewrite Forall_forall in Hok. specialize (Hok _ Hin). cbv beta in Hok. rewrite !concat_app in Hok. cbn [concat] in Hok. rewrite !app_nil_r, <- app_assoc in Hok.
    pose proof (width_piece (l_renderHyphens o) m (m [32]) (hyphenW o m) (concat g) (a ++ b) [] Hm (Hm _) Hhy) as P. rewrite app_nil_r in P.
    specialize (P ltac:(constructor)). lia. }
  rewrite E1, <- E2. clear -K. induction K as [|g gs (a & ->) _ IH]; [reflexivity|]. cbn [map concat app]. now rewrite IH, app_nil_r.
Qed.
