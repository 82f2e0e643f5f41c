(** By how much a line can exceed the width when the scale factor is not an integer, on binary64. *)
From Coq Require Import Reals Lra Psatz.
From Flocq Require Import Core BinarySingleNaN.
From Flocq Require Import Relative.
From Verif Require Import Base Arith ArithB64 Unicode Split SpecSplit Nodes KP Render SpecKP Align Options Call Settings AlignProofs ScaleB64.
Open Scope R_scope.

(** The pieces of a line that are measured one by one: fragments, spaces and the hyphen. *)
Fixpoint linePieces (rh : bool) (seg : list frag) : Z :=
  match seg with
  | [] => 0%Z
  | [f] => (1 + (if rh && isSoft f then 1 else 0))%Z
  | f :: seg' => (1 + (if isSpaced f then 1 else 0) + linePieces rh seg')%Z
  end.

Lemma scale_err s n : is_finite s = true -> 2 / 3 < B2R s <= bpow radix2 19 -> (0 <= n <= 2 ^ 30)%Z ->
  Rabs (IZR (scaleBy s n) - IZR n * B2R s) <= 9 / 16.
Proof.
  intros Hf Hs Hn. unfold scaleBy. pose proof (rna_near (rnd (IZR n * B2R s))) as K.
  enough (Rabs (rnd (IZR n * B2R s) - IZR n * B2R s) <= / 16) as J by (apply Rabs_le_inv in J; apply Rabs_le; lra).
  destruct (Z.eq_dec n 0) as [->|N].
  - rewrite Rmult_0_l, rnd_id by apply generic_format_0. rewrite Rminus_0_r, Rabs_R0. lra.
  - assert (1 <= IZR n) as H1 by (apply (IZR_le 1); lia). assert (IZR n <= bpow radix2 30) as H2 by (rewrite <- IZR_Zpower by lia; apply IZR_le; apply Hn).
    assert (/ 2 <= IZR n * B2R s) as H3 by nra.
    assert (IZR n * B2R s <= bpow radix2 49) as H4 by (change 49%Z with (30 + 19)%Z; rewrite bpow_plus; apply Rmult_le_compat; lra).
    pose proof (relative_error_N_FLT radix2 (-1074) 53 Hprec (fun x => negb (Z.even x)) (IZR n * B2R s)) as R.
    rewrite (Rabs_pos_eq (IZR n * B2R s)) in R by lra. assert (bpow radix2 (-1074 + 53 - 1) <= IZR n * B2R s) as B0.
    { apply Rle_trans with (bpow radix2 (-1)); [apply bpow_le; lia|cbn; lra]. }
    specialize (R B0). eapply Rle_trans; [exact R|]. change (/ 2) with (bpow radix2 (-1)). rewrite <- bpow_plus.
    apply Rle_trans with (bpow radix2 (-1 + (- (53) + 1)) * bpow radix2 49).
    + apply Rmult_le_compat_l; [apply bpow_ge_0|exact H4].
    + rewrite <- bpow_plus. cbn. lra.
Qed.

Section Lines.
Variable rh : bool.
Variable m mz : list rune -> Z.
Variable sp hy : Z.
Variable s e : R.
Hypothesis Ha : forall a b, mz (a ++ b) = (mz a + mz b)%Z.
Lemma line_err seg : s * IZR (mz [32%Z]) <= IZR sp + e -> (rh = true -> forall f, In f seg -> isSoft f = true -> s * IZR (mz [45%Z]) <= IZR hy + e) ->
  (forall f, In f seg -> s * IZR (mz (f_text f)) <= IZR (m (f_text f)) + e) ->
  s * IZR (mz (lineText rh seg)) <= IZR (lineWidth rh m sp hy seg) + e * IZR (linePieces rh seg).
Proof.
  intros Hsp. assert (mz [] = 0)%Z as M0 by (pose proof (Ha [] []); cbn in H; lia).
  induction seg as [|f seg IH]; intros Hhy Hf; [cbn; rewrite M0; lra|]. destruct seg as [|g seg].
  - cbn [lineText lineWidth linePieces]. rewrite Ha. pose proof (Hf f (or_introl eq_refl)) as K. destruct rh; cbn [andb].
    + destruct (isSoft f) eqn:E.
      * pose proof (Hhy eq_refl f (or_introl eq_refl) E) as J. rewrite !plus_IZR. lra.
      * pose proof (M0 : mz (@nil Z) = 0%Z) as M1. cbv iota. rewrite ?M0, ?M1, !plus_IZR. lra.
    + pose proof (M0 : mz (@nil Z) = 0%Z) as M1. cbv iota. rewrite ?M0, ?M1, !plus_IZR. lra.
  - change (lineText rh (f :: g :: seg)) with (f_text f ++ (if isSpaced f then [32%Z] else []) ++ lineText rh (g :: seg)).
    change (lineWidth rh m sp hy (f :: g :: seg)) with (m (f_text f) + (if isSpaced f then sp else 0) + lineWidth rh m sp hy (g :: seg))%Z.
    change (linePieces rh (f :: g :: seg)) with (1 + (if isSpaced f then 1 else 0) + linePieces rh (g :: seg))%Z.
    rewrite !Ha. pose proof (Hf f (or_introl eq_refl)) as K.
    assert (s * IZR (mz (lineText rh (g :: seg))) <= IZR (lineWidth rh m sp hy (g :: seg)) + e * IZR (linePieces rh (g :: seg))) as J.
    { apply IH; [intros Hr x Hx; apply (Hhy Hr); now right|intros x Hx; apply Hf; now right]. }
    pose proof (M0 : mz (@nil Z) = 0%Z) as M1. destruct (isSpaced f); cbv iota; rewrite ?M0, ?M1, !plus_IZR; lra.
Qed.
End Lines.
Lemma pieces_runes rh seg : Forall (fun f => f_text f <> []) seg -> (linePieces rh seg <= zlen (lineText rh seg))%Z.
Proof.
  induction 1 as [|f seg Hf Hs IH]; [cbn; lia|]. assert (1 <= zlen (f_text f))%Z as K by (destruct (f_text f); [congruence|rewrite zlen_cons; pose proof (zlen_nonneg l); lia]).
  destruct seg as [|g seg].
  - cbn [linePieces lineText]. rewrite zlen_app. destruct (rh && isSoft f); cbn; lia.
  - change (lineText rh (f :: g :: seg)) with (f_text f ++ (if isSpaced f then [32%Z] else []) ++ lineText rh (g :: seg)).
    change (linePieces rh (f :: g :: seg)) with (1 + (if isSpaced f then 1 else 0) + linePieces rh (g :: seg))%Z.
    rewrite !zlen_app. destruct (isSpaced f); change (zlen [32%Z]) with 1%Z || change (zlen (@nil Z)) with 0%Z; lia.
Qed.
Lemma para_part (mz : list rune -> Z) fs f : (forall a b, mz (a ++ b) = mz a + mz b)%Z -> (forall t, 0 <= mz t)%Z -> In f fs ->
  (mz (f_text f) <= mz (paraText fs))%Z.
Proof.
  intros Ha Hp. induction fs as [|g fs IH]; [intros []|]. change (paraText (g :: fs)) with (fragText g ++ paraText fs). unfold fragText. rewrite !Ha.
  intros [->|H].
  - pose proof (Hp (paraText fs)). pose proof (Hp (if isSpaced f then [32%Z] else [])). lia.
  - specialize (IH H). pose proof (Hp (f_text g)). pose proof (Hp (if isSpaced g then [32%Z] else [])). lia.
Qed.

(** C45 *)
Theorem real_scale_lines pow (Hp : powOk pow) (s : binary64) mz u o punct parts lb tokens spare maxWidth n ord :
  is_finite s = true -> 2 / 3 < B2R s <= bpow radix2 19 ->
  plainCall (b64 pow) (b64_laws pow Hp) u o (fun t => scaleBy s (mz t)) punct parts lb tokens spare maxWidth (scaleBy s n) ord ->
  (forall a b, mz (a ++ b) = mz a + mz b)%Z -> (forall t, 0 <= mz t)%Z ->
  (mz (joinWith 32 tokens) <= 2 ^ 30)%Z -> (mz [32] <= 2 ^ 30)%Z -> (mz [45] <= 2 ^ 30)%Z -> (0 <= n <= 2 ^ 30)%Z ->
  forall ls lb', leftAlignUniform (b64 pow) u ord spare lb tokens maxWidth = Ret (Some ls, lb') ->
  exists segs, ls = map (lineText (l_renderHyphens o)) segs /\ concat segs = fragsOf u o punct parts tokens /\
    Forall (fun seg => IZR (mz (lineText (l_renderHyphens o) seg)) <= IZR n + 9 / 16 * (IZR (linePieces (l_renderHyphens o) seg) + 1) / B2R s) segs /\
    Forall (fun l => IZR (mz l) <= IZR n + 9 / 16 * (IZR (zlen l) + 1) / B2R s) ls.
Proof.
  intros Hf Hs C Ha Hpos Ht H32 H45 Hn ls lb' E.
  pose proof (align_sound _ _ _ _ _ _ _ _ _ _ _ _ _ C _ _ E) as (segs & -> & Hl & Hok).
  apply (linesOk_width _ _ _ _ _ _ _ (tol_no _ _ _ _ _ _ _ _ _ _ _ _ _ C)) in Hok.
  destruct (texts _ _ _ _ _ _ _ _ _ _ _ _ _ C) as (T1 & _ & T3). pose proof (fun s f => layout_in _ _ _ s f Hl) as Hin.
  exists segs. split; [reflexivity|]. destruct (layout_ne _ _ _ Hl) as [_ Hc]. split; [exact Hc|].
  set (rh := l_renderHyphens o) in *.
  assert (forall x, (0 <= x <= 2 ^ 30)%Z -> B2R s * IZR x <= IZR (scaleBy s x) + 9 / 16 /\ IZR (scaleBy s x) <= B2R s * IZR x + 9 / 16) as Er.
  { intros x Hx. pose proof (scale_err s x Hf Hs Hx) as K. apply Rabs_le_inv in K. lra. }
  assert (Forall (fun seg => B2R s * IZR (mz (lineText rh seg)) <= B2R s * IZR n + 9 / 16 * (IZR (linePieces rh seg) + 1)) segs) as K.
  { apply Forall_forall. intros seg Hseg. pose proof (proj1 (Forall_forall _ _) Hok seg Hseg) as Hw. cbv beta in Hw.
    eapply Rle_trans; [eapply line_err with (m := fun t => scaleBy s (mz t)) (sp := scaleBy s (mz [32%Z])) (hy := hyphenW o (fun t => scaleBy s (mz t))) (e := 9 / 16)|].
    - exact Ha.
    - apply Er. split; [apply Hpos|exact H32].
    - intros Hr f Hfs Hsoft. unfold hyphenW. destruct (l_wordBreak o) eqn:Ew; [apply Er; split; [apply Hpos|exact H45]|exfalso].
      pose proof (frs_nosoft _ u o punct parts tokens Ew) as N. rewrite Forall_forall in N. rewrite (N f) in Hsoft; [discriminate|]. eapply Hin; eassumption.
    - intros f Hfs. apply Er. split; [apply Hpos|]. eapply Z.le_trans; [|exact Ht]. rewrite <- T3. apply para_part; try assumption. eapply Hin; eassumption.
    - apply IZR_le in Hw. destruct (Er n Hn) as [_ Hn']. lra. }
  assert (forall a p, B2R s * IZR a <= B2R s * IZR n + 9 / 16 * p -> IZR a <= IZR n + 9 / 16 * p / B2R s) as D.
  { intros a p H. apply Rmult_le_reg_l with (B2R s); [lra|]. replace (B2R s * (IZR n + 9 / 16 * p / B2R s)) with (B2R s * IZR n + 9 / 16 * p) by (field; lra). exact H. }
  split.
  - eapply Forall_impl; [|exact K]. intros seg H. now apply D.
  - apply Forall_map. rewrite Forall_forall in *. intros seg Hseg. apply D. eapply Rle_trans; [apply K, Hseg|].
    assert (linePieces rh seg <= zlen (lineText rh seg))%Z as P.
    { apply pieces_runes. apply Forall_forall. intros f Hfs. apply T1. eapply Hin; eassumption. }
    apply IZR_le in P. lra.
Qed.
