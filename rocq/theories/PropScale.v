(** C45 with scale factors that are not integers. *)
From Coq Require Import String Ascii Reals Lra.
From Flocq Require Import Core BinarySingleNaN.
From Verif Require Import Base Arith ArithB64 Unicode Split SpecSplit SpecAnsi Hyph Nodes KP Render SpecKP Align Options Call Settings
  AlignProofs Fresh ScaleB64 ScaleLines PropAlign.
Open Scope Z_scope.

(** With the scale factor s, a line made of k pieces (fragments, spaces and hyphen, each of which is measured and rounded) exceeds
    the width by at most 9/16 (k + 1) / s. A line has at most as many pieces as runes *)
Theorem C45_real_scale_partial : forall pow (Hp : powOk pow) (s : binary64) mz u o punct parts lb tokens spare maxWidth n ord,
  is_finite s = true -> (2 / 3 < B2R s <= bpow radix2 19)%R ->
  plainCall (b64 pow) (b64_laws pow Hp) u o (fun t => scaleBy s (mz t)) punct parts lb tokens spare maxWidth (scaleBy s n) ord ->
  (forall a b, mz (a ++ b) = mz a + mz b) -> (forall t, 0 <= mz t) ->
  mz (joinWith 32 tokens) <= 2 ^ 30 -> mz [32] <= 2 ^ 30 -> mz [45] <= 2 ^ 30 -> 0 <= n <= 2 ^ 30 ->
  forall ls lb', leftAlignUniform (b64 pow) u ord spare lb tokens maxWidth = Ret (Some ls, lb') ->
  exists segs, ls = map (lineText (l_renderHyphens o)) segs /\ concat segs = fragsOf u o punct parts tokens /\
    Forall (fun seg => IZR (mz (lineText (l_renderHyphens o) seg)) <= IZR n + 9 / 16 * (IZR (linePieces (l_renderHyphens o) seg) + 1) / B2R s)%R segs /\
    Forall (fun l => IZR (mz l) <= IZR n + 9 / 16 * (IZR (zlen l) + 1) / B2R s)%R ls.
Proof. exact real_scale_lines. Qed.
Print Assumptions C45_real_scale_partial.

(** The hypotheses are met by the witness of [C45_scale_above_one_refuted] *)
Definition scOpts : list (lbOption B) := [WithScaleFactor sevenFifths].
Definition scO : lopts B := withOptions B (defaultHyphenator ascii) (defaultPunctuator ascii) scOpts.
Example sc_settings : settings B BL ascii scO (fun t => scaleBy sevenFifths (cols t)) exPunct (partsOf (defaultHyphenator ascii)).
Proof.
  apply (make_settings B BL ascii scOpts (scaleBy sevenFifths) cols).
  - apply (tol_inf B BL).
  - exact sevenFifths_scaling.
  - apply default_measures.
  - vm_compute. reflexivity.
  - vm_compute. discriminate.
  - apply default_punctuator.
  - apply default_hyphenator.
  - destruct (default_reached B BL ascii) as [_ _ _ _ _ H]. exact H.
Qed.
Definition scB : breaker B := match newBreaker B scO with Ret lb => lb | Panic => mkBreaker scO (n 0) (n 0) [] end.
Example C45_ex_call w k : 0 < w <= 2 ^ 29 ->
  plainCall B BL ascii scO (fun t => scaleBy sevenFifths (cols t)) exPunct (partsOf (defaultHyphenator ascii)) scB (map txt letters) (fun _ => [])
    (n w) (scaleBy sevenFifths w) (from k).
Proof.
  intros Hw. pose proof sevenFifths_scaling as [S1 S2 S3 S4 S5 S6].
  apply make_call_below with (m' := fun t => 2 ^ 20 * cols t).
  - exact sc_settings.
  - destruct (settings_new B BL ascii scO _ exPunct _ sc_settings) as (sp & hy & E & _). apply us_new. unfold scB. rewrite E. reflexivity.
  - apply plain_check. vm_compute. reflexivity.
  - split; [discriminate|]. repeat constructor; discriminate.
  - intros a b. rewrite cols_app. lia.
  - intros t. apply S1. destruct (default_measures B BL) as (M1 & _). apply M1.
  - vm_compute. discriminate.
  - unfold scale. apply S4; [lia| |apply (rep_Z B BL); unfold exactZ; lia]. pose proof (S1 w ltac:(lia)). lia.
  - pose proof (S1 w ltac:(lia)). pose proof (S2 w ltac:(lia)). lia.
  - apply from_all.
Qed.
