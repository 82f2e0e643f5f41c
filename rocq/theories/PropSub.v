(** C95: scale factors compared. C96: the beginning of a text. *)
From Coq Require Import String Ascii.
From Verif Require Import Base Arith ArithB64 Unicode Split SpecSplit SpecAnsi Hyph Nodes KP Render SpecKP Align Options Call Settings
  AlignProofs Reuse Fresh Succeed Compare Sub PropAlign PropCompare.
Open Scope Z_scope.

(** ** The hypotheses of the theorems are met: the tokens [exTokens], any width, any integral scale factor *)
Lemma scale_call k w j : 1 <= k <= 2 ^ 20 -> 0 < w <= 2 ^ 30 -> let o := newWith B ascii exOpts (WithScaleFactor (n k)) in
  plainCall B BL ascii o (fun t => k * cols t) exPunct pairs (breakerOf o) (map txt exTokens) (fun _ => []) (n w) (k * w) (from j).
Proof.
  intros Hk Hw o. assert (rep B BL (n k) k) as Rk by (apply (rep_Z B BL); unfold exactZ; lia).
  assert (settings B BL ascii o (fun t => k * cols t) exPunct pairs) as S.
  { apply (make_settings B BL ascii (exOpts ++ [WithScaleFactor (n k)]) (fun n => k * n) cols).
    - apply (tol_inf B BL).
    - apply scaling_int; [exact Hk|exact Rk].
    - apply default_measures.
    - vm_compute. reflexivity.
    - vm_compute. discriminate.
    - apply default_punctuator.
    - apply byTwo_cuts.
    - exact ex_penalty. }
  apply make_call; [exact S| |exact ex_plain| | | | |split; nia|apply from_all].
  - destruct (settings_new B BL ascii _ _ exPunct pairs S) as (sp & hy & E & _). apply us_new. unfold breakerOf. rewrite E. reflexivity.
  - split; [discriminate|]. repeat constructor; discriminate.
  - intros a b. rewrite cols_app. lia.
  - assert (cols (joinWith 32 (map txt exTokens)) = 21) as -> by (vm_compute; reflexivity). lia.
  - apply scaled_width; [exact Rk|exact Hk|apply (rep_Z B BL); unfold exactZ; lia|lia|nia].
Qed.

(** ** Theorems *)

(** C95, for every text: WithScaleFactor is about precision, and does not decide whether a text can be set *)
Definition C95_scale : Prop := forall A L u opts x1 x2 k1 k2 m punct parts tokens maxWidth n lb1 spare1 ord1 lb2 spare2 ord2,
  plainCall A L u (newWith A u opts (WithScaleFactor x1)) (fun t => k1 * m t) punct parts lb1 tokens spare1 maxWidth (k1 * n) ord1 ->
  plainCall A L u (newWith A u opts (WithScaleFactor x2)) (fun t => k2 * m t) punct parts lb2 tokens spare2 maxWidth (k2 * n) ord2 ->
  1 <= k1 /\ 1 <= k2 -> forall ls lb1', leftAlignUniform A u ord1 spare1 lb1 tokens maxWidth = Ret (Some ls, lb1') ->
  exists ls2 lb2', leftAlignUniform A u ord2 spare2 lb2 tokens maxWidth = Ret (Some ls2, lb2').
(** The widths are scaled, but not the 6 units by which a line may be stretched *)
Theorem C95_scale_refuted : exists tokens w,
  run [WithWordBreak false; WithScaleFactor (n 1)] (from 0) tokens (n w) = lines tokens /\
  run [WithWordBreak false; WithScaleFactor (n 10)] (from 0) tokens (n w) = Ret None.
Proof. exists ["aa"; "bbbbbbbb"]%string, 8. split; vm_compute; reflexivity. Qed.
Print Assumptions C95_scale_refuted.
(** What holds: a text that can be set with some integral scale factor can be set with any smaller one *)
Theorem C95_scale_partial : forall A L u opts x1 x2 k1 k2 m punct parts tokens maxWidth n lb1 spare1 ord1 lb2 spare2 ord2,
  plainCall A L u (newWith A u opts (WithScaleFactor x1)) (fun t => k1 * m t) punct parts lb1 tokens spare1 maxWidth (k1 * n) ord1 ->
  plainCall A L u (newWith A u opts (WithScaleFactor x2)) (fun t => k2 * m t) punct parts lb2 tokens spare2 maxWidth (k2 * n) ord2 ->
  1 <= k2 <= k1 -> forall ls lb1', leftAlignUniform A u ord1 spare1 lb1 tokens maxWidth = Ret (Some ls, lb1') ->
  exists ls2 lb2', leftAlignUniform A u ord2 spare2 lb2 tokens maxWidth = Ret (Some ls2, lb2').
Proof. exact align_scale. Qed.
Print Assumptions C95_scale_partial.
Example C95_ex_call k w j : 1 <= k <= 2 ^ 20 -> 0 < w <= 2 ^ 30 -> exists lb,
  plainCall B BL ascii (newWith B ascii exOpts (WithScaleFactor (n k))) (fun t => k * cols t) exPunct pairs lb (map txt exTokens)
    (fun _ => []) (n w) (k * w) (from j).
Proof. intros Hk Hw. eexists. now apply scale_call. Qed.
Example C95_ex : run [WithWordBreak false; WithScaleFactor (n 25)] (from 0) exTokens (n 6) = Ret None /\
  run [WithWordBreak false; WithScaleFactor (n 17)] (from 0) exTokens (n 6) = lines ["ab,"; "abcdef"; "gh-ijk"; "xyz"]%string /\
  run [WithWordBreak false; WithScaleFactor (n 1)] (from 0) exTokens (n 6) = lines ["ab,"; "abcdef"; "gh-ijk"; "xyz"]%string.
Proof. repeat split; vm_compute; reflexivity. Qed.

(** C96, for every text: leaving out words at either end never makes a text impossible to set *)
Definition C96_excerpt : Prop := forall A L u o m punct parts t0 t1 t2 maxWidth W lb1 spare1 ord1 lb2 spare2 ord2,
  plainCall A L u o m punct parts lb1 (t0 ++ t1 ++ t2) spare1 maxWidth W ord1 ->
  plainCall A L u o m punct parts lb2 t1 spare2 maxWidth W ord2 ->
  forall ls lb1', leftAlignUniform A u ord1 spare1 lb1 (t0 ++ t1 ++ t2) maxWidth = Ret (Some ls, lb1') ->
  exists ls2 lb2', leftAlignUniform A u ord2 spare2 lb2 t1 maxWidth = Ret (Some ls2, lb2').
(** Leaving out the first word *)
Theorem C96_excerpt_refuted : exists t ts w, (exists ls, run [WithWordBreak false] (from 0) (t :: ts) (n w) = Ret (Some ls)) /\
  run [WithWordBreak false] (from 0) ts (n w) = Ret None.
Proof. exists (sixty "a"), ["bbbbb"; sixty "c" ++ "c"]%string, 66. split; [eexists|]; vm_compute; reflexivity. Qed.
Print Assumptions C96_excerpt_refuted.
(** What holds: leaving out words at the end, when the tolerance allows for an empty last line; with the default tolerance,
    this is a width of at most 85948 *)
Theorem C96_excerpt_partial : forall A L u o m punct parts t1 t2 maxWidth W lb1 spare1 ord1 lb2 spare2 ord2,
  plainCall A L u o m punct parts lb1 (t1 ++ t2) spare1 maxWidth W ord1 ->
  plainCall A L u o m punct parts lb2 t1 spare2 maxWidth W ord2 ->
  fle A (fdiv A (fZ A W) (fZ A 9994)) (k_tolerance (l_search o)) = true ->
  forall ls lb1', leftAlignUniform A u ord1 spare1 lb1 (t1 ++ t2) maxWidth = Ret (Some ls, lb1') ->
  exists ls2 lb2', leftAlignUniform A u ord2 spare2 lb2 t1 maxWidth = Ret (Some ls2, lb2').
Proof. exact align_beginning. Qed.
Print Assumptions C96_excerpt_partial.
Example C96_ex_default W : 0 < W <= 85948 -> fle B (fdiv B (fZ B W) (fZ B 9994)) (fTolerance B) = true.
Proof. intros H. rewrite (quo_tol B BL) by lia. apply Z.leb_le. lia. Qed.
Example C96_ex_call w k : 0 < w <= 2 ^ 30 ->
  plainCall B BL ascii exO exM exPunct pairs exB (map txt exTokens) (fun _ => []) (n w) (1 * w) (from k) /\
  map txt exTokens = map txt ["ab,"; "abcdef"; "gh-ijk"]%string ++ map txt ["xyz"]%string /\
  plainCall B BL ascii exO exM exPunct pairs exB (map txt ["ab,"; "abcdef"; "gh-ijk"]%string) (fun _ => []) (n w) (1 * w) (from k).
Proof.
  intros Hw. split; [apply ex_call; lia|]. split; [reflexivity|]. apply make_call; [exact ex_settings|exact ex_usable| | | | | |lia|apply from_all].
  - apply plain_check. vm_compute. reflexivity.
  - split; [discriminate|]. repeat constructor; discriminate.
  - intros a b. unfold exM. rewrite cols_app. lia.
  - vm_compute. discriminate.
  - apply scaled_width with (k := 1) (n := w); [|lia|apply (rep_Z B BL); unfold exactZ; lia|lia|lia]. apply (rep_Z B BL). unfold exactZ. lia.
Qed.
