(** C98: LeftAlignUniform given an infinite or huge width, or one that is not a number; C79: any width of -1 or less. [keptText] and [formatting] are in SpecAny.v, [reached] and [readable] in AnyCall.v. *)
From Coq Require Import String Ascii.
From Flocq Require Import IEEE754.BinarySingleNaN.
From Verif Require Import Base Arith ArithB64 Unicode Split SpecSplit Ansi SpecAnsi Hyph Nodes KP Render Align Options Call Settings PropAlign SpecFormat Format PropFormat
  SpecAny AnyCall PropAny Endless Huge NoNumber.
Open Scope Z_scope.

(** For every text, math.Inf(1) gives ErrCannotBeSet: it does not mean lines without limits. *)
Theorem C98_infinite : forall pow (L : laws (b64 pow)) u opts, Forall (okOption (b64 pow) L) opts ->
  let o := withOptions (b64 pow) (defaultHyphenator u) (defaultPunctuator u) opts in
  (exists ps, l_punctuator o [] = Ret ps /\ concat ps = []) ->
  exists mz, measures (b64 pow) L (l_measurer o) mz /\
  forall lb seqs tokens spare itemss ord, reached (b64 pow) u o lb seqs -> readable u tokens spare itemss ->
    mz (joinWith 32 (map keptText itemss)) <= 2 ^ 30 ->
    exists lb', leftAlignUniform (b64 pow) u ord spare lb tokens (B754_infinity false) = Ret (None, lb') /\
      reached (b64 pow) u o lb' (seqs ++ flat_map formatting itemss).
Proof. exact options_infinite. Qed.
Print Assumptions C98_infinite.
(** [C78_ex] shows that [readable] and [reached] hold for these tokens *)
Example C98_ex : format fO exTokens (B754_infinity false) = Ret None /\ format fO exTokens (n 100) <> Ret None.
Proof. split; vm_compute; [reflexivity|discriminate]. Qed.
Example C98_ex_options : Forall (okOption B BL) [WithTolerance (n 9); WithScaleFactor (n 7); WithWordBreak false].
Proof.
  repeat apply Forall_cons; try apply Forall_nil; [vm_compute; reflexivity| |exact I].
  eexists. apply scaling_int with (k := 7); [lia|]. apply (rep_Z B BL). unfold exactZ. lia.
Qed.

(** Neither does a huge number, like math.MaxFloat64 *)
Theorem C98_huge : forall pow (L : laws (b64 pow)) u opts, Forall (okOption (b64 pow) L) opts ->
  let o := withOptions (b64 pow) (defaultHyphenator u) (defaultPunctuator u) opts in
  (exists ps, l_punctuator o [] = Ret ps /\ concat ps = []) ->
  exists mz, measures (b64 pow) L (l_measurer o) mz /\
  forall lb seqs tokens spare itemss maxWidth ord, reached (b64 pow) u o lb seqs -> readable u tokens spare itemss ->
    mz (joinWith 32 (map keptText itemss)) <= 2 ^ 30 -> fle (b64 pow) (fZ (b64 pow) (2 ^ 53)) maxWidth = true ->
    exists lb', leftAlignUniform (b64 pow) u ord spare lb tokens maxWidth = Ret (None, lb') /\
      reached (b64 pow) u o lb' (seqs ++ flat_map formatting itemss).
Proof. exact options_huge. Qed.
Print Assumptions C98_huge.
(** math.MaxFloat64 *)
Definition maxFloat64 : binary64 := bmult (ofInt (2 ^ 53 - 1)) (bmult (ofInt (2 ^ 971)) (ofInt 1)).
Example C98_ex_huge : B2SF maxFloat64 = SpecFloat.S754_finite false (2 ^ 53 - 1) 971 /\ fle B (fZ B (2 ^ 53)) maxFloat64 = true /\ format fO exTokens maxFloat64 = Ret None.
Proof. repeat split; vm_compute; reflexivity. Qed.

(** For every text, no line has a width of -1 or less. -Inf and numbers with fractions are widths too. *)
Theorem C79_negative : forall pow (L : laws (b64 pow)) u opts, Forall (okOption (b64 pow) L) opts ->
  let o := withOptions (b64 pow) (defaultHyphenator u) (defaultPunctuator u) opts in
  (exists ps, l_punctuator o [] = Ret ps /\ concat ps = []) ->
  exists mz, measures (b64 pow) L (l_measurer o) mz /\
  forall lb seqs tokens spare itemss maxWidth ord, reached (b64 pow) u o lb seqs -> readable u tokens spare itemss ->
    mz (joinWith 32 (map keptText itemss)) <= 2 ^ 30 -> fle (b64 pow) maxWidth (fZ (b64 pow) (-1)) = true ->
    exists lb', leftAlignUniform (b64 pow) u ord spare lb tokens maxWidth = Ret (None, lb') /\
      reached (b64 pow) u o lb' (seqs ++ flat_map formatting itemss).
Proof. exact options_negative. Qed.
Print Assumptions C79_negative.
Example C79_ex_negative : map (format fO ([] :: [] :: [] :: exTokens)) [B754_infinity true; bdiv (ofInt (-5)) (ofInt 2); n (-1)] = [Ret None; Ret None; Ret None] /\
  map (fun w => fle B w (fZ B (-1))) [B754_infinity true; bdiv (ofInt (-5)) (ofInt 2); n (-1)] = [true; true; true].
Proof. split; vm_compute; reflexivity. Qed.

(** A width that is not a number is no error: plain text is put on one line, whatever its width *)
Theorem C98_nan : forall pow (L : laws (b64 pow)) u opts, Forall (okOption (b64 pow) L) opts ->
  let o := withOptions (b64 pow) (defaultHyphenator u) (defaultPunctuator u) opts in
  fle (b64 pow) (fZ (b64 pow) 0) (k_tolerance (l_search o)) = true ->
  exists mz, measures (b64 pow) L (l_measurer o) mz /\
  forall lb tokens spare ord, usable (b64 pow) u o lb -> plainTokens tokens spare -> tokens <> [] /\ Forall (fun t => t <> []) tokens ->
    mz (joinWith 32 tokens) <= 2 ^ 30 -> (forall i k c, In c (ord i k)) ->
    exists lb', leftAlignUniform (b64 pow) u ord spare lb tokens B754_nan = Ret (Some [joinWith 32 tokens], lb') /\ usable (b64 pow) u o lb'.
Proof. exact options_nan. Qed.
Print Assumptions C98_nan.
Example C98_nan_ex : fle B (fZ B 0) (k_tolerance (l_search (withOptions B (defaultHyphenator ascii) (defaultPunctuator ascii) exOpts))) = true /\
  usable B ascii exO exB /\ plainTokens (map txt PropAlign.exTokens) (fun _ => []) /\
  PropAlign.run exOpts (from 0) PropAlign.exTokens B754_nan = lines ["ab, abcdef gh-ijk xyz"]%string /\
  PropAlign.run exOpts (from 0) PropAlign.exTokens (n 8) <> PropAlign.run exOpts (from 0) PropAlign.exTokens B754_nan.
Proof.
  split; [vm_compute; reflexivity|]. split; [exact ex_usable|]. split; [exact ex_plain|]. split; [vm_compute; reflexivity|]. vm_compute. discriminate.
Qed.

(** C112: with a tolerance that is negative or not a number, no text can be set, whatever the width, special values included *)
Theorem C112_tolerance : forall pow (L : laws (b64 pow)) u opts, Forall (okOption (b64 pow) L) opts ->
  let o := withOptions (b64 pow) (defaultHyphenator u) (defaultPunctuator u) opts in
  (exists ps, l_punctuator o [] = Ret ps /\ concat ps = []) -> fle (b64 pow) (fZ (b64 pow) 0) (k_tolerance (l_search o)) = false ->
  exists mz, measures (b64 pow) L (l_measurer o) mz /\
  forall lb seqs tokens spare itemss maxWidth ord, reached (b64 pow) u o lb seqs -> readable u tokens spare itemss ->
    mz (joinWith 32 (map keptText itemss)) <= 2 ^ 30 ->
    exists lb', leftAlignUniform (b64 pow) u ord spare lb tokens maxWidth = Ret (None, lb') /\
      reached (b64 pow) u o lb' (seqs ++ flat_map formatting itemss).
Proof. exact options_tolerance. Qed.
Print Assumptions C112_tolerance.
(** the tolerances -1/1000 and NaN; "ab" at width 2 is set with tolerance 0 *)
Definition tolerant (t : binary64) (w : binary64) : go (option (list (list rune))) := PropAlign.run [WithHyphenator (Some byTwo); @WithTolerance B t] (from 0) ["ab"]%string w.
Example C112_ex : map (fun t => map (tolerant t) [n 2; n 50; B754_nan]) [bdiv (n (-1)) (n 1000); B754_nan] = [[Ret None; Ret None; Ret None]; [Ret None; Ret None; Ret None]] /\
  tolerant (n 0) (n 2) = Ret (Some [txt "ab"]) /\ map (fun t => fle B (fZ B 0) t) [bdiv (n (-1)) (n 1000); B754_nan] = [false; false].
Proof. repeat split; vm_compute; reflexivity. Qed.
Example C112_ex_options : Forall (okOption B BL) [@WithTolerance B B754_nan; WithWordBreak false].
Proof. repeat apply Forall_cons; try apply Forall_nil; [vm_compute; reflexivity|exact I]. Qed.
