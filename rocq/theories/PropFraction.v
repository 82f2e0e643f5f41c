(** C100: LeftAlignUniform with widths and measures that are not integers, on binary64. [measuresReal], [lineParts] and [scaledR] are in Fraction.v. *)
From Coq Require Import String Ascii Reals Lra.
From Flocq Require Import Core BinarySingleNaN.
From Verif Require Import Base Arith ArithB64 Unicode Split SpecSplit SpecAnsi Hyph Nodes KP Render SpecKP Align Options Call Settings
  AlignProofs Fresh ScaleB64 ScaleLines PropAlign Fraction.
Open Scope Z_scope.

(** With any permissible options, a measurer of real widths (a space having width 1) and a scale factor between 2/3 and 1024, New works and
    the theorems on plain calls (C44-C62) hold of all calls, the width of a text t being [scaledR s (r t)], the nearest integer to s * r(t) *)
Theorem C100_new_works : forall pow (Hp : powOk pow) (s : binary64), is_finite s = true -> (2 / 3 < B2R s <= bpow radix2 10)%R ->
  forall f r, measuresReal f r -> r [32] = 1%R -> forall u opts, Forall (okOption (b64 pow) (b64_laws pow Hp)) opts ->
  let o := withOptions (b64 pow) (defaultHyphenator u) (defaultPunctuator u) (realOpts pow opts f s) in
  exists lb0, newLineBreaker (b64 pow) u (realOpts pow opts f s) = Ret lb0 /\ usable (b64 pow) u o lb0 /\
  exists punct parts, forall lb tokens spare w ord, usable (b64 pow) u o lb -> plainTokens tokens spare -> tokens <> [] /\ Forall (fun t => t <> []) tokens ->
    zlen (joinWith 32 tokens) <= 2 ^ 30 -> is_finite w = true -> (1 <= B2R w <= bpow radix2 30)%R -> (forall i k c, In c (ord i k)) ->
    plainCall (b64 pow) (b64_laws pow Hp) u o (fun t => scaledR s (r t)) punct parts lb tokens spare w (scaledR s (B2R w)) ord.
Proof. exact real_call. Qed.
Print Assumptions C100_new_works.

(** The sum of the widths of the k pieces of a line (fragments, spaces, hyphen) exceeds the width by at most 9/16 (k + 1) / s *)
Theorem C100_lines_partial : forall pow (Hp : powOk pow) (s : binary64), is_finite s = true -> (2 / 3 < B2R s <= bpow radix2 10)%R ->
  forall f r, measuresReal f r -> forall u opts, 
  let o := withOptions (b64 pow) (defaultHyphenator u) (defaultPunctuator u) (realOpts pow opts f s) in
  forall punct parts lb tokens spare w ord,
  plainCall (b64 pow) (b64_laws pow Hp) u o (fun t => scaledR s (r t)) punct parts lb tokens spare w (scaledR s (B2R w)) ord ->
  zlen (joinWith 32 tokens) <= 2 ^ 30 -> (1 <= B2R w <= bpow radix2 30)%R ->
  forall ls lb', leftAlignUniform (b64 pow) u ord spare lb tokens w = Ret (Some ls, lb') ->
  exists segs, ls = map (fun seg => concat (lineParts (l_renderHyphens o) seg)) segs /\ concat segs = fragsOf u o punct parts tokens /\
    Forall (fun seg => rsum (map r (lineParts (l_renderHyphens o) seg)) <=
      B2R w + 9 / 16 * (INR (length (lineParts (l_renderHyphens o) seg)) + 1) / B2R s)%R segs.
Proof. exact real_lines_pieces. Qed.
Print Assumptions C100_lines_partial.

(** With the default scale factor, for any tokens and line breaker, a width is the same as the nearest integer *)
Theorem C100_rounded : forall pow u ord spare (lb : breaker (b64 pow)) tokens (w : binary64) n, l_scale (lb_opts lb) = fZ (b64 pow) 1 -> is_finite w = true ->
  (IZR n - / 2 <= B2R w < IZR n + / 2)%R -> 1 <= n <= 2 ^ 30 ->
  leftAlignUniform (b64 pow) u ord spare lb tokens w = leftAlignUniform (b64 pow) u ord spare lb tokens (fZ (b64 pow) n).
Proof. exact width_rounded. Qed.
Print Assumptions C100_rounded.

(** Examples: a narrow i, of width 1/2; lines of width 21/2 *)
Definition halves (t : list rune) : Z := fold_right (fun c k => (if c =? 105 then 1 else 2) + k) 0 t.
Definition narrow (t : list rune) : go binary64 := Ret (fdiv B (n (halves t)) (n 2)).
Definition narrowR (t : list rune) : R := (IZR (halves t) / 2)%R.
Definition w21 : binary64 := fdiv B (n 21) (n 2).
Example C100_ex_measures : measuresReal narrow narrowR /\ narrowR [32] = 1%R /\ Forall (okOption B BL) [WithHyphenator (Some byTwo)].
Proof.
  assert (forall t, 0 <= halves t <= 2 * zlen t) as H.
  { intros t. unfold halves. induction t as [|c t IH]; [cbn; lia|]. rewrite zlen_cons. cbn [fold_right]. destruct (c =? 105); lia. }
  split; [split|split].
  - intros t. destruct (H t) as [H1 H2]. apply IZR_le in H1, H2. rewrite mult_IZR in H2. unfold narrowR. lra.
  - intros t _ Ht. eexists. split; [reflexivity|]. unfold narrowR in *. destruct (H t) as [H1 H2].
    assert (halves t <= 2 ^ 52) as H3.
    { apply le_IZR. change (IZR (2 ^ 52)) with (IZR (Zpower radix2 52)). rewrite IZR_Zpower by lia. change 52 with (51 + 1). rewrite bpow_plus. change (bpow radix2 1) with 2%R. lra. }
    assert (exactZ (halves t)) as X by (unfold exactZ; lia). destruct (ofInt_rep _ X) as [[F1 E1] _]. destruct (ofInt_rep 2) as [[F2 E2] _]; [unfold exactZ; lia|].
    change (isNum (bdiv (ofInt (halves t)) (ofInt 2)) (IZR (halves t) / 2)).
    apply div_ok; [exact F1|rewrite E2; lra| |].
    + rewrite E1, E2. replace (IZR (halves t) / 2)%R with (IZR (halves t) * bpow radix2 (-1))%R by (cbn; lra). apply rnd_id, fmt_int; [lia|exact X].
    + apply abs_bnd with 52; [lia|]. apply IZR_le in H1, H3. change (IZR (2 ^ 52)) with (IZR (Zpower radix2 52)) in H3. rewrite IZR_Zpower in H3 by lia. lra.
  - unfold narrowR. change (halves [32]) with 2. lra.
  - repeat constructor. exists pairs. exact byTwo_cuts.
Qed.
Example C100_ex : is_finite w21 = true /\ B2R w21 = (21 / 2)%R /\
  run [WithHyphenator (Some byTwo); @WithMeasurer B narrow; WithScaleFactor (n 2)] (from 0) ["iiiiii"; "iiii"; "abcdef"; "gh"]%string w21 =
    lines ["iiiiii iiii"; "abcdef gh"]%string.
Proof. split; [reflexivity|]. split; [vm_compute; lra|]. vm_compute. reflexivity. Qed.

(** A line can be wider than asked for: 11 columns for the width 10.5 *)
Theorem C100_width_refuted : exists tokens (w : binary64), is_finite w = true /\ (B2R w < 11)%R /\
  exists l, run [WithWordBreak false] (from 0) tokens w = Ret (Some [l]) /\ cols l = 11.
Proof.
  exists ["abcde"; "fghij"]%string, w21. split; [reflexivity|]. split; [vm_compute; lra|]. eexists. split; [vm_compute; reflexivity|]. vm_compute. reflexivity.
Qed.
Print Assumptions C100_width_refuted.

(** The unit of the measurer must be the width of a space: with quarters of it, words are run together; with a half of it, spaces are doubled *)
Theorem C100_unit_refuted : exists (f g : list rune -> go (F B)) tokens,
  (forall t, f t = Ret (fdiv B (n (zlen t)) (n 4))) /\ (forall t, g t = Ret (n (2 * zlen t))) /\
  run [WithWordBreak false; WithMeasurer f; WithScaleFactor (n 4)] (from 0) tokens (n 10) = lines ["abcd"]%string /\
  run [WithWordBreak false; WithMeasurer g] (from 0) tokens (n 10) = lines ["ab  cd"]%string.
Proof.
  exists (fun t => Ret (fdiv B (n (zlen t)) (n 4))), (fun t => Ret (n (2 * zlen t))), ["ab"; "cd"]%string. split; [reflexivity|]. split; [reflexivity|].
  split; vm_compute; reflexivity.
Qed.
Print Assumptions C100_unit_refuted.
