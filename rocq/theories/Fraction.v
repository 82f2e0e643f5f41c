(** Widths and measures that are not integers, on binary64. *)
From Coq Require Import Reals Lra Psatz.
From Flocq Require Import Core BinarySingleNaN.
From Flocq Require Import Relative.
From Verif Require Import Base Arith ArithB64 Unicode Split SpecSplit Nodes KP Render SpecKP Tokens Align Options Call Settings AlignProofs Fresh ScaleB64 ScaleLines.
Open Scope R_scope.

(** [measuresReal f r]: f computes the width r, a number that needs not be an integer. Widths need not add up, and no rune is wider
    than 512. *)
Definition measuresReal (f : list rune -> go binary64) (r : list rune -> R) : Prop :=
  (forall t, 0 <= r t <= 512 * IZR (zlen t)) /\
  forall t, Forall okRune t -> r t <= bpow radix2 51 -> exists x, f t = Ret x /\ isNum x (r t).

(** The pieces of a line: fragments, spaces, and the hyphen. *)
Fixpoint lineParts (rh : bool) (seg : list frag) : list (list rune) :=
  match seg with
  | [] => []
  | [f] => f_text f :: (if rh && isSoft f then [[45%Z]] else [])
  | f :: seg' => f_text f :: (if isSpaced f then [[32%Z]] else []) ++ lineParts rh seg'
  end.
Definition rsum (l : list R) : R := fold_right Rplus 0 l.

Lemma rsum_app a b : rsum (a ++ b) = rsum a + rsum b.
Proof. induction a as [|x a IH]; [symmetry; apply Rplus_0_l|]. cbn [app]. unfold rsum in *. cbn [fold_right]. rewrite IH. symmetry. apply Rplus_assoc. Qed.
Lemma pieces_concat rh seg : concat (lineParts rh seg) = lineText rh seg.
Proof.
  induction seg as [|f seg IH]; [reflexivity|]. destruct seg as [|g seg].
  - cbn [lineParts lineText concat]. destruct (rh && isSoft f); reflexivity.
  - change (lineParts rh (f :: g :: seg)) with (f_text f :: (if isSpaced f then [[32%Z]] else []) ++ lineParts rh (g :: seg)).
    change (lineText rh (f :: g :: seg)) with (f_text f ++ (if isSpaced f then [32%Z] else []) ++ lineText rh (g :: seg)).
    cbn [concat]. rewrite concat_app. f_equal. f_equal; [destruct (isSpaced f); reflexivity|exact IH].
Qed.

(** Any options, then a measurer and a scale factor. *)
Definition realOpts (pow : binary64 -> binary64 -> binary64) (opts : list (lbOption (b64 pow))) (f : list rune -> go binary64) (s : binary64) :
  list (lbOption (b64 pow)) := opts ++ [@WithMeasurer (b64 pow) f; @WithScaleFactor (b64 pow) s].

(** ** Rounding *)
Lemma rnd_near x : 0 <= x <= bpow radix2 49 -> Rabs (rnd x - x) <= / 16.
Proof.
  intros H. destruct (error_N_FLT radix2 (-1074) 53 eq_refl (fun x => negb (Z.even x)) x) as (eps & eta & H1 & H2 & H0 & H3).
  rewrite H3. replace (x * (1 + eps) + eta - x) with (x * eps + eta) by ring.
  apply Rmult_integral in H0. destruct H0 as [-> | ->].
  - rewrite Rmult_0_r, Rplus_0_l. eapply Rle_trans; [exact H2|]. change (/ 2) with (bpow radix2 (-1)). rewrite <- bpow_plus.
    apply Rle_trans with (bpow radix2 (-4)); [apply bpow_le; lia|cbn; lra].
  - rewrite Rplus_0_r, Rabs_mult, (Rabs_pos_eq x) by lra. apply Rle_trans with (bpow radix2 49 * bpow radix2 (-53)).
    + apply Rmult_le_compat; [lra|apply Rabs_pos|lra|]. eapply Rle_trans; [exact H1|]. change (/ 2) with (bpow radix2 (-1)). rewrite <- bpow_plus. apply bpow_le. lia.
    + rewrite <- bpow_plus. cbn. lra.
Qed.
Lemma scaled_near x : 0 <= x <= bpow radix2 49 -> x - 9 / 16 <= IZR (rna (rnd x)) <= x + 9 / 16.
Proof. intros H. pose proof (rnd_near x H) as K. apply Rabs_le_inv in K. pose proof (rna_near (rnd x)). lra. Qed.

Section Real.
Variable pow : binary64 -> binary64 -> binary64.
Hypothesis Hp : powOk pow.
Variable s : binary64.
Hypothesis Hf : is_finite s = true.
Hypothesis Hs : 2 / 3 < B2R s <= bpow radix2 10.

Lemma Hs19 : 2 / 3 < B2R s <= bpow radix2 19.
Proof. assert (bpow radix2 10 <= bpow radix2 19) by (apply bpow_le; lia). lra. Qed.

(** a scaled width *)
Definition scaledR (x : R) : Z := rna (rnd (x * B2R s)).
Lemma scaledR_nonneg x : 0 <= x -> (0 <= scaledR x)%Z.
Proof.
  intros H. unfold scaledR. rewrite <- (rna_Z 0) at 1. apply rna_le. apply ge_rnd; [apply generic_format_0|].
  apply Rmult_le_pos; [exact H|]. pose proof Hs. lra.
Qed.
Lemma scaledR_small x : 0 <= x -> (scaledR x <= 2 ^ 50)%Z -> x <= bpow radix2 51.
Proof.
  intros H0 H. destruct (Rle_or_lt x (bpow radix2 51)) as [G|G]; [exact G|exfalso].
  assert (2 ^ 50 + 1 <= scaledR x)%Z; [|lia]. unfold scaledR. rewrite <- (rna_Z (2 ^ 50 + 1)). apply rna_le.
  apply ge_rnd; [apply fmt_Z; split; vm_compute; discriminate|]. pose proof Hs as Hs'.
  apply Rle_trans with (bpow radix2 51 * (2 / 3)); [cbn; lra|]. apply Rmult_le_compat; try lra. apply bpow_ge_0.
Qed.
Lemma scaledR_exact y x : isNum y x -> 0 <= x -> (scaledR x <= 2 ^ 50)%Z -> brep (bround (bmult y s)) (scaledR x).
Proof.
  intros [Fy Ey] H0 H. pose proof (scaledR_small x H0 H) as Hx. pose proof (scaledR_nonneg x H0) as Hn. split.
  - apply bround_ok. apply mult_ok; [exact Fy|exact Hf|now rewrite Ey|]. pose proof Hs as Hs'.
    apply abs_bnd with 61%Z; [lia|]. apply rnd_pos; [lia|]. split; [apply Rmult_le_pos; lra|].
    change 61%Z with (51 + 10)%Z. rewrite bpow_plus. apply Rmult_le_compat; lra.
  - unfold exactZ. lia.
Qed.
Lemma scaledR_pos x : 1 <= x -> (0 < scaledR x)%Z.
Proof.
  intros H. unfold scaledR. assert (1 <= rna (rnd (x * B2R s)))%Z; [|lia]. rewrite <- rna_half. apply rna_le.
  apply ge_rnd; [apply fmt_half|]. pose proof Hs. nra.
Qed.
Lemma scaledR_le x n : (0 <= n)%Z -> 0 <= x <= 512 * IZR n -> (scaledR x <= 2 ^ 20 * n)%Z.
Proof.
  intros Hn Hx. pose proof Hs as Hs'. assert (0 <= IZR n) by (apply (IZR_le 0); lia).
  enough (IZR (scaledR x) < IZR (2 ^ 20 * n + 1)) as K by (apply lt_IZR in K; lia). unfold scaledR. rewrite plus_IZR.
  pose proof (rna_near (rnd (x * B2R s))) as K. enough (rnd (x * B2R s) <= IZR (2 ^ 20 * n) + / 4) by lra.
  assert (0 <= x * B2R s <= bpow radix2 19 * IZR n) as K1.
  { split; [apply Rmult_le_pos; lra|]. apply Rle_trans with (512 * IZR n * bpow radix2 10); [apply Rmult_le_compat; lra|]. cbn. lra. }
  destruct (error_N_FLT radix2 (-1074) 53 eq_refl (fun x => negb (Z.even x)) (x * B2R s)) as (eps & eta & H1 & H2 & _ & H3). rewrite H3.
  apply Rabs_le_inv in H1, H2. assert (/ 2 * bpow radix2 (-1074) <= / 4) as G1.
  { change (/ 2) with (bpow radix2 (-1)). rewrite <- bpow_plus. apply Rle_trans with (bpow radix2 (-2)); [apply bpow_le; lia|cbn; lra]. }
  assert (/ 2 * bpow radix2 (- (53) + 1) <= 1) as G2 by (cbn; lra).
  rewrite mult_IZR. assert (IZR (2 ^ 20) = 2 * bpow radix2 19) as -> by (cbn; lra). nra.
Qed.

(** ** Settings and calls *)
Variable f : list rune -> go (F (b64 pow)).
Variable r : list rune -> R.
Hypothesis M : measuresReal f r.
Hypothesis M32 : r [32%Z] = 1.
Notation A := (b64 pow).
Notation L := (b64_laws pow Hp).
Variable u : unicode.
Variable opts : list (lbOption A).
Hypothesis Hopts : Forall (okOption A L) opts.
Notation o := (withOptions A (defaultHyphenator u) (defaultPunctuator u) (realOpts pow opts f s)).

Lemma real_settings : exists (punct parts : list rune -> list (list rune)), settings A L u o (fun t => scaledR (r t)) punct parts.
Proof.
  pose proof (options_reached A L u opts Hopts) as [R1 _ _ (hg & R6) (pg & R7) [R9 R10]].
  destruct M as (M1 & M2). assert (forall t, 0 <= r t) as M0 by (intros t; apply M1).
  exists pg, hg. unfold realOpts, withOptions in *. rewrite fold_left_app.
  assert (exists opts', fold_left (applyOption A (defaultHyphenator u) (defaultPunctuator u)) [@WithMeasurer A f; @WithScaleFactor A s]
    (fold_left (applyOption A (defaultHyphenator u) (defaultPunctuator u)) opts (defaultLopts A (defaultHyphenator u) (defaultPunctuator u))) =
    withOptions A (defaultHyphenator u) (defaultPunctuator u) opts') as Ho.
  { exists (opts ++ [@WithMeasurer A f; @WithScaleFactor A s]). unfold withOptions. now rewrite fold_left_app. }
  destruct (fold_left _ opts _) as [[tol bad li fl fi] ms sc wb rh hp hh pp h p mi gl]. cbn [fold_left applyOption] in *.
  cbn [l_search k_tolerance l_hyphenator l_punctuator l_hyphenPenalty] in *.
  constructor.
  - exact Ho.
  - exact R1.
  - exact R9.
  - intros _. exact R10.
  - exact R7.
  - intros _. exact R6.
  - intros t. split; [apply scaledR_nonneg, M0|]. intros Ht Hb.
    destruct (M2 t Ht) as (x & E & Hx); [now apply scaledR_small|]. unfold measure. cbn [l_measurer]. rewrite E. cbn [gbind]. eexists. split; [reflexivity|].
    unfold scale. cbn [l_scale]. apply (scaledR_exact x (r t) Hx); [apply M0|exact Hb].
  - pose proof (scaledR_le (r [32%Z]) 1 ltac:(lia) (M1 [32%Z])). pose proof (scaledR_le (r [45%Z]) 1 ltac:(lia) (M1 [45%Z])). lia.
  - exact (quot_zero s Hs19).
  - intros x Hx. apply (quot_one s Hs19). rewrite M32 in Hx. unfold scaledR in Hx. exact Hx.
Qed.

Lemma real_scale : l_scale o = s.
Proof. unfold realOpts, withOptions. rewrite fold_left_app. destruct (fold_left _ opts _) as [[tol bad li fl fi] ms sc wb rh hp hh pp h p mi gl]. reflexivity. Qed.

Theorem real_call : exists lb0, newLineBreaker A u (realOpts pow opts f s) = Ret lb0 /\ usable A u o lb0 /\
  exists punct parts, forall lb tokens spare w ord, usable A u o lb -> plainTokens tokens spare -> tokens <> [] /\ Forall (fun t => t <> []) tokens ->
    (zlen (joinWith 32 tokens) <= 2 ^ 30)%Z -> is_finite w = true -> 1 <= B2R w <= bpow radix2 30 -> (forall i k c, In c (ord i k)) ->
    plainCall A L u o (fun t => scaledR (r t)) punct parts lb tokens spare w (scaledR (B2R w)) ord.
Proof.
  destruct real_settings as (punct & parts & S). destruct (settings_new A L u o _ punct parts S) as (sp & hy & E & _).
  exists (mkBreaker o sp hy []). split; [exact E|]. split; [now constructor|]. exists punct, parts.
  intros lb tokens spare w ord U Ht Hne Hw Fw Bw Hord. destruct M as (M1 & M2).
  assert (scaledR (B2R w) <= 2 ^ 50)%Z as Hb.
  { pose proof (scaledR_le (B2R w) (2 ^ 30) ltac:(vm_compute; discriminate)) as K. assert (2 ^ 20 * 2 ^ 30 = 2 ^ 50)%Z as Q by reflexivity. rewrite Q in K. apply K.
    change (IZR (2 ^ 30)) with (IZR (Zpower radix2 30)). rewrite IZR_Zpower by lia. pose proof (bpow_ge_0 radix2 30). lra. }
  apply make_call_below with (m' := fun t => (2 ^ 20 * zlen t)%Z); try assumption.
  - intros a b. rewrite zlen_app. lia.
  - intros t. apply scaledR_le; [apply zlen_nonneg|apply M1].
  - lia.
  - unfold scale. rewrite real_scale. apply (scaledR_exact w (B2R w)); [now split|lra|exact Hb].
  - split; [apply scaledR_pos, Bw|exact Hb].
Qed.

(** the pieces of a line against its computed width *)
Lemma pieces_err rh m sp hy e seg : B2R s * r [32%Z] <= IZR sp + e -> (rh = true -> forall x, In x seg -> isSoft x = true -> B2R s * r [45%Z] <= IZR hy + e) ->
  (forall x, In x seg -> B2R s * r (f_text x) <= IZR (m (f_text x)) + e) ->
  B2R s * rsum (map r (lineParts rh seg)) <= IZR (lineWidth rh m sp hy seg) + e * INR (length (lineParts rh seg)).
Proof.
  intros Hsp. induction seg as [|x seg IH]; intros Hhy Hx; [cbn; lra|]. pose proof (Hx x (or_introl eq_refl)) as K. destruct seg as [|y seg].
  - cbn [lineParts lineWidth]. destruct (rh && isSoft x) eqn:E.
    + apply andb_true_iff in E. destruct E as [E1 E2]. pose proof (Hhy E1 x (or_introl eq_refl) E2) as J.
      cbn [map rsum fold_right length]. change (INR 2) with 2. rewrite plus_IZR. unfold rune in *. lra.
    + cbn [map rsum fold_right length]. change (INR 1) with 1. rewrite plus_IZR. unfold rune in *. lra.
  - change (lineParts rh (x :: y :: seg)) with (f_text x :: (if isSpaced x then [[32%Z]] else []) ++ lineParts rh (y :: seg)).
    change (lineWidth rh m sp hy (x :: y :: seg)) with (m (f_text x) + (if isSpaced x then sp else 0) + lineWidth rh m sp hy (y :: seg))%Z.
    assert (B2R s * rsum (map r (lineParts rh (y :: seg))) <= IZR (lineWidth rh m sp hy (y :: seg)) + e * INR (length (lineParts rh (y :: seg)))) as J.
    { apply IH; [intros Hr z Hz; apply (Hhy Hr); now right|intros z Hz; apply Hx; now right]. }
    cbn [map length]. rewrite map_app, app_length. change (rsum (r (f_text x) :: ?l)) with (r (f_text x) + rsum l). rewrite rsum_app, S_INR, plus_INR, !plus_IZR.
    destruct (isSpaced x); cbn [map length rsum fold_right]; [change (INR 1) with 1|change (INR 0) with 0]; unfold rune in *; lra.
Qed.

Theorem real_lines punct parts lb tokens spare w ord : 
  plainCall A L u o (fun t => scaledR (r t)) punct parts lb tokens spare w (scaledR (B2R w)) ord ->
  (zlen (joinWith 32 tokens) <= 2 ^ 30)%Z -> 1 <= B2R w <= bpow radix2 30 ->
  forall ls lb', leftAlignUniform A u ord spare lb tokens w = Ret (Some ls, lb') ->
  exists segs, ls = map (lineText (l_renderHyphens o)) segs /\ concat segs = fragsOf u o punct parts tokens /\
    Forall (fun seg => rsum (map r (lineParts (l_renderHyphens o) seg)) <=
      B2R w + 9 / 16 * (INR (length (lineParts (l_renderHyphens o) seg)) + 1) / B2R s) segs.
Proof.
  intros C Hlen Hw ls lb' E.
  pose proof (align_sound _ _ _ _ _ _ _ _ _ _ _ _ _ C _ _ E) as (segs & -> & Hl & Hok).
  apply (linesOk_width _ _ _ _ _ _ _ (tol_no _ _ _ _ _ _ _ _ _ _ _ _ _ C)) in Hok.
  destruct (texts _ _ _ _ _ _ _ _ _ _ _ _ _ C) as (T1 & _ & T3). pose proof (fun s f => layout_in _ _ _ s f Hl) as Hin.
  exists segs. split; [reflexivity|]. destruct (layout_ne _ _ _ Hl) as [_ Hc]. split; [exact Hc|].
  set (rh := l_renderHyphens o) in *. destruct M as (M1 & M2). pose proof Hs as Hs'.
  assert (forall x, 0 <= x <= bpow radix2 39 -> B2R s * x <= IZR (scaledR x) + 9 / 16 /\ IZR (scaledR x) <= B2R s * x + 9 / 16) as Er.
  { intros x Hx. pose proof (scaled_near (x * B2R s)) as K. unfold scaledR. assert (0 <= x * B2R s <= bpow radix2 49) as K1.
    { split; [apply Rmult_le_pos; lra|]. change 49%Z with (39 + 10)%Z. rewrite bpow_plus. apply Rmult_le_compat; lra. }
    specialize (K K1). lra. }
  assert (forall t, (zlen t <= 2 ^ 30)%Z -> 0 <= r t <= bpow radix2 39) as Er2.
  { intros t Ht. pose proof (M1 t) as K. split; [apply K|]. apply IZR_le in Ht. change (IZR (2 ^ 30)) with (IZR (Zpower radix2 30)) in Ht. rewrite IZR_Zpower in Ht by lia.
    change 39%Z with (9 + 30)%Z. rewrite bpow_plus. change (bpow radix2 9) with 512. lra. }
  apply Forall_forall. intros seg Hseg. pose proof (proj1 (Forall_forall _ _) Hok seg Hseg) as Hws. cbv beta in Hws.
  apply Rmult_le_reg_l with (B2R s); [lra|].
  replace (B2R s * (B2R w + 9 / 16 * (INR (length (lineParts rh seg)) + 1) / B2R s)) with
    (B2R s * B2R w + 9 / 16 * (INR (length (lineParts rh seg)) + 1)) by (field; lra).
  eapply Rle_trans; [eapply pieces_err with (m := fun t => scaledR (r t)) (sp := scaledR (r [32%Z])) (hy := hyphenW o (fun t => scaledR (r t))) (e := 9 / 16)|].
  - apply Er, Er2. cbn. lia.
  - intros Hr x Hx Hsoft. unfold hyphenW. destruct (l_wordBreak o) eqn:Ew; [apply Er, Er2; cbn; lia|exfalso].
    pose proof (frs_nosoft _ u o punct parts tokens Ew) as N. rewrite Forall_forall in N. rewrite (N x) in Hsoft; [discriminate|]. eapply Hin; eassumption.
  - intros x Hx. apply Er, Er2. eapply Z.le_trans; [|exact Hlen]. rewrite <- T3. apply (para_part zlen); [apply zlen_app|apply zlen_nonneg|]. eapply Hin; eassumption.
  - apply IZR_le in Hws. destruct (Er (B2R w)) as [_ Hn'].
    { split; [lra|]. apply Rle_trans with (bpow radix2 30); [lra|apply bpow_le; lia]. }
    lra.
Qed.
End Real.

(** ** Only the scaled width matters *)
Lemma width_scaled (A : arith) u ord spare (lb : breaker A) tokens w w' : scale A (lb_opts lb) w = scale A (lb_opts lb) w' ->
  leftAlignUniform A u ord spare lb tokens w = leftAlignUniform A u ord spare lb tokens w'.
Proof. intros E. unfold leftAlignUniform. now rewrite E. Qed.
Lemma rna_unique x n : IZR n - / 2 <= x < IZR n + / 2 -> (1 <= n)%Z -> rna x = n.
Proof.
  intros H Hn. apply Z.le_antisymm.
  - apply Z.lt_succ_r. apply lt_IZR. pose proof (rna_near x). rewrite succ_IZR. lra.
  - assert (rna (IZR n - / 2) = n) as E; [|rewrite <- E; apply rna_le, H].
    unfold Znearest. assert (Zfloor (IZR n - / 2) = n - 1)%Z as E by (apply Zfloor_imp; rewrite plus_IZR, minus_IZR; lra). rewrite E.
    rewrite Rcompare_Eq by (rewrite minus_IZR; lra). replace (0 <=? n - 1)%Z with true by (symmetry; apply Z.leb_le; lia).
    apply Zceil_imp. rewrite minus_IZR. lra.
Qed.
(** with the scale factor 1, the width is rounded to the nearest integer *)
Theorem width_rounded pow u ord spare (lb : breaker (b64 pow)) tokens w n : l_scale (lb_opts lb) = fZ (b64 pow) 1 -> is_finite w = true ->
  IZR n - / 2 <= B2R w < IZR n + / 2 -> (1 <= n <= 2 ^ 30)%Z ->
  leftAlignUniform (b64 pow) u ord spare lb tokens w = leftAlignUniform (b64 pow) u ord spare lb tokens (fZ (b64 pow) n).
Proof.
  intros Hs Fw Hw Hn. apply width_scaled. unfold scale. rewrite Hs. cbn [fround fmul fZ b64].
  assert (1 <= IZR n <= bpow radix2 30) as Bn.
  { split; [apply (IZR_le 1); lia|]. rewrite <- IZR_Zpower by lia. apply IZR_le, Hn. }
  assert (forall x, is_finite x = true -> IZR n - / 2 <= B2R x < IZR n + / 2 -> bround (bmult x (ofInt 1)) = ofInt n) as K.
  { intros x Fx Hx. apply brep_nz; [|lia]. split; [|unfold exactZ; lia]. destruct (ofInt_rep 1) as [[F1 E1] _]; [split; vm_compute; discriminate|].
    rewrite <- (rna_unique (B2R x) n Hx ltac:(lia)). apply bround_ok. apply mult_ok; [exact Fx|exact F1|rewrite E1, Rmult_1_r; apply rnd_id, fmt_B2R|].
    apply abs_bnd with 31%Z; [lia|]. change 31%Z with (30 + 1)%Z. rewrite bpow_plus. change (bpow radix2 1) with 2. lra. }
  rewrite (K w Fw Hw). destruct (ofInt_rep n) as [[Fn En] _]; [unfold exactZ; lia|]. symmetry. apply K; [exact Fn|]. rewrite En. lra.
Qed.
Theorem real_lines_pieces pow (Hp : powOk pow) (s : binary64) : is_finite s = true -> 2 / 3 < B2R s <= bpow radix2 10 ->
  forall f r, measuresReal f r -> forall u opts, 
  let o := withOptions (b64 pow) (defaultHyphenator u) (defaultPunctuator u) (realOpts pow opts f s) in
  forall punct parts lb tokens spare w ord,
  plainCall (b64 pow) (b64_laws pow Hp) u o (fun t => scaledR s (r t)) punct parts lb tokens spare w (scaledR s (B2R w)) ord ->
  (zlen (joinWith 32 tokens) <= 2 ^ 30)%Z -> 1 <= B2R w <= bpow radix2 30 ->
  forall ls lb', leftAlignUniform (b64 pow) u ord spare lb tokens w = Ret (Some ls, lb') ->
  exists segs, ls = map (fun seg => concat (lineParts (l_renderHyphens o) seg)) segs /\ concat segs = fragsOf u o punct parts tokens /\
    Forall (fun seg => rsum (map r (lineParts (l_renderHyphens o) seg)) <=
      B2R w + 9 / 16 * (INR (length (lineParts (l_renderHyphens o) seg)) + 1) / B2R s) segs.
Proof.
  intros Hf Hs f r M u opts o punct parts lb tokens spare w ord C H1 H2 ls lb' E.
  edestruct (real_lines pow Hp s) as (segs & -> & Hc & K); try eassumption. exists segs. split; [|split; assumption].
  apply map_ext. intros seg. symmetry. apply pieces_concat.
Qed.
