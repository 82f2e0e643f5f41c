(** LeftAlignUniform given a negative width, -Inf or a huge finite one: nothing can be set (see Endless.v). *)
From Coq Require Import Reals Lra.
From Flocq Require Import Core IEEE754.BinarySingleNaN.
From Verif Require Import Base Arith Unicode Split SpecSplit SplitProofs Ansi SpecAnsi AnsiProofs Attr Hyph KP Nodes Render SpecKP Cost KPProofs Tokens Align Options
  Call Settings SpecFormat Format SpecAny AnyNodes AnyLines AnyShape KPStart AnyCall ArithB64 Endless.
Open Scope Z_scope.

Section B64.
Variable pow : binary64 -> binary64 -> binary64.
Variable L : laws (b64 pow).
Notation A := (b64 pow).
Notation rep := (rep A L).

Lemma rep_num x n : rep x n -> isNum x (IZR n).
Proof.
  intros R. split; [now apply (rep_finite pow L x n)|]. destruct (Z.eq_dec n 0) as [->|N].
  - assert (rep (fZ A 0) 0) as R0 by (apply rep_Z; unfold exactZ; lia). pose proof (rep_eq _ L _ _ _ _ R R0) as E.
    cbn [feq fZ b64] in E. assert (isNum (ofInt 0) 0) as N0 by (apply (ofInt_rep 0); unfold exactZ; lia).
    rewrite (cmp_eq x (ofInt 0) (B2R x) 0) in E; [|split; [now apply (rep_finite pow L x 0)|reflexivity]|exact N0].
    revert E. change (0 =? 0) with true. case Req_bool_spec; [intros H _; exact H|discriminate].
  - rewrite (rep_nz _ L x n R N). cbn [fZ b64]. apply ofInt_rep. apply (rep_exact _ L x n R).
Qed.

(** Scale factors that may be used are at least one half *)
Open Scope R_scope.
Lemma scale_half x sc : scaling A L x sc -> (exists m e B, x = B754_finite false m e B) /\ 1 / 2 <= B2R x.
Proof.
  intros [C1 C2 C3 C4 C5 C6]. assert (rep (fZ A 1) 1) as R1 by (apply rep_Z; unfold exactZ; lia).
  pose proof (C1 1%Z ltac:(lia)) as B1. specialize (C4 _ 1%Z ltac:(lia) ltac:(lia) R1). specialize (C2 1%Z ltac:(lia)).
  destruct (rep_num _ _ C4) as [N1 N2]. cbn [fround fmul b64 fZ] in N1, N2.
  destruct (Bnearbyint_correct 53 1024 Hemax mode_NA (bmult (ofInt 1) x)) as (V & F & _). unfold bround in N1, N2. rewrite N1 in F. rewrite N2 in V.
  assert (isNum (ofInt 1) 1) as [O1 O2] by (apply (ofInt_rep 1); unfold exactZ; lia).
  assert (is_finite x = true) as Fx. { destruct x as [s|s| |s mx ex Bx]; try reflexivity; [destruct s|]; vm_compute in F; discriminate. }
  assert (isNum (bmult (ofInt 1) x) (B2R x)) as [M1 M2].
  { apply mult_ok; [exact O1|exact Fx|rewrite O2, Rmult_1_l; apply rnd_id, generic_format_B2R|apply abs_B2R_lt_emax]. }
  rewrite M2 in V. assert (1 / 2 <= B2R x) as H.
  { apply Rnot_lt_le. intros Hl. unfold round, scaled_mantissa, cexp, FIX_exp, F2R in V. cbn [Fnum Fexp] in V. change (bpow radix2 (- 0)) with 1 in V.
    change (bpow radix2 0) with 1 in V. rewrite !Rmult_1_r in V. apply eq_IZR in V.
    assert (round_mode mode_NA (B2R x) <= 0)%Z as H0; [|lia].
    destruct (Rle_lt_dec 0 (B2R x)) as [Hp|Hn].
    - cbn [round_mode]. rewrite (Znearest_imp _ _ 0); [lia|]. rewrite Rminus_0_r, Rabs_pos_eq by exact Hp. lra.
    - apply Z.le_trans with (round_mode mode_NA (IZR 0)); [apply (@Zrnd_le _ (valid_rnd_round_mode mode_NA)); lra|].
      rewrite (@Zrnd_IZR _ (valid_rnd_round_mode mode_NA)). lia. }
  split; [|exact H]. destruct x as [s|s| |[|] mx ex Bx]; try discriminate Fx; [cbn in H; lra| |eauto].
  exfalso. cbn in H. pose proof (F2R_lt_0 radix2 (Float radix2 (Zneg mx) ex) ltac:(reflexivity)). cbn in *. lra.
Qed.

(** [big e x]: x is +Inf, or at least 2^e *)
Definition big (e : Z) (x : binary64) : Prop := x = B754_infinity false \/ (is_finite x = true /\ bpow radix2 e <= B2R x).
Lemma big_le e x tol : (14 <= e)%Z -> big e x -> fle A (fZ A 10000) tol = false -> Bleb x tol = false.
Proof.
  intros He Hx Ht. assert (isNum (ofInt 10000) 10000) as N by (apply (ofInt_rep 10000); unfold exactZ; lia).
  destruct Hx as [->|[Fx Ex]]; [destruct tol as [st|[|]| |st mt et Bt]; try reflexivity; vm_compute in Ht; discriminate|].
  destruct (is_finite tol) eqn:Ft.
  - rewrite (cmp_le x tol (B2R x) (B2R tol)) by (split; [assumption|reflexivity]). apply Rle_bool_false.
    cbn [fle fZ b64] in Ht. rewrite (cmp_le (ofInt 10000) tol 10000 (B2R tol)) in Ht; [|exact N|split; [assumption|reflexivity]].
    revert Ht. case Rle_bool_spec; [discriminate|]. intros Hl _. assert (bpow radix2 14 <= bpow radix2 e) as Hb by (apply bpow_le; exact He).
    assert (bpow radix2 14 = 16384) as E14 by (cbn; lra). lra.
  - destruct tol as [st|[|]| |st mt et Bt]; try discriminate Ft.
    + destruct x as [sx|sx| |[|] mx ex Bx]; try discriminate Fx; reflexivity.
    + vm_compute in Ht. discriminate.
    + destruct x as [sx|sx| |[|] mx ex Bx]; try discriminate Fx; reflexivity.
Qed.
Lemma big_lt e x y : big e x -> is_finite y = true -> B2R y < bpow radix2 e -> Bltb y x = true.
Proof.
  intros [->|[Fx Ex]] Fy Hy.
  - destruct y as [sy|sy| |[|] my ey By]; try discriminate Fy; reflexivity.
  - rewrite (cmp_lt y x (B2R y) (B2R x)) by (split; [assumption|reflexivity]). apply Rlt_bool_true. lra.
Qed.
Lemma rnd_ge e r : (-1074 <= e <= 900)%Z -> bpow radix2 e <= r -> bpow radix2 e <= rnd r.
Proof. intros He H. rewrite <- (rnd_id (bpow radix2 e)) by now apply fmt_bpow. now apply rnd_le. Qed.
Lemma rnd_small (x : binary64) r : is_finite x = true -> 0 <= r <= B2R x -> Rabs (rnd r) < bpow radix2 1024.
Proof.
  intros F [H1 H2]. assert (0 <= rnd r) as H3 by (rewrite <- (rnd_id 0) by apply generic_format_0; now apply rnd_le).
  assert (rnd r <= B2R x) as H4 by (rewrite <- (rnd_id (B2R x)) by apply generic_format_B2R; now apply rnd_le).
  rewrite Rabs_pos_eq by exact H3. pose proof (abs_B2R_lt_emax 53 1024 x) as H5. rewrite Rabs_pos_eq in H5 by lra. lra.
Qed.
Lemma big_minus e x y : (0 <= e <= 800)%Z -> big (e + 1) x -> is_finite y = true -> 0 <= B2R y <= bpow radix2 e -> big e (bminus x y).
Proof.
  intros He [->|[Fx Ex]] Fy Hy.
  - left. destruct y as [sy|sy| |sy my ey By]; try discriminate Fy; reflexivity.
  - right. assert (bpow radix2 (e + 1) = 2 * bpow radix2 e) as E2 by (rewrite bpow_plus; change (bpow radix2 1) with 2; lra).
    assert (isNum (bminus x y) (rnd (B2R x - B2R y))) as [N1 N2].
    { apply minus_ok; try assumption; [reflexivity|]. apply (rnd_small x); [exact Fx|]. pose proof (bpow_ge_0 radix2 e). lra. }
    split; [exact N1|]. rewrite N2. apply rnd_ge; [lia|lra].
Qed.
Lemma big_div e k x y : (0 <= k <= e)%Z -> (e <= 800)%Z -> big e x -> (exists m ex B, y = B754_finite false m ex B) -> 1 <= B2R y <= bpow radix2 k -> big (e - k) (bdiv x y).
Proof.
  intros Hk He [->|[Fx Ex]] (m & ex & B & ->) Hy; [now left|]. right. set (y := B754_finite false m ex B) in *.
  assert (bpow radix2 (e - k) * bpow radix2 k = bpow radix2 e) as E2 by (rewrite <- bpow_plus; f_equal; lia).
  pose proof (bpow_gt_0 radix2 (e - k)) as G1. pose proof (bpow_gt_0 radix2 e) as G2.
  assert (bpow radix2 (e - k) <= B2R x / B2R y) as H1.
  { apply Rmult_le_reg_r with (B2R y); [lra|]. unfold Rdiv. rewrite Rmult_assoc, Rinv_l, Rmult_1_r by lra.
    apply Rle_trans with (bpow radix2 (e - k) * bpow radix2 k); [apply Rmult_le_compat_l; lra|lra]. }
  assert (B2R x / B2R y <= B2R x) as H2.
  { apply Rmult_le_reg_r with (B2R y); [lra|]. unfold Rdiv. rewrite Rmult_assoc, Rinv_l, Rmult_1_r by lra. nra. }
  assert (isNum (bdiv x y) (rnd (B2R x / B2R y))) as [N1 N2].
  { apply div_ok; [exact Fx|lra|reflexivity|]. apply (rnd_small x); [exact Fx|lra]. }
  split; [exact N1|]. rewrite N2. apply rnd_ge; [lia|exact H1].
Qed.
Lemma big_sign e (x : binary64) : is_finite x = true -> bpow radix2 e <= B2R x -> Bsign x = false.
Proof.
  intros Fx Ex. pose proof (bpow_gt_0 radix2 e) as G. destruct x as [sx|sx| |[|] mx ex' Bx]; try discriminate Fx; try reflexivity; cbn in Ex; exfalso.
  - lra.
  - pose proof (F2R_lt_0 radix2 (Float radix2 (Zneg mx) ex') ltac:(reflexivity)). cbn in *. lra.
Qed.
Lemma big_mult e x y : (0 <= e <= 800)%Z -> big (e + 1) x -> (exists m ex B, y = B754_finite false m ex B) -> 1 / 2 <= B2R y -> big e (bmult x y).
Proof.
  intros He [->|[Fx Ex]] (m & ex & B & ->) Hy; [now left|]. set (y := B754_finite false m ex B) in *.
  pose proof (bpow_gt_0 radix2 e) as G. assert (bpow radix2 (e + 1) = 2 * bpow radix2 e) as E2 by (rewrite bpow_plus; change (bpow radix2 1) with 2; lra).
  pose proof (Bmult_correct 53 1024 Hprec Hemax mode_NE x y) as C. cbn [round_mode] in C. rewrite fexp_eq in C.
  change (Bmult mode_NE x y) with (bmult x y) in C.
  destruct (Rlt_bool (Rabs (rnd (B2R x * B2R y))) (bpow radix2 1024)).
  - right. destruct C as (C1 & C2 & _). rewrite Fx in C2. split; [exact C2|]. rewrite C1. apply rnd_ge; [lia|]. nra.
  - left. rewrite (big_sign _ _ Fx Ex) in C. cbn in C. destruct (bmult x y) as [|[|]| |]; cbn in C; try discriminate C. reflexivity.
Qed.
Lemma big_round e x : (0 <= e)%Z -> big e x -> big e (bround x).
Proof.
  intros He [->|[Fx Ex]]; [now left|]. right. destruct (Bnearbyint_correct 53 1024 Hemax mode_NA x) as (H1 & H2 & _).
  split; [unfold bround; congruence|]. unfold bround. rewrite H1. apply round_ge_generic; [apply FIX_exp_valid|apply valid_rnd_round_mode| |exact Ex].
  apply generic_format_bpow'; [apply FIX_exp_valid|]. unfold FIX_exp. lia.
Qed.
Lemma big_endless tol w : fle A (fZ A 10000) tol = false -> big 52 w -> endless A L tol w.
Proof.
  intros Ht Hb x a Rx Ha. left. destruct (rep_num x a Rx) as [Fx Ex].
  assert (0 <= B2R x <= bpow radix2 51) as Hx.
  { rewrite Ex. split; [apply IZR_le; lia|]. change (bpow radix2 51) with (IZR (2 ^ 51)). apply IZR_le. lia. }
  assert (bpow radix2 52 = 2 * bpow radix2 51) as E52 by (rewrite <- (bpow_plus radix2 1 51) || (cbn; lra)).
  split.
  - apply (big_lt 52); [exact Hb|exact Fx|]. pose proof (bpow_gt_0 radix2 51). lra.
  - intros y s Ry Hs. destruct (rep_num y s Ry) as [_ Ey]. cbn [fle fdiv fsub b64]. apply (big_le (51 - 21)); [lia| |exact Ht].
    apply big_div; [lia|lia|apply big_minus; [lia|exact Hb|exact Fx|exact Hx]|apply (rep_positive pow L y s Ry); lia|].
    rewrite Ey. split; [apply IZR_le; lia|]. change (bpow radix2 21) with (IZR (2 ^ 21)). apply IZR_le. lia.
Qed.

(** [low x]: x is -Inf, or at most -r *)
Definition low (r : R) (x : binary64) : Prop := x = B754_infinity true \/ (is_finite x = true /\ B2R x <= - r).
Lemma low_sign r (x : binary64) : 0 < r -> is_finite x = true -> B2R x <= - r -> Bsign x = true.
Proof.
  intros G Fx Ex. destruct x as [sx|sx| |[|] mx ex' Bx]; try discriminate Fx; try reflexivity; cbn in Ex; exfalso.
  - lra.
  - pose proof (F2R_gt_0 radix2 (Float radix2 (Zpos mx) ex') ltac:(reflexivity)). cbn in *. lra.
Qed.
Lemma low_mult x y : low 1 x -> (exists m ex B, y = B754_finite false m ex B) -> 1 / 2 <= B2R y -> low (1 / 2) (bmult x y).
Proof.
  intros [->|[Fx Ex]] (m & ex & B & ->) Hy; [now left|]. set (y := B754_finite false m ex B) in *.
  pose proof (Bmult_correct 53 1024 Hprec Hemax mode_NE x y) as C. cbn [round_mode] in C. rewrite fexp_eq in C.
  change (Bmult mode_NE x y) with (bmult x y) in C.
  destruct (Rlt_bool (Rabs (rnd (B2R x * B2R y))) (bpow radix2 1024)).
  - right. destruct C as (C1 & C2 & _). rewrite Fx in C2. split; [exact C2|]. rewrite C1.
    assert (bpow radix2 (-1) = 1 / 2) as E1 by (cbn; lra). rewrite <- E1. rewrite <- (rnd_id (- bpow radix2 (-1))).
    + apply rnd_le. rewrite E1. nra.
    + apply generic_format_opp, fmt_bpow. lia.
  - left. rewrite (low_sign 1 _ ltac:(lra) Fx Ex) in C. cbn in C. destruct (bmult x y) as [|[|]| |]; cbn in C; try discriminate C. reflexivity.
Qed.
Lemma low_round x : low (1 / 2) x -> low 1 (bround x).
Proof.
  intros [->|[Fx Ex]]; [now left|]. right. destruct (Bnearbyint_correct 53 1024 Hemax mode_NA x) as (H1 & H2 & _).
  split; [unfold bround; congruence|]. unfold bround. rewrite H1.
  unfold round, scaled_mantissa, cexp, FIX_exp, F2R. cbn [Fnum Fexp]. change (bpow radix2 (- 0)) with 1. change (bpow radix2 0) with 1. rewrite !Rmult_1_r.
  change (- (1)) with (IZR (-1)). apply IZR_le. apply Z.le_trans with (round_mode mode_NA (- (1 / 2))); [apply (@Zrnd_le _ (valid_rnd_round_mode mode_NA)); lra|].
  cbn [round_mode]. unfold Znearest. rewrite (Zfloor_imp (-1)) by (cbn; lra). rewrite Rcompare_Eq by (cbn; lra). reflexivity.
Qed.
Lemma low_endless tol w : low 1 w -> endless A L tol w.
Proof.
  intros Hw x a Rx Ha. right. enough (flt A x w = false /\ flt A w x = true) by tauto. destruct (rep_num x a Rx) as [Fx Ex]. assert (0 <= B2R x) as H0 by (rewrite Ex; apply IZR_le; lia). cbn [flt b64].
  destruct Hw as [->|[Fw Ew]].
  - destruct x as [sx|sx| |sx mx ex Bx]; try discriminate Fx; split; reflexivity.
  - rewrite (cmp_lt x w (B2R x) (B2R w)), (cmp_lt w x (B2R w) (B2R x)) by (split; [assumption|reflexivity]). split; [apply Rlt_bool_false|apply Rlt_bool_true]; lra.
Qed.

(** A tolerance below zero, or NaN *)
Lemma tol_low x tol : x = B754_infinity false \/ (is_finite x = true /\ 0 <= B2R x) -> fle A (fZ A 0) tol = false -> Bleb x tol = false.
Proof.
  intros Hx Ht. assert (isNum (ofInt 0) 0) as N by (apply (ofInt_rep 0); unfold exactZ; lia).
  destruct Hx as [->|[Fx Ex]]; [destruct tol as [st|[|]| |st mt et Bt]; try reflexivity; vm_compute in Ht; discriminate|].
  destruct (is_finite tol) eqn:Ft.
  - rewrite (cmp_le x tol (B2R x) (B2R tol)) by (split; [assumption|reflexivity]). apply Rle_bool_false.
    cbn [fle fZ b64] in Ht. rewrite (cmp_le (ofInt 0) tol 0 (B2R tol)) in Ht; [|exact N|split; [assumption|reflexivity]].
    revert Ht. case Rle_bool_spec; [discriminate|]. intros Hl _. lra.
  - destruct tol as [st|[|]| |st mt et Bt]; try discriminate Ft.
    + destruct x as [sx|sx| |[|] mx ex Bx]; try discriminate Fx; reflexivity.
    + vm_compute in Ht. discriminate.
    + destruct x as [sx|sx| |[|] mx ex Bx]; try discriminate Fx; reflexivity.
Qed.
Lemma tol_endless tol w : fle A (fZ A 0) tol = false -> endless A L tol w.
Proof.
  intros Ht x a Rx Ha. destruct (rep_num x a Rx) as [Fx Ex]. assert (0 <= B2R x) as H0 by (rewrite Ex; apply IZR_le; lia).
  destruct (flt A x w) eqn:El; [|right; destruct (flt A w x); tauto]. left. split; [reflexivity|].
  intros y s Ry Hs. destruct (rep_num y s Ry) as [_ Ey]. cbn [fle fdiv fsub b64]. apply tol_low; [|exact Ht].
  destruct (rep_positive pow L y s Ry ltac:(lia)) as (m & e & B & Ep). assert (1 <= B2R y) as H1 by (rewrite Ey; apply IZR_le; lia).
  cbn [flt b64] in El. destruct (is_finite w) eqn:Fw.
  - right. rewrite (cmp_lt x w (B2R x) (B2R w)) in El by (split; [assumption|reflexivity]). revert El. case Rlt_bool_spec; [|discriminate]. intros Hl _.
    assert (isNum (bminus w x) (rnd (B2R w - B2R x))) as [N1 N2] by (apply minus_ok; try assumption; [reflexivity|apply (rnd_small w); [exact Fw|lra]]).
    assert (0 <= B2R (bminus w x)) as H2 by (rewrite N2, <- (rnd_id 0) by apply generic_format_0; apply rnd_le; lra).
    assert (0 <= B2R (bminus w x) / B2R y <= B2R (bminus w x)) as H3.
    { split; apply Rmult_le_reg_r with (B2R y); try lra; unfold Rdiv; rewrite Rmult_assoc, Rinv_l, Rmult_1_r by lra; nra. }
    assert (isNum (bdiv (bminus w x) y) (rnd (B2R (bminus w x) / B2R y))) as [N3 N4] by (apply div_ok; [exact N1|lra|reflexivity|now apply (rnd_small (bminus w x))]).
    split; [exact N3|]. rewrite N4, <- (rnd_id 0) by apply generic_format_0. apply rnd_le. lra.
  - left. subst y. destruct w as [sw|[|]| |sw mw ew Bw]; try discriminate Fw.
    + destruct x as [sx|sx| |[|] mx ex Bx]; try discriminate Fx; discriminate El.
    + destruct x as [sx|sx| |sx mx ex Bx]; try discriminate Fx; reflexivity.
    + destruct x as [sx|sx| |[|] mx ex Bx]; try discriminate Fx; discriminate El.
Qed.
End B64.
Open Scope Z_scope.

Lemma ge_big pow n e x : exactZ n -> IZR n = bpow radix2 e -> fle (b64 pow) (fZ (b64 pow) n) x = true -> big e x.
Proof.
  intros Hn En H. cbn [fle fZ b64] in H. destruct (ofInt_rep n Hn) as [N _]. destruct (is_finite x) eqn:Fx.
  - right. split; [exact Fx|]. rewrite (cmp_le (ofInt n) x (IZR n) (B2R x)) in H; [|exact N|split; [assumption|reflexivity]].
    rewrite <- En. revert H. case Rle_bool_spec; [auto|discriminate].
  - left. destruct N as [N _]. destruct x as [s|[|]| |s m ex Bx]; try discriminate Fx; try reflexivity;
      destruct (ofInt n) as [?|?| |[|] ? ? ?]; try discriminate N; discriminate H.
Qed.
Lemma le_low pow x : fle (b64 pow) x (fZ (b64 pow) (-1)) = true -> low 1 x.
Proof.
  intros H. cbn [fle fZ b64] in H. assert (isNum (ofInt (-1)) (-1)) as N by (apply (ofInt_rep (-1)); unfold exactZ; lia). destruct (is_finite x) eqn:Fx.
  - right. split; [exact Fx|]. rewrite (cmp_le x (ofInt (-1)) (B2R x) (-1)) in H; [|split; [assumption|reflexivity]|exact N].
    revert H. case Rle_bool_spec; [|discriminate]. intros Hl _. lra.
  - left. destruct x as [s|[|]| |s m ex Bx]; try discriminate Fx; try reflexivity; vm_compute in H; discriminate.
Qed.

Theorem options_huge pow (L : laws (b64 pow)) u opts : Forall (okOption (b64 pow) L) opts ->
  let o := withOptions (b64 pow) (defaultHyphenator u) (defaultPunctuator u) opts in
  (exists ps, l_punctuator o [] = Ret ps /\ concat ps = []) ->
  exists mz, measures (b64 pow) L (l_measurer o) mz /\
  forall lb seqs tokens spare itemss maxWidth ord, AnyCall.reached (b64 pow) u o lb seqs -> readable u tokens spare itemss ->
    mz (joinWith 32 (map keptText itemss)) <= 2 ^ 30 -> fle (b64 pow) (fZ (b64 pow) (2 ^ 53)) maxWidth = true ->
    exists lb', leftAlignUniform (b64 pow) u ord spare lb tokens maxWidth = Ret (None, lb') /\
      AnyCall.reached (b64 pow) u o lb' (seqs ++ flat_map formatting itemss).
Proof.
  intros H o He. destruct (options_endless (b64 pow) L u opts H He) as (mz & M & K). fold o in M, K. exists mz. split; [exact M|].
  intros lb seqs tokens spare itemss maxWidth ord Hre Hrd Hw Hm. apply K; try assumption.
  destruct (options_settings (b64 pow) L u opts H) as (sc & mz' & punct & parts & R & _ & _ & _ & S). fold o in R, S.
  destruct (scale_half pow L _ _ R) as [P1 P2]. apply big_endless; [apply S|]. unfold scale. cbn [fround fmul b64].
  apply big_round; [lia|]. apply big_mult; [lia| |exact P1|exact P2]. apply (ge_big pow (2 ^ 53)); [unfold exactZ; lia|reflexivity|exact Hm].
Qed.
Theorem options_negative pow (L : laws (b64 pow)) u opts : Forall (okOption (b64 pow) L) opts ->
  let o := withOptions (b64 pow) (defaultHyphenator u) (defaultPunctuator u) opts in
  (exists ps, l_punctuator o [] = Ret ps /\ concat ps = []) ->
  exists mz, measures (b64 pow) L (l_measurer o) mz /\
  forall lb seqs tokens spare itemss maxWidth ord, AnyCall.reached (b64 pow) u o lb seqs -> readable u tokens spare itemss ->
    mz (joinWith 32 (map keptText itemss)) <= 2 ^ 30 -> fle (b64 pow) maxWidth (fZ (b64 pow) (-1)) = true ->
    exists lb', leftAlignUniform (b64 pow) u ord spare lb tokens maxWidth = Ret (None, lb') /\
      AnyCall.reached (b64 pow) u o lb' (seqs ++ flat_map formatting itemss).
Proof.
  intros H o He. destruct (options_endless (b64 pow) L u opts H He) as (mz & M & K). fold o in M, K. exists mz. split; [exact M|].
  intros lb seqs tokens spare itemss maxWidth ord Hre Hrd Hw Hm. apply K; try assumption.
  destruct (options_settings (b64 pow) L u opts H) as (sc & mz' & punct & parts & R & _ & _ & _ & S). fold o in R, S.
  destruct (scale_half pow L _ _ R) as [P1 P2]. apply low_endless. unfold scale. cbn [fround fmul b64].
  apply low_round, low_mult; [now apply (le_low pow)|exact P1|exact P2].
Qed.
Theorem options_infinite pow (L : laws (b64 pow)) u opts : Forall (okOption (b64 pow) L) opts ->
  let o := withOptions (b64 pow) (defaultHyphenator u) (defaultPunctuator u) opts in
  (exists ps, l_punctuator o [] = Ret ps /\ concat ps = []) ->
  exists mz, measures (b64 pow) L (l_measurer o) mz /\
  forall lb seqs tokens spare itemss ord, AnyCall.reached (b64 pow) u o lb seqs -> readable u tokens spare itemss ->
    mz (joinWith 32 (map keptText itemss)) <= 2 ^ 30 ->
    exists lb', leftAlignUniform (b64 pow) u ord spare lb tokens (B754_infinity false) = Ret (None, lb') /\
      AnyCall.reached (b64 pow) u o lb' (seqs ++ flat_map formatting itemss).
Proof.
  intros H o He. destruct (options_huge pow L u opts H He) as (mz & M & K). fold o in M, K. exists mz. split; [exact M|].
  intros lb seqs tokens spare itemss ord Hre Hrd Hw. now apply K.
Qed.
Theorem options_tolerance pow (L : laws (b64 pow)) u opts : Forall (okOption (b64 pow) L) opts ->
  let o := withOptions (b64 pow) (defaultHyphenator u) (defaultPunctuator u) opts in
  (exists ps, l_punctuator o [] = Ret ps /\ concat ps = []) -> fle (b64 pow) (fZ (b64 pow) 0) (k_tolerance (l_search o)) = false ->
  exists mz, measures (b64 pow) L (l_measurer o) mz /\
  forall lb seqs tokens spare itemss maxWidth ord, AnyCall.reached (b64 pow) u o lb seqs -> readable u tokens spare itemss ->
    mz (joinWith 32 (map keptText itemss)) <= 2 ^ 30 ->
    exists lb', leftAlignUniform (b64 pow) u ord spare lb tokens maxWidth = Ret (None, lb') /\
      AnyCall.reached (b64 pow) u o lb' (seqs ++ flat_map formatting itemss).
Proof.
  intros H o He Ht. destruct (options_endless (b64 pow) L u opts H He) as (mz & M & K). fold o in M, K. exists mz. split; [exact M|].
  intros lb seqs tokens spare itemss maxWidth ord Hre Hrd Hw. apply K; try assumption. now apply tol_endless.
Qed.
