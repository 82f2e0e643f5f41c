(** Hyphen penalties that are huge, infinite or not numbers: breaks at hyphens are as forbidden as with 10000 (see Forbid.v). *)
From Coq Require Import Reals Lra.
From Flocq Require Import Core IEEE754.BinarySingleNaN.
From Verif Require Import Base Arith Unicode Split SpecSplit SplitProofs Ansi SpecAnsi AnsiProofs Attr Hyph KP Nodes Render SpecKP Cost KPProofs Tokens Align Options
  Call Settings SpecFormat Format SpecAny AnyNodes AnyLines AnyShape KPStart AnyCall ArithB64 Endless Huge Forbid.
Open Scope R_scope.

(** ** Signs *)
Lemma mult_sign x y : Bsign x = false -> Bsign y = false -> Bsign (bmult x y) = false.
Proof.
  intros Sx Sy. destruct (is_finite x && is_finite y) eqn:Ef.
  - apply andb_prop in Ef as [Fx Fy]. pose proof (Bmult_correct 53 1024 Hprec Hemax mode_NE x y) as C. change (Bmult mode_NE x y) with (bmult x y) in C.
    destruct (Rlt_bool _ _).
    + destruct C as (_ & C2 & C3). rewrite Fx, Fy in C2. rewrite C3, Sx, Sy; [reflexivity|]. destruct (bmult x y); try discriminate C2; reflexivity.
    + rewrite Sx, Sy in C. cbn in C. destruct (bmult x y) as [|[|]| |]; cbn in C; try discriminate C. reflexivity.
  - destruct x as [[|]|[|]| |[|] ? ? ?], y as [[|]|[|]| |[|] ? ? ?]; try discriminate; reflexivity.
Qed.
Lemma sign_pos (x : binary64) : is_finite x = true -> Bsign x = false -> 0 <= B2R x.
Proof. destruct x as [s|s| |[|] m e B]; cbn; try discriminate; intros _ _; [lra|]. apply (F2R_ge_0 radix2 (Float radix2 (Zpos m) e)). cbn. lia. Qed.
Lemma sign_neg (x : binary64) : is_finite x = true -> Bsign x = true -> B2R x <= 0.
Proof. destruct x as [s|s| |[|] m e B]; cbn; try discriminate; intros _ _; [lra|]. apply (F2R_le_0 radix2 (Float radix2 (Zneg m) e)). cbn. lia. Qed.
Lemma plus_sign x y : Bsign x = false -> Bsign y = false -> Bsign (bplus x y) = false.
Proof.
  intros Sx Sy. destruct (is_finite x && is_finite y) eqn:Ef.
  - apply andb_prop in Ef as [Fx Fy]. pose proof (Bplus_correct 53 1024 Hprec Hemax mode_NE x y Fx Fy) as C. change (Bplus mode_NE x y) with (bplus x y) in C.
    destruct (Rlt_bool _ _).
    + destruct C as (_ & _ & ->). pose proof (sign_pos x Fx Sx). pose proof (sign_pos y Fy Sy). rewrite Sx, Sy. case Rcompare_spec; intros H1; [lra|reflexivity|reflexivity].
    + destruct C as [C _]. rewrite Sx in C. cbn in C. destruct (bplus x y) as [|[|]| |]; cbn in C; try discriminate C. reflexivity.
  - destruct x as [[|]|[|]| |[|] ? ? ?], y as [[|]|[|]| |[|] ? ? ?]; try discriminate; reflexivity.
Qed.
Lemma minus_sign w x : is_finite x = true -> Bltb x w = true -> Bsign (bminus w x) = false.
Proof.
  intros Fx H. destruct (is_finite w) eqn:Fw.
  - rewrite (cmp_lt x w (B2R x) (B2R w)) in H by (split; [assumption|reflexivity]). revert H. case Rlt_bool_spec; [|discriminate]. intros Hl _.
    pose proof (Bminus_correct 53 1024 Hprec Hemax mode_NE w x Fw Fx) as C. change (Bminus mode_NE w x) with (bminus w x) in C.
    destruct (Rlt_bool _ _).
    + destruct C as (_ & _ & ->). case Rcompare_spec; intros H1; [lra|lra|reflexivity].
    + destruct C as [C Cs]. destruct (Bsign w) eqn:Sw.
      * exfalso. symmetry in Cs. apply negb_true_iff in Cs. pose proof (sign_neg w Fw Sw). pose proof (sign_pos x Fx Cs). lra.
      * cbn in C. destruct (bminus w x) as [|[|]| |]; cbn in C; try discriminate C. reflexivity.
  - destruct w as [|[|]| |]; try discriminate Fw; destruct x as [s|s| |[|] m e B]; try discriminate Fx; try discriminate H; reflexivity.
Qed.
Lemma div_sign x y : Bsign x = false -> (exists m e B, y = B754_finite false m e B) -> Bsign (bdiv x y) = false.
Proof.
  intros Sx (m & e & B & ->). set (y := B754_finite false m e B). destruct (is_finite x) eqn:Fx.
  - assert (0 < B2R y) as Hy by (cbn; apply (F2R_gt_0 radix2 (Float radix2 (Zpos m) e)); cbn; lia).
    pose proof (Bdiv_correct 53 1024 Hprec Hemax mode_NE x y ltac:(lra)) as C. change (Bdiv mode_NE x y) with (bdiv x y) in C.
    destruct (Rlt_bool _ _).
    + destruct C as (_ & C2 & C3). rewrite Fx in C2. rewrite C3, Sx; [reflexivity|]. destruct (bdiv x y); try discriminate C2; reflexivity.
    + rewrite Sx in C. cbn in C. destruct (bdiv x y) as [|[|]| |]; cbn in C; try discriminate C. reflexivity.
  - destruct x as [|[|]| |]; try discriminate; reflexivity.
Qed.
Lemma sign_lt x n : (-2 ^ 53 <= n <= 0)%Z -> Bsign x = false -> Bltb x (ofInt n) = false.
Proof.
  intros Hn Sx. assert (isNum (ofInt n) (IZR n)) as N by (apply (ofInt_rep n); unfold exactZ; lia). destruct (is_finite x) eqn:Fx.
  - rewrite (cmp_lt x (ofInt n) (B2R x) (IZR n)); [|split; [assumption|reflexivity]|exact N]. apply Rlt_bool_false. pose proof (sign_pos x Fx Sx).
    assert (IZR n <= 0) by (apply IZR_le; lia). lra.
  - destruct N as [N _]. destruct x as [|[|]| |]; try discriminate; destruct (ofInt n) as [?|?| |[|] ? ? ?]; try discriminate N; reflexivity.
Qed.

(** ** Numbers that have infinite squares *)
Lemma rnd_ge' e r : (-1074 <= e)%Z -> bpow radix2 e <= r -> bpow radix2 e <= rnd r.
Proof.
  intros He H. rewrite <- (rnd_id (bpow radix2 e)); [now apply rnd_le|]. apply generic_format_bpow'; [apply vfe|]. unfold FLT_exp. lia.
Qed.
Lemma big_square x : big 512 x -> bmult x x = B754_infinity false.
Proof.
  intros [->|[Fx Ex]]; [reflexivity|]. pose proof (Bmult_correct 53 1024 Hprec Hemax mode_NE x x) as C. cbn [round_mode] in C. rewrite fexp_eq in C.
  change (Bmult mode_NE x x) with (bmult x x) in C. rewrite Rlt_bool_false in C.
  - rewrite (big_sign 512 x Fx Ex) in C. cbn in C. destruct (bmult x x) as [|[|]| |]; cbn in C; try discriminate C. reflexivity.
  - assert (bpow radix2 1024 <= rnd (B2R x * B2R x)) as H; [|eapply Rle_trans; [exact H|apply Rle_abs]]. apply rnd_ge'; [lia|].
    change 1024%Z with (512 + 512)%Z. rewrite bpow_plus. apply Rmult_le_compat; [apply bpow_ge_0|apply bpow_ge_0|exact Ex|exact Ex].
Qed.
Lemma big_plus x y : Bsign x = false -> big 512 y -> big 512 (bplus x y) \/ bplus x y = B754_nan.
Proof.
  intros Sx Hy. destruct (is_finite x) eqn:Fx.
  - destruct Hy as [->|[Fy Ey]]; [left; left; destruct x as [[|]|[|]| |[|] ? ? ?]; try discriminate; reflexivity|]. left.
    pose proof (Bplus_correct 53 1024 Hprec Hemax mode_NE x y Fx Fy) as C. cbn [round_mode] in C. rewrite fexp_eq in C. change (Bplus mode_NE x y) with (bplus x y) in C.
    destruct (Rlt_bool _ _).
    + destruct C as (C1 & C2 & _). right. split; [exact C2|]. rewrite C1. apply rnd_ge'; [lia|]. pose proof (sign_pos x Fx Sx). lra.
    + destruct C as [C _]. left. rewrite Sx in C. cbn in C. destruct (bplus x y) as [|[|]| |]; cbn in C; try discriminate C. reflexivity.
  - destruct x as [|[|]| |]; try discriminate; [|right; destruct y; reflexivity]. left. left. destruct Hy as [->|[Fy Ey]]; [reflexivity|]. destruct y as [| | |]; try discriminate Fy; reflexivity.
Qed.
Lemma big_gt e x y r : big e x -> isNum y r -> r < bpow radix2 e -> Bltb y x = true /\ Beqb x y = false /\ Beqb y x = false.
Proof.
  intros Hx [Fy Ey] Hr. split; [apply (big_lt e); try assumption; lra|]. destruct Hx as [->|[Fx Ex]].
  - destruct y as [?|?| |[|] ? ? ?]; try discriminate Fy; split; reflexivity.
  - rewrite (cmp_eq x y (B2R x) r), (cmp_eq y x r (B2R x)) by (split; [assumption|reflexivity||assumption]). split; case Req_bool_spec; intros; try reflexivity; lra.
Qed.

(** What is asked of math.Pow, besides [powOk]: squares overflow, and cubes are not negative. *)
Definition powBig (pow : binary64 -> binary64 -> binary64) : Prop :=
  pow B754_nan (ofInt 2) = B754_nan /\ (forall x, big 512 x -> pow x (ofInt 2) = B754_infinity false) /\
  forall x, Bsign x = false -> Bsign (pow x (ofInt 3)) = false.
Lemma mulPow_big : powBig mulPow.
Proof.
  repeat split.
  - intros x Hx. unfold mulPow. change (Beqb (ofInt 2) (ofInt 2)) with true. cbn iota. now apply big_square.
  - intros x Sx. unfold mulPow. change (Beqb (ofInt 3) (ofInt 2)) with false. cbn iota. apply mult_sign; [exact Sx|]. now apply mult_sign.
Qed.

Section B64.
Variable pow : binary64 -> binary64 -> binary64.
Variable L : laws (b64 pow).
Hypothesis Hpow : powBig pow.
Notation A := (b64 pow).
Definition sick (x : F A) : Prop := x = B754_infinity false \/ x = B754_nan.
Lemma sick_add x y : sick x -> sick (fadd A x y).
Proof. intros [->| ->]; [|right; now destruct y]. destruct y as [|[|]| |]; cbn; unfold sick; auto. Qed.
Lemma sick_lt x y : sick x -> flt A x y = false.
Proof. intros [->| ->]; cbn [flt b64]; destruct y as [|[|]| |[|] ? ? ?]; reflexivity. Qed.
Definition heavy (p : F A) : Prop := big 512 p \/ p = B754_nan.
Lemma small_lt n : (- 2 ^ 53 <= n <= 2 ^ 53)%Z -> isNum (ofInt n) (IZR n) /\ IZR n < bpow radix2 512.
Proof.
  intros H. split; [apply (ofInt_rep n); unfold exactZ; lia|]. apply Rle_lt_trans with (bpow radix2 53); [|apply bpow_lt; lia]. change (bpow radix2 53) with (IZR (2 ^ 53)). apply IZR_le. lia.
Qed.
Lemma heavy_eq p n : heavy p -> (- 2 ^ 53 <= n <= 2 ^ 53)%Z -> feq A p (fZ A n) = false /\ feq A (fZ A n) p = false.
Proof.
  intros [Hp| ->] Hn; destruct (small_lt n Hn) as [N Hr].
  - apply (big_gt 512 p _ _ Hp N Hr).
  - cbn [feq fZ b64]. destruct N as [N _]. destruct (ofInt n) as [?|?| |[|] ? ? ?]; try discriminate N; split; reflexivity.
Qed.
Lemma heavy_sick (ko : kopts A) (p : F A) (nd : node A) (ratio : F A) : Bsign (k_line ko) = false -> Bsign (k_badness ko) = false -> heavy p -> n_type nd = TPenalty -> n_penalty nd = p -> sick (demeritsForRatio A ko nd ratio).
Proof.
  intros S1 S2 Hp Ht Ep. destruct Hpow as (P1 & P2 & P3). unfold demeritsForRatio, isPenalty. rewrite Ht, Ep. cbn [andb].
  set (bd := fadd A (k_line ko) _). assert (Bsign bd = false) as Sb.
  { unfold bd. cbn [fadd fmul fpow fabs fZ b64]. apply plus_sign; [exact S1|]. apply mult_sign; [exact S2|]. apply P3. destruct ratio as [?|?| |? ? ? ?]; reflexivity. }
  destruct Hp as [Hp| ->].
  - destruct (small_lt 0 ltac:(lia)) as [N0 H0]. destruct (big_gt 512 p _ _ Hp N0 H0) as (G1 & _ & _).
    assert (flt A (fZ A 0) p = true) as -> by exact G1. cbn [fadd fpow fZ b64] in *.
    destruct (big_plus bd p Sb Hp) as [H| ->]; [left; now apply P2|right; exact P1].
  - destruct (heavy_eq B754_nan (-10000) ltac:(now right) ltac:(lia)) as [H _]. unfold minusInfinity. rewrite H.
    assert (flt A (fZ A 0) B754_nan = false) as -> by reflexivity. cbn [negb fsub fpow fZ b64]. rewrite P1. right. destruct (pow bd (ofInt 2)); reflexivity.
Qed.
Lemma heavy_shows p n : heavy p -> goodNode A L n -> feq A (n_penalty n) p = false.
Proof.
  intros Hp G. destruct (isForcedBreak n) eqn:Ef; [rewrite (gn_f _ _ _ G Ef); now apply heavy_eq|]. pose proof (gn_p _ _ _ G Ef) as Hb. set (x := n_penalty n) in *. clearbody x.
  destruct (feq A x p) eqn:E; [exfalso|reflexivity]. assert (big 512 x) as Hx.
  { cbn [feq b64] in E. destruct Hp as [[->|[Fp Ep]]| ->].
    - left. destruct x as [?|[|]| |[|] ? ? ?]; try discriminate E; reflexivity.
    - right. assert (is_finite x = true) as Fx. { destruct x as [?|[|]| |? ? ? ?]; try reflexivity; destruct p as [?|?| |[|] ? ? ?]; discriminate. }
      split; [exact Fx|]. rewrite (cmp_eq x p (B2R x) (B2R p)) in E by (split; [assumption|reflexivity]). revert E. case Req_bool_spec; [intros ->; auto|discriminate].
    - destruct x as [?|[|]| |[|] ? ? ?]; discriminate E. }
  pose proof (bnd_mul A L 100 100 x x ltac:(lia) ltac:(lia) Hb Hb) as Hm. destruct (bnd_max A L (100 + 100) _ ltac:(lia) Hm) as [H _]. cbn [flt fmul b64] in H. rewrite (big_square x Hx) in H. discriminate H.
Qed.
Lemma any_ratio w x y a s : rep A L x a -> rep A L y s -> (0 < s)%Z -> flt A x w = true -> flt A (fdiv A (fsub A w x) y) (fZ A (-1)) = false.
Proof.
  intros Rx Ry Hs H. cbn [flt fdiv fsub fZ b64] in *. apply sign_lt; [lia|]. apply div_sign; [|now apply (rep_positive pow L y s Ry)].
  apply minus_sign; [now apply (rep_finite pow L x a)|exact H].
Qed.
End B64.
Open Scope Z_scope.

(** ** The theorem on options *)
Lemma search_line pow hf pf opts : Bsign (k_line (l_search (withOptions (b64 pow) hf pf opts)) : binary64) = false /\
  Bsign (k_badness (l_search (withOptions (b64 pow) hf pf opts)) : binary64) = false.
Proof. destruct (options_fixed (b64 pow) hf pf opts) as (_ & _ & _ & _ & -> & -> & _). split; reflexivity. Qed.
Lemma hyphen_options A hf pf opts p : exists tol bad line fit meas sc wb rh hh pp hyph punc minh gs,
  withOptions A hf pf (opts ++ [WithHyphenPenalty p]) = mkLopts (mkKopts tol bad line p fit) meas sc wb rh p hh pp hyph punc minh gs /\
  withOptions A hf pf (opts ++ [WithHyphenPenalty (infinity A)]) = mkLopts (mkKopts tol bad line (infinity A) fit) meas sc wb rh (infinity A) hh pp hyph punc minh gs.
Proof.
  unfold withOptions. rewrite !fold_left_app. cbn [fold_left]. destruct (fold_left _ opts _) as [[tol bad li fl fi] ms sc wb rh hp hh pp h q mi gl]. cbn [applyOption].
  do 14 eexists. split; reflexivity.
Qed.
Lemma new_twins A p o1 o2 lb1 lb2 : (exists tol bad line fit meas sc wb rh hh pp hyph punc minh gs,
    o1 = mkLopts (mkKopts tol bad line p fit) meas sc wb rh p hh pp hyph punc minh gs /\
    o2 = mkLopts (mkKopts tol bad line (infinity A) fit) meas sc wb rh (infinity A) hh pp hyph punc minh gs) ->
  newBreaker A o1 = Ret lb1 -> newBreaker A o2 = Ret lb2 -> twins A p lb1 lb2.
Proof.
  intros (tol & bad & line & fit & meas & sc & wb & rh & hh & pp & hyph & punc & minh & gs & E1 & E2). unfold newBreaker.
  assert (forall v, measure A o1 v = measure A o2 v) as Em by (intros v; unfold measure, scale; now rewrite E1, E2).
  assert (l_wordBreak o1 = l_wordBreak o2) as Ew by now rewrite E1, E2. rewrite Ew, !Em.
  destruct (measure A o2 [32]) as [sp|]; [|discriminate]. cbn [gbind]. destruct (if l_wordBreak o2 then measure A o2 [45] else Ret (fZ A 0)) as [hy|]; [|discriminate]. cbn [gbind].
  intros [= <-] [= <-]. constructor; cbn [lb_spaceWidth lb_hyphenWidth lb_attrs lb_opts]; try reflexivity. do 14 eexists. split; eassumption.
Qed.
Theorem options_forbid pow (L : laws (b64 pow)) u opts p : powBig pow -> Forall (okOption (b64 pow) L) opts ->
  p = B754_nan \/ p = B754_infinity false \/ is_finite p = true /\ (bpow radix2 512 <= B2R p)%R ->
  let o1 := withOptions (b64 pow) (defaultHyphenator u) (defaultPunctuator u) (opts ++ [@WithHyphenPenalty (b64 pow) p]) in
  let o2 := withOptions (b64 pow) (defaultHyphenator u) (defaultPunctuator u) (opts ++ [WithHyphenPenalty (fZ (b64 pow) 10000)]) in
  (exists ps, l_punctuator o2 [] = Ret ps /\ concat ps = []) ->
  exists mz, measures (b64 pow) L (l_measurer o2) mz /\
  exists R : breaker (b64 pow) -> breaker (b64 pow) -> Prop,
    (forall lb1 lb2, newBreaker (b64 pow) o1 = Ret lb1 -> newBreaker (b64 pow) o2 = Ret lb2 -> R lb1 lb2) /\
    forall lb1 lb2 tokens spare itemss maxWidth ord, R lb1 lb2 -> readable u tokens spare itemss ->
      Forall (fun items => Forall (fun r => punctSplitFunc u r = false /\ isHyphenRune r = false) (keptText items)) itemss ->
      mz (joinWith 32 (map keptText itemss)) <= 2 ^ 30 ->
      sameResult R (leftAlignUniform (b64 pow) u ord spare lb1 tokens maxWidth) (leftAlignUniform (b64 pow) u ord spare lb2 tokens maxWidth).
Proof.
  intros Hpow Hok Hp o1 o2 He.
  assert (heavy pow p) as Hh by (unfold heavy, big; tauto).
  assert (Forall (okOption (b64 pow) L) (opts ++ [WithHyphenPenalty (fZ (b64 pow) 10000)])) as Hok2.
  { apply Forall_app. split; [exact Hok|]. constructor; [|constructor]. cbn [okOption]. unfold okPenalty. split; [|split; [|split]].
    - apply (bnd_rep _ L _ _ 10000); [apply rep_small; lia|lia|lia].
    - rewrite (rep_eq _ L _ _ 0 10000); [reflexivity|apply rep_small; lia|apply rep_small; lia].
    - rewrite (rep_eq _ L _ _ 200 10000); [reflexivity|apply rep_small; lia|apply rep_small; lia].
    - rewrite (rep_eq _ L _ _ 400 10000); [reflexivity|apply rep_small; lia|apply rep_small; lia]. }
  destruct (options_settings (b64 pow) L u _ Hok2) as (sc & mz & punct & parts & R & M & Hs & _ & S). fold o2 in R, M, S. exists mz. split; [exact M|].
  exists (fun lb1 lb2 => twins (b64 pow) p lb1 lb2 /\ lb_opts lb1 = o1 /\ exists seqs, AnyCall.reached (b64 pow) u o2 lb2 seqs). split.
  - intros lb1 lb2 N1 N2. split; [|split].
    + apply (new_twins (b64 pow) p o1 o2); [apply hyphen_options|exact N1|exact N2].
    + unfold newBreaker in N1. destruct (measure _ o1 [32]); [|discriminate]. cbn [gbind] in N1. destruct (if l_wordBreak o1 then _ else _); [|discriminate]. cbn [gbind] in N1. injection N1 as <-. reflexivity.
    + exists []. now constructor.
  - intros lb1 lb2 tokens spare itemss maxWidth ord (T & E1 & seqs & Hre) Hrd Hpl Hw.
    destruct (reached_ok _ _ _ _ _ Hre) as (sp & hy & En & attrs & Elb & _).
    assert (lb_opts lb2 = o2) as E2 by now rewrite Elb.
    pose proof M as (M1 & M2 & _). pose proof R as [C1 C2 C3 C4 C5 C6].
    assert (sameResult (twins (b64 pow) p) (leftAlignUniform (b64 pow) u ord spare lb1 tokens maxWidth) (leftAlignUniform (b64 pow) u ord spare lb2 tokens maxWidth)) as K.
    { apply (forbid_call (b64 pow) L u p lb1 lb2 T (proj1 (heavy_eq pow p 10000 Hh ltac:(lia))) (proj1 (heavy_eq pow p (-10000) Hh ltac:(lia))) (sick pow)) with (itemss := itemss).
      - apply sick_add.
      - apply sick_lt.
      - intros nd ratio Ht En'. rewrite E1. destruct (search_line pow (defaultHyphenator u) (defaultPunctuator u) (opts ++ [@WithHyphenPenalty (b64 pow) p])) as [S1 S2].
        now apply (heavy_sick pow Hpow _ p).
      - intros n. now apply heavy_shows.
      - rewrite E2. intros [|c w]; [exact He|]. destruct (se_punct _ _ _ _ _ _ _ S (c :: w) ltac:(discriminate)) as (P1 & P2 & _). eauto.
      - intros x y a s Rx Ry _ Hs' Hlt. apply (any_ratio pow L _ x y a s Rx Ry ltac:(lia) Hlt).
      - exact Hrd.
      - exact Hpl.
      - apply (call_nodes (b64 pow) L u o2 _ punct parts S (fun t => 2 ^ 20 * mz t)) with (seqs := seqs) (itemss := itemss); try assumption.
        + intros t. cbn beta. apply C1, M1.
        + intros a b. cbn beta. rewrite M2. lia.
        + lia. }
    destruct (leftAlignUniform (b64 pow) u ord spare lb1 tokens maxWidth) as [[r1 lb1']|] eqn:L1, (leftAlignUniform (b64 pow) u ord spare lb2 tokens maxWidth) as [[r2 lb2']|] eqn:L2; cbn [sameResult] in K |- *; try contradiction; [|exact I].
    destruct K as [Er T']. split; [exact Er|]. split; [exact T'|]. split.
    + unfold leftAlignUniform in L1. destruct (leftAlignedNodes _ u lb1 tokens spare) as [[nd at']|]; [|discriminate]. cbn [gbind] in L1. destruct (breakPoints _ _ _ _ _) as [[bs|]|]; [| |discriminate]; cbn [gbind] in L1.
      * destruct (render _ _ _ _ _); [|discriminate]. cbn [gbind] in L1. injection L1 as _ <-. exact E1.
      * injection L1 as _ <-. exact E1.
    + exists (seqs ++ flat_map formatting itemss). eapply re_call; eassumption.
Qed.
