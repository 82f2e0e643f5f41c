(** float64 as IEEE-754 binary64 (Flocq), rounding to nearest even; math.Round rounds halves away from zero. [pow] is
    math.Pow: only bounds on squares and cubes are needed ([powOk]). No fused multiply-add. *)
From Verif Require Import Base Arith.
From Coq Require Import Reals Lra Psatz.
From Flocq Require Import Core BinarySingleNaN.

Definition binary64 := binary_float 53 1024.
Global Instance Hprec : Prec_gt_0 53 := eq_refl.
Global Instance Hemax : Prec_lt_emax 53 1024 := eq_refl.
Definition ofInt (n : Z) : binary64 := binary_normalize 53 1024 Hprec Hemax mode_NE n 0 false.
Definition bplus : binary64 -> binary64 -> binary64 := @Bplus 53 1024 Hprec Hemax mode_NE.
Definition bminus : binary64 -> binary64 -> binary64 := @Bminus 53 1024 Hprec Hemax mode_NE.
Definition bmult : binary64 -> binary64 -> binary64 := @Bmult 53 1024 Hprec Hemax mode_NE.
Definition bdiv : binary64 -> binary64 -> binary64 := @Bdiv 53 1024 Hprec Hemax mode_NE.
Definition bround : binary64 -> binary64 := @Bnearbyint 53 1024 Hemax mode_NA.
Definition bmax : binary64 := @Bmax_float 53 1024 Hprec Hemax.

Definition b64 (pow : binary64 -> binary64 -> binary64) : arith := {|
  F := binary64; fZ := ofInt;
  fHalf := bdiv (ofInt 1) (ofInt 2); fMinusHalf := bdiv (ofInt (-1)) (ofInt 2);
  fTolerance := bdiv (ofInt 43) (ofInt 5);
  fMax := bmax;
  fadd := bplus; fsub := bminus; fmul := bmult; fdiv := bdiv;
  fopp := @Bopp 53 1024; fabs := @Babs 53 1024; fpow := pow; fround := bround;
  flt := @Bltb 53 1024; fle := @Bleb 53 1024; feq := @Beqb 53 1024; fint := @Btrunc 53 1024
|}.

Notation fe := (FLT_exp (-1074) 53).
Notation rnd := (round radix2 fe ZnearestE).
Lemma fexp_eq : SpecFloat.fexp 53 1024 = fe. Proof. reflexivity. Qed.
Global Instance vfe : Valid_exp fe := FLT_exp_valid (-1074) 53.

Open Scope R_scope.
Definition isNum (x : binary64) (r : R) : Prop := is_finite x = true /\ B2R x = r.
Definition brep (x : binary64) (n : Z) : Prop := isNum x (IZR n) /\ exactZ n.
Definition bbnd (k : Z) (x : binary64) : Prop := is_finite x = true /\ 0 <= B2R x <= bpow radix2 k.

Lemma IZR_pow53 : IZR (2 ^ 53) = bpow radix2 53. Proof. cbn. lra. Qed.
Lemma fmt_int n e : (-1074 <= e <= 900)%Z -> exactZ n -> generic_format radix2 fe (IZR n * bpow radix2 e).
Proof.
  intros He Hn. unfold exactZ in Hn. apply generic_format_FLT.
  destruct (Z.eq_dec (Z.abs n) (2 ^ 53)) as [E|E].
  - (* 2^53 *)
    destruct (Z_le_gt_dec 0 n) as [Hp|Hp].
    + exists (Float radix2 1 (53 + e)); unfold F2R; cbn [Fnum Fexp].
      * assert (n = 2 ^ 53)%Z as -> by lia. rewrite IZR_pow53, bpow_plus. lra.
      * reflexivity.
      * lia.
    + exists (Float radix2 (-1) (53 + e)); unfold F2R; cbn [Fnum Fexp].
      * assert (n = - 2 ^ 53)%Z as -> by lia. rewrite opp_IZR, IZR_pow53, bpow_plus. lra.
      * reflexivity.
      * lia.
  - exists (Float radix2 n e); unfold F2R; cbn [Fnum Fexp]; [reflexivity| |lia].
    change (radix2 ^ 53)%Z with (2 ^ 53)%Z. lia.
Qed.
Lemma fmt_Z n : exactZ n -> generic_format radix2 fe (IZR n).
Proof. intros H. rewrite <- (Rmult_1_r (IZR n)). apply (fmt_int n 0); [lia|exact H]. Qed.
Lemma fmt_bpow k : (-1074 <= k <= 900)%Z -> generic_format radix2 fe (bpow radix2 k).
Proof. intros H. rewrite <- (Rmult_1_l (bpow radix2 k)). apply (fmt_int 1 k); [lia|split; vm_compute; discriminate]. Qed.
Lemma rnd_id r : generic_format radix2 fe r -> rnd r = r.
Proof. apply round_generic; auto with typeclass_instances. Qed.
Lemma rnd_le x y : x <= y -> rnd x <= rnd y.
Proof. apply round_le; auto with typeclass_instances. Qed.
Lemma rnd_pos x k : (-1074 <= k <= 900)%Z -> 0 <= x <= bpow radix2 k -> 0 <= rnd x <= bpow radix2 k.
Proof.
  intros Hk [H1 H2]. split.
  - rewrite <- (rnd_id 0) by apply generic_format_0. now apply rnd_le.
  - rewrite <- (rnd_id (bpow radix2 k)) by now apply fmt_bpow. now apply rnd_le.
Qed.
Lemma abs_exact n : exactZ n -> Rabs (IZR n) < bpow radix2 1024.
Proof.
  intros H. rewrite <- abs_IZR. apply Rle_lt_trans with (bpow radix2 53).
  - rewrite <- IZR_pow53. apply IZR_le. unfold exactZ in H. lia.
  - apply bpow_lt. lia.
Qed.
Lemma abs_bnd x k : (k <= 900)%Z -> 0 <= x <= bpow radix2 k -> Rabs x < bpow radix2 1024.
Proof. intros Hk H. rewrite Rabs_pos_eq by lra. apply Rle_lt_trans with (bpow radix2 k); [lra|]. apply bpow_lt. lia. Qed.

(** operations *)
Lemma plus_ok x y r : is_finite x = true -> is_finite y = true -> rnd (B2R x + B2R y) = r -> Rabs r < bpow radix2 1024 ->
  isNum (bplus x y) r.
Proof.
  intros Fx Fy E H. pose proof (Bplus_correct 53 1024 Hprec Hemax mode_NE x y Fx Fy) as C.
  cbn [round_mode] in C. rewrite fexp_eq, E in C. rewrite (Rlt_bool_true _ _ H) in C. destruct C as (C1 & C2 & _).
  split; [exact C2|exact C1].
Qed.
Lemma minus_ok x y r : is_finite x = true -> is_finite y = true -> rnd (B2R x - B2R y) = r -> Rabs r < bpow radix2 1024 ->
  isNum (bminus x y) r.
Proof.
  intros Fx Fy E H. pose proof (Bminus_correct 53 1024 Hprec Hemax mode_NE x y Fx Fy) as C.
  cbn [round_mode] in C. rewrite fexp_eq, E in C. rewrite (Rlt_bool_true _ _ H) in C. destruct C as (C1 & C2 & _).
  split; [exact C2|exact C1].
Qed.
Lemma mult_ok x y r : is_finite x = true -> is_finite y = true -> rnd (B2R x * B2R y) = r -> Rabs r < bpow radix2 1024 ->
  isNum (bmult x y) r.
Proof.
  intros Fx Fy E H. pose proof (Bmult_correct 53 1024 Hprec Hemax mode_NE x y) as C.
  cbn [round_mode] in C. rewrite fexp_eq, E in C. rewrite (Rlt_bool_true _ _ H) in C. destruct C as (C1 & C2 & _).
  split; [rewrite Fx, Fy in C2; exact C2|exact C1].
Qed.
Lemma div_ok x y r : is_finite x = true -> B2R y <> 0 -> rnd (B2R x / B2R y) = r -> Rabs r < bpow radix2 1024 ->
  isNum (bdiv x y) r.
Proof.
  intros Fx Hy E H. pose proof (Bdiv_correct 53 1024 Hprec Hemax mode_NE x y Hy) as C.
  cbn [round_mode] in C. rewrite fexp_eq, E in C. rewrite (Rlt_bool_true _ _ H) in C. destruct C as (C1 & C2 & _).
  split; [rewrite Fx in C2; exact C2|exact C1].
Qed.

Lemma ofInt_rep n : exactZ n -> brep (ofInt n) n.
Proof.
  intros H. split; [|exact H]. pose proof (binary_normalize_correct 53 1024 Hprec Hemax mode_NE n 0 false) as C.
  cbn zeta in C. cbn [round_mode] in C. rewrite fexp_eq in C.
  assert (F2R (Float radix2 n 0) = IZR n) as E by (unfold F2R; cbn; lra). rewrite E in C.
  rewrite rnd_id in C by now apply fmt_Z. rewrite (Rlt_bool_true _ _ (abs_exact n H)) in C. destruct C as (C1 & C2 & _).
  split; assumption.
Qed.
Lemma brep_nz x n : brep x n -> n <> 0%Z -> x = ofInt n.
Proof.
  intros [[F E] H] Hn. destruct (ofInt_rep n H) as [[F' E'] _]. apply B2R_inj.
  - apply is_finite_strict_B2R. rewrite E. now apply not_0_IZR.
  - apply is_finite_strict_B2R. rewrite E'. now apply not_0_IZR.
  - congruence.
Qed.

Lemma cmp_lt x y r s : isNum x r -> isNum y s -> Bltb x y = Rlt_bool r s.
Proof. intros [F1 E1] [F2 E2]. rewrite Bltb_correct by assumption. congruence. Qed.
Lemma cmp_le x y r s : isNum x r -> isNum y s -> Bleb x y = Rle_bool r s.
Proof. intros [F1 E1] [F2 E2]. rewrite Bleb_correct by assumption. congruence. Qed.
Lemma cmp_eq x y r s : isNum x r -> isNum y s -> Beqb x y = Req_bool r s.
Proof. intros [F1 E1] [F2 E2]. rewrite Beqb_correct by assumption. congruence. Qed.
Lemma Rlt_bool_Z a b : Rlt_bool (IZR a) (IZR b) = (a <? b)%Z.
Proof.
  case Rlt_bool_spec; intros H; destruct (Z.ltb_spec a b) as [H'|H']; try reflexivity.
  - apply lt_IZR in H. lia.
  - apply IZR_lt in H'. lra.
Qed.
Lemma Rle_bool_Z a b : Rle_bool (IZR a) (IZR b) = (a <=? b)%Z.
Proof.
  case Rle_bool_spec; intros H; destruct (Z.leb_spec a b) as [H'|H']; try reflexivity.
  - apply le_IZR in H. lia.
  - apply IZR_le in H'. lra.
Qed.
Lemma Req_bool_Z a b : Req_bool (IZR a) (IZR b) = (a =? b)%Z.
Proof.
  case Req_bool_spec; intros H; destruct (Z.eqb_spec a b) as [H'|H']; try reflexivity.
  - apply eq_IZR in H. contradiction.
  - subst. contradiction.
Qed.

Lemma quo a b : (0 < a <= 2 ^ 53)%Z -> (0 < b <= 2 ^ 20)%Z -> isNum (bdiv (ofInt a) (ofInt b)) (rnd (IZR a / IZR b)).
Proof.
  intros Ha Hb. destruct (ofInt_rep a) as [[Fa Ea] _]; [unfold exactZ; lia|].
  destruct (ofInt_rep b) as [[Fb Eb] _]; [unfold exactZ; lia|].
  assert (0 < IZR b) as Pb by (apply IZR_lt; lia). assert (0 < IZR a) as Pa by (apply IZR_lt; lia).
  assert (0 <= IZR a / IZR b <= bpow radix2 53) as Q.
  { split; [apply Rlt_le, Rdiv_lt_0_compat; assumption|].
    apply Rle_trans with (IZR a); [|rewrite <- IZR_pow53; apply IZR_le; lia].
    apply Rmult_le_reg_r with (IZR b); [assumption|]. unfold Rdiv. rewrite Rmult_assoc, Rinv_l, Rmult_1_r by lra.
    rewrite <- (Rmult_1_r (IZR a)) at 1. apply Rmult_le_compat_l; [lra|]. apply IZR_le. lia. }
  apply div_ok.
  - exact Fa.
  - rewrite Eb. lra.
  - now rewrite Ea, Eb.
  - apply abs_bnd with 53%Z; [lia|]. apply rnd_pos; [lia|exact Q].
Qed.
Lemma quo_pos a b : (0 < a <= 2 ^ 53)%Z -> (0 < b <= 2 ^ 20)%Z -> 0 <= rnd (IZR a / IZR b) <= bpow radix2 53.
Proof.
  intros Ha Hb. assert (0 < IZR b) as Pb by (apply IZR_lt; lia). assert (0 < IZR a) as Pa by (apply IZR_lt; lia).
  apply rnd_pos; [lia|]. split; [apply Rlt_le, Rdiv_lt_0_compat; assumption|].
  apply Rle_trans with (IZR a); [|rewrite <- IZR_pow53; apply IZR_le; lia].
  apply Rmult_le_reg_r with (IZR b); [assumption|]. unfold Rdiv. rewrite Rmult_assoc, Rinv_l, Rmult_1_r by lra.
  rewrite <- (Rmult_1_r (IZR a)) at 1. apply Rmult_le_compat_l; [lra|]. apply IZR_le. lia.
Qed.

(** A rounded quotient against a representable dyadic [t] with a representable neighbour. *)
Lemma quo_cmp a b n e t t' : (0 < a <= 2 ^ 53)%Z -> (0 < b <= 2 ^ 20)%Z -> (0 < n)%Z -> (0 < e <= 8)%Z ->
  rnd (IZR n / IZR e) = t -> generic_format radix2 fe t' -> t < t' -> t' <= IZR n / IZR e + / IZR (8 * 2 ^ 20) ->
  Rle_bool (rnd (IZR a / IZR b)) t = (e * a <=? n * b)%Z.
Proof.
  intros Ha Hb Hn He Et Ft' Htt Hgap.
  assert (0 < IZR b) as Pb by (apply IZR_lt; lia). assert (0 < IZR e) as Pe by (apply IZR_lt; lia).
  case Rle_bool_spec; intros H; destruct (Z.leb_spec (e * a) (n * b)) as [H'|H']; try reflexivity; exfalso.
  - assert (IZR n / IZR e + / IZR (8 * 2 ^ 20) <= IZR a / IZR b) as G.
    { assert (IZR n * IZR b + 1 <= IZR e * IZR a) as K.
      { rewrite <- !mult_IZR, <- plus_IZR. apply IZR_le. lia. }
      assert (IZR a / IZR b = IZR n / IZR e + (IZR e * IZR a - IZR n * IZR b) / (IZR e * IZR b)) as -> by (field; lra).
      apply Rplus_le_compat_l. apply Rle_trans with (/ (IZR e * IZR b)).
      - apply Rinv_le; [apply Rmult_lt_0_compat; assumption|]. rewrite <- mult_IZR. apply IZR_le.
        transitivity (8 * b)%Z; [apply Z.mul_le_mono_nonneg_r; lia|apply Z.mul_le_mono_nonneg_l; lia].
      - rewrite <- (Rmult_1_l (/ (IZR e * IZR b))). apply Rmult_le_compat_r; [|lra].
        apply Rlt_le, Rinv_0_lt_compat, Rmult_lt_0_compat; assumption. }
    assert (t' <= rnd (IZR a / IZR b)) by (rewrite <- (rnd_id t') by assumption; apply rnd_le; lra). lra.
  - assert (IZR a / IZR b <= IZR n / IZR e) as G.
    { apply Rmult_le_reg_r with (IZR b * IZR e); [now apply Rmult_lt_0_compat|].
      replace (IZR a / IZR b * (IZR b * IZR e)) with (IZR e * IZR a) by (field; lra).
      replace (IZR n / IZR e * (IZR b * IZR e)) with (IZR n * IZR b) by (field; lra).
      rewrite <- !mult_IZR. now apply IZR_le. }
    apply rnd_le in G. lra.
Qed.

(** What is assumed of math.Pow: squares and cubes of non-negative numbers up to 2^200 stay within twice the exact bound,
    and the square of a zero is zero. *)
Definition powOk (pow : binary64 -> binary64 -> binary64) : Prop :=
  (forall k x, (0 <= k <= 200)%Z -> bbnd k x -> bbnd (2 * k + 1) (pow x (ofInt 2)) /\ bbnd (3 * k + 1) (pow x (ofInt 3))) /\
  (forall x, isNum x 0 -> isNum (pow x (ofInt 2)) 0).

Lemma half_val : isNum (bdiv (ofInt 1) (ofInt 2)) (/ 2).
Proof. split; [reflexivity|]. vm_compute. lra. Qed.
Lemma minusHalf_val : isNum (bdiv (ofInt (-1)) (ofInt 2)) (- / 2).
Proof. split; [reflexivity|]. vm_compute. lra. Qed.
Lemma tol_val : isNum (bdiv (ofInt 43) (ofInt 5)) (IZR 4841369599423283 * bpow radix2 (-49)).
Proof.
  split; [reflexivity|].
  replace (bdiv (ofInt 43) (ofInt 5)) with
    (binary_normalize 53 1024 Hprec Hemax mode_NE 4841369599423283 (-49) false) by (apply B2SF_inj; vm_compute; reflexivity).
  pose proof (binary_normalize_correct 53 1024 Hprec Hemax mode_NE 4841369599423283 (-49) false) as C.
  cbn zeta in C. cbn [round_mode] in C. rewrite fexp_eq in C.
  change (F2R (Float radix2 4841369599423283 (-49))) with (IZR 4841369599423283 * bpow radix2 (-49)) in C.
  rewrite rnd_id in C by (apply fmt_int; [lia|split; vm_compute; discriminate]).
  rewrite Rlt_bool_true in C; [apply C|].
  apply abs_bnd with 60%Z; [lia|]. cbn. lra.
Qed.
Lemma tol_rnd : rnd (IZR 43 / IZR 5) = IZR 4841369599423283 * bpow radix2 (-49).
Proof.
  destruct (quo 43 5) as [_ E]; [lia|lia|]. destruct tol_val as [_ E']. congruence.
Qed.

Lemma max_val : is_finite bmax = true /\ bpow radix2 900 < B2R bmax.
Proof.
  split; [reflexivity|]. set (y := binary_normalize 53 1024 Hprec Hemax mode_NE 1 900 false).
  assert (Bltb y bmax = true) as H by (vm_compute; reflexivity).
  pose proof (binary_normalize_correct 53 1024 Hprec Hemax mode_NE 1 900 false) as C. fold y in C.
  cbn zeta in C. cbn [round_mode] in C. rewrite fexp_eq in C.
  assert (F2R (Float radix2 1 900) = bpow radix2 900) as E by (unfold F2R; cbn [Fnum Fexp]; lra). rewrite E in C.
  rewrite rnd_id in C by (apply fmt_bpow; lia). rewrite Rlt_bool_true in C.
  2: { apply abs_bnd with 900%Z; [lia|]. split; [apply bpow_ge_0|apply Rle_refl]. }
  destruct C as (C1 & C2 & _). rewrite Bltb_correct in H by (assumption || reflexivity). rewrite C1 in H.
  revert H. case Rlt_bool_spec; [trivial|discriminate].
Qed.

Lemma bbnd_of x r k : isNum x r -> 0 <= r <= bpow radix2 k -> bbnd k x.
Proof. intros [H1 H2] H. split; [exact H1|]. rewrite H2. exact H. Qed.

Lemma ble_trans (x y z : binary64) : Bleb x y = true -> Bleb y z = true -> Bleb x z = true.
Proof.
  destruct (is_finite x) eqn:Fx, (is_finite y) eqn:Fy, (is_finite z) eqn:Fz.
  1: { rewrite !Bleb_correct by assumption. intros H1 H2. destruct (Rle_bool_spec (B2R x) (B2R y)), (Rle_bool_spec (B2R y) (B2R z)); try discriminate.
       apply Rle_bool_true. lra. }
  all: destruct x as [[]|[]| |[] mx ex ex'], y as [[]|[]| |[] my ey ey'], z as [[]|[]| |[] mz ez ez']; try discriminate; try reflexivity.
Qed.

Lemma b64_laws pow : powOk pow -> laws (b64 pow).
Proof.
  intros Hp. pose proof (proj1 Hp) as Hpow. pose proof (proj2 Hp) as Hzero.
  unshelve eapply (mkLaws (b64 pow) brep bbnd);
    cbn [F fZ fHalf fMinusHalf fTolerance fMax fadd fsub fmul fdiv fopp fabs fpow fround flt fle feq fint b64].
  - exact ofInt_rep.
  - exact brep_nz.
  - intros x n [_ H]. exact H.
  - (* add *) intros x y a b [[Fx Ex] _] [[Fy Ey] _] H. split; [|exact H]. apply plus_ok; try assumption.
    + rewrite Ex, Ey, <- plus_IZR. apply rnd_id, fmt_Z, H.
    + now apply abs_exact.
  - (* sub *) intros x y a b [[Fx Ex] _] [[Fy Ey] _] H. split; [|exact H]. apply minus_ok; try assumption.
    + rewrite Ex, Ey, <- minus_IZR. apply rnd_id, fmt_Z, H.
    + now apply abs_exact.
  - (* mul *) intros x y a b [[Fx Ex] _] [[Fy Ey] _] H. split; [|exact H]. apply mult_ok; try assumption.
    + rewrite Ex, Ey, <- mult_IZR. apply rnd_id, fmt_Z, H.
    + now apply abs_exact.
  - (* div *) intros x y q b [[Fx Ex] _] [[Fy Ey] _] Hb H. split; [|exact H]. assert (IZR b <> 0) as Nb by now apply not_0_IZR.
    apply div_ok; try assumption.
    + now rewrite Ey.
    + rewrite Ex, Ey, mult_IZR. replace (IZR q * IZR b / IZR b) with (IZR q) by (field; exact Nb). apply rnd_id, fmt_Z, H.
    + now apply abs_exact.
  - (* opp *) intros x a [[Fx Ex] H]. split; [|unfold exactZ in *; lia]. split; [now rewrite is_finite_Bopp|].
    now rewrite B2R_Bopp, Ex, opp_IZR.
  - (* round *) intros x a [[Fx Ex] H]. split; [|exact H].
    destruct (Bnearbyint_correct 53 1024 Hemax mode_NA x) as (H1 & H2 & _). split; [unfold bround; congruence|].
    unfold bround. rewrite H1, Ex. apply round_generic; [apply valid_rnd_round_mode|].
    apply generic_format_FIX. exists (Float radix2 a 0); [unfold F2R; cbn; lra|reflexivity].
  - (* int *) intros x a [[Fx Ex] H]. apply eq_IZR. rewrite Btrunc_correct, Ex by exact Hemax.
    apply round_generic; [apply valid_rnd_ZR|]. apply generic_format_FIX.
    exists (Float radix2 a 0); [unfold F2R; cbn; lra|reflexivity].
  - intros x y a b [Hx _] [Hy _]. rewrite (cmp_lt _ _ _ _ Hx Hy). apply Rlt_bool_Z.
  - intros x y a b [Hx _] [Hy _]. rewrite (cmp_le _ _ _ _ Hx Hy). apply Rle_bool_Z.
  - intros x y a b [Hx _] [Hy _]. rewrite (cmp_eq _ _ _ _ Hx Hy). apply Req_bool_Z.
  - (* lt_le *) intros x y. unfold Bltb, Bleb, SpecFloat.SFltb, SpecFloat.SFleb.
    pose proof (Bcompare_swap 53 1024 x y) as S. unfold Bcompare in S. rewrite S.
    destruct (SpecFloat.SFcompare (B2SF x) (B2SF y)) as [[]|]; cbn; congruence.
  - (* eq_sym *) intros x y. unfold Beqb, SpecFloat.SFeqb.
    pose proof (Bcompare_swap 53 1024 x y) as S. unfold Bcompare in S. rewrite S.
    destruct (SpecFloat.SFcompare (B2SF x) (B2SF y)) as [[]|]; reflexivity.
  - (* lt_asym *) intros x y. unfold Bltb, SpecFloat.SFltb.
    pose proof (Bcompare_swap 53 1024 x y) as S. unfold Bcompare in S. rewrite S.
    destruct (SpecFloat.SFcompare (B2SF x) (B2SF y)) as [[]|]; cbn; congruence.
  - exact ble_trans.
  - vm_compute. reflexivity.
  - (* quo_low *) intros a b Ha Hb. pose proof (quo a b Ha Hb) as Q. pose proof (quo_pos a b Ha Hb) as P.
    destruct (ofInt_rep (-1)) as [R _]; [split; vm_compute; discriminate|].
    rewrite (cmp_lt _ _ _ _ Q R), (cmp_le _ _ _ _ R Q). split; [apply Rlt_bool_false|apply Rle_bool_true]; lra.
  - (* quo_class *) intros a b Ha Hb. pose proof (quo a b Ha Hb) as Q. pose proof (quo_pos a b Ha Hb) as P.
    destruct (ofInt_rep 1) as [R1 _]; [split; vm_compute; discriminate|].
    rewrite (cmp_lt _ _ _ _ Q minusHalf_val), (cmp_le _ _ _ _ Q half_val), (cmp_le _ _ _ _ Q R1).
    split; [apply Rlt_bool_false; lra|]. split.
    + replace b with (1 * b)%Z at 2 by lia.
      apply (quo_cmp a b 1 2 (/ 2) (/ 2 + bpow radix2 (-24))); try lia; try assumption.
      * rewrite rnd_id; [lra|]. replace (1 / 2) with (bpow radix2 (-1)) by (cbn; lra). apply fmt_bpow. lia.
      * replace (/ 2 + bpow radix2 (-24)) with (IZR (2 ^ 23 + 1) * bpow radix2 (-24)) by (cbn; lra).
        apply fmt_int; [lia|split; vm_compute; discriminate].
      * cbn. lra.
      * cbn. lra.
    + replace b with (1 * b)%Z at 2 by lia. replace a with (1 * a)%Z at 2 by lia.
      apply (quo_cmp a b 1 1 1 (1 + bpow radix2 (-24))); try lia; try assumption.
      * replace (1 / 1) with 1 by lra. apply rnd_id. apply (fmt_Z 1). split; vm_compute; discriminate.
      * replace (1 + bpow radix2 (-24)) with (IZR (2 ^ 24 + 1) * bpow radix2 (-24)) by (cbn; lra).
        apply fmt_int; [lia|split; vm_compute; discriminate].
      * cbn. lra.
      * cbn. lra.
  - (* quo_tol *) intros a b Ha Hb. rewrite (cmp_le _ _ _ _ (quo a b Ha Hb) tol_val).
    apply (quo_cmp a b 43 5 _ (IZR (4841369599423283 + 2 ^ 25) * bpow radix2 (-49))); try lia; try assumption.
    + exact tol_rnd.
    + apply fmt_int; [lia|split; vm_compute; discriminate].
    + apply Rmult_lt_compat_r; [apply bpow_gt_0|]. apply IZR_lt. reflexivity.
    + cbn. lra.
  - (* quo_bnd *) intros a b Ha Hb. apply (bbnd_of _ _ _ (quo a b Ha Hb)).
    pose proof (quo_pos a b Ha Hb) as P. split; [lra|]. apply Rle_trans with (bpow radix2 53); [lra|apply bpow_le; lia].
  - (* quo_mono *) intros a b c d Ha Hb Hc Hd H. rewrite (cmp_le _ _ _ _ (quo a b Ha Hb) (quo c d Hc Hd)).
    apply Rle_bool_true, rnd_le. assert (0 < IZR b) as Pb by (apply IZR_lt; lia). assert (0 < IZR d) as Pd by (apply IZR_lt; lia).
    apply Rmult_le_reg_r with (IZR b * IZR d); [now apply Rmult_lt_0_compat|].
    replace (IZR a / IZR b * (IZR b * IZR d)) with (IZR a * IZR d) by (field; lra).
    replace (IZR c / IZR d * (IZR b * IZR d)) with (IZR c * IZR b) by (field; lra).
    rewrite <- !mult_IZR. now apply IZR_le.
  - (* tol_inf *) destruct (ofInt_rep 10000) as [R _]; [split; vm_compute; discriminate|].
    rewrite (cmp_le _ _ _ _ R tol_val). apply Rle_bool_false. cbn. lra.
  - destruct (ofInt_rep 0) as [R _]; [split; vm_compute; discriminate|].
    rewrite (cmp_le _ _ _ _ R half_val), (cmp_lt _ _ _ _ R minusHalf_val).
    split; [apply Rle_bool_true|apply Rlt_bool_false]; lra.
  - destruct (ofInt_rep 0) as [R _]; [split; vm_compute; discriminate|].
    rewrite (cmp_le _ _ _ _ R tol_val). apply Rle_bool_true. cbn. lra.
  - (* bnd_rep *) intros k x n [[Fx Ex] _] Hk Hn. split; [exact Fx|]. rewrite Ex. split; [apply IZR_le; lia|].
    rewrite <- IZR_Zpower by exact Hk. apply IZR_le. change (radix_val radix2) with 2%Z. lia.
  - (* bnd_refl *) intros k x [Fx Ex]. rewrite (cmp_eq _ _ _ _ (conj Fx eq_refl) (conj Fx eq_refl)). now apply Req_bool_true.
  - intros j k x [Fx Ex] Hjk. split; [exact Fx|]. split; [lra|]. apply Rle_trans with (bpow radix2 j); [lra|now apply bpow_le].
  - (* bnd_add *) intros k x y Hk [Fx Ex] [Fy Ey].
    assert (0 <= B2R x + B2R y <= bpow radix2 (k + 1)) as H by (rewrite bpow_plus; cbn [bpow]; cbn; lra).
    assert (0 <= rnd (B2R x + B2R y) <= bpow radix2 (k + 1)) as H' by (apply rnd_pos; [lia|exact H]).
    eapply bbnd_of; [apply plus_ok; [exact Fx|exact Fy|reflexivity|]|exact H'].
    apply abs_bnd with (k + 1)%Z; [lia|exact H'].
  - (* bnd_mul *) intros j k x y Hj Hk [Fx Ex] [Fy Ey].
    assert (0 <= B2R x * B2R y <= bpow radix2 (j + k)) as H.
    { rewrite bpow_plus. split; [apply Rmult_le_pos; lra|apply Rmult_le_compat; lra]. }
    assert (0 <= rnd (B2R x * B2R y) <= bpow radix2 (j + k)) as H' by (apply rnd_pos; [lia|exact H]).
    eapply bbnd_of; [apply mult_ok; [exact Fx|exact Fy|reflexivity|]|exact H'].
    apply abs_bnd with (j + k)%Z; [lia|exact H'].
  - intros k x [Fx Ex]. split; [now rewrite is_finite_Babs|]. rewrite B2R_Babs, Rabs_pos_eq by lra. exact Ex.
  - intros k x Hk H. apply (Hpow k x Hk H).
  - intros k x Hk H. apply (Hpow k x Hk H).
  - (* bnd_sub0 *) intros k x y [Fx Ex] Hy [Fy Ey] Hk.
    destruct (ofInt_rep 0) as [R _]; [split; vm_compute; discriminate|].
    assert (B2R y = 0) as Zy.
    { rewrite (cmp_lt _ _ _ _ R (conj Fy eq_refl)) in Hy. revert Hy. case Rlt_bool_spec; [discriminate|]. intros. lra. }
    destruct (Hzero y (conj Fy Zy)) as [Fp Ep].
    eapply bbnd_of; [apply minus_ok; [exact Fx|exact Fp| |]|exact Ex].
    + rewrite Ep, Rminus_0_r. apply rnd_id. rewrite <- fexp_eq. apply generic_format_B2R.
    + apply abs_bnd with k; [lia|exact Ex].
  - intros k x [Fx Ex]. destruct (ofInt_rep 0) as [R _]; [split; vm_compute; discriminate|].
    rewrite (cmp_lt _ _ _ _ (conj Fx eq_refl) R). apply Rlt_bool_false. lra.
  - intros k x Hk [Fx Ex]. destruct max_val as [Fm Hm].
    assert (bpow radix2 k <= bpow radix2 900) by (apply bpow_le; lia).
    rewrite (cmp_lt _ _ _ _ (conj Fx eq_refl) (conj Fm eq_refl)), (cmp_le _ _ _ _ (conj Fm eq_refl) (conj Fx eq_refl)).
    split; [apply Rlt_bool_true; lra|apply Rle_bool_false; lra].
  - intros k x n [Fx Ex] Hn. destruct (ofInt_rep n) as [R _]; [unfold exactZ; lia|].
    rewrite (cmp_eq _ _ _ _ (conj Fx eq_refl) R). apply Req_bool_false. assert (IZR n < 0) by (apply IZR_lt; lia). lra.
Defined.

(** math.Pow by multiplications meets the assumption. *)
Definition mulPow (x y : binary64) : binary64 := if Beqb y (ofInt 2) then bmult x x else bmult x (bmult x x).
Lemma mulPow_ok : powOk mulPow.
Proof.
  assert (forall j k x y, (0 <= j <= 400)%Z -> (0 <= k <= 400)%Z -> bbnd j x -> bbnd k y -> bbnd (j + k) (bmult x y)) as M.
  { intros j k x y Hj Hk [Fx Ex] [Fy Ey].
    assert (0 <= B2R x * B2R y <= bpow radix2 (j + k)) as H.
    { rewrite bpow_plus. split; [apply Rmult_le_pos; lra|apply Rmult_le_compat; lra]. }
    assert (0 <= rnd (B2R x * B2R y) <= bpow radix2 (j + k)) as H' by (apply rnd_pos; [lia|exact H]).
    eapply bbnd_of; [apply mult_ok; [exact Fx|exact Fy|reflexivity|]|exact H'].
    apply abs_bnd with (j + k)%Z; [lia|exact H']. }
  assert (forall i j x, (i <= j)%Z -> bbnd i x -> bbnd j x) as W.
  { intros i j x Hij [Fx Ex]. split; [exact Fx|]. split; [lra|]. apply Rle_trans with (bpow radix2 i); [lra|now apply bpow_le]. }
  split.
  - intros k x Hk H. unfold mulPow. change (Beqb (ofInt 2) (ofInt 2)) with true. change (Beqb (ofInt 3) (ofInt 2)) with false.
    cbn iota. split.
    + apply (W (k + k)%Z); [lia|]. apply M; try lia; assumption.
    + apply (W (k + (k + k))%Z); [lia|]. apply M; try lia; [assumption|]. apply M; try lia; assumption.
  - intros x [Fx Ex]. unfold mulPow. change (Beqb (ofInt 2) (ofInt 2)) with true. cbn iota.
    apply mult_ok; try assumption.
    + rewrite Ex, Rmult_0_l. apply rnd_id, generic_format_0.
    + rewrite Rabs_R0. apply bpow_gt_0.
Qed.
