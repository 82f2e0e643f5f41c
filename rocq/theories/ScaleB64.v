(** Scale factors that are not integers, on binary64. *)
From Coq Require Import Reals Lra Psatz.
From Flocq Require Import Core BinarySingleNaN.
From Flocq Require Import Relative.
From Verif Require Import Base Arith ArithB64 Unicode Nodes Settings.
Open Scope R_scope.

Notation rna := (Znearest (Z.leb 0)).
(** a width n with the scale factor s: math.Round of the product *)
Definition scaleBy (s : binary64) (n : Z) : Z := rna (rnd (IZR n * B2R s)).

Lemma rna_le x y : x <= y -> (rna x <= rna y)%Z.
Proof. apply (Zrnd_le (Znearest (Z.leb 0))). Qed.
Lemma rna_Z n : rna (IZR n) = n.
Proof. apply (Zrnd_IZR (Znearest (Z.leb 0))). Qed.
Lemma rna_half : rna (/ 2) = 1%Z.
Proof.
  unfold Znearest. assert (Zfloor (/ 2) = 0%Z) as E by (apply Zfloor_imp; cbn; lra). rewrite E.
  rewrite Rcompare_Eq by lra. cbn. apply Zceil_imp. cbn. lra.
Qed.
Lemma rna_low x : x < / 2 -> (rna x <= 0)%Z.
Proof.
  intros H. destruct (Z_le_gt_dec (rna x) 0) as [G|G]; [exact G|exfalso].
  pose proof (Znearest_half (Z.leb 0) x) as K. assert (1 <= IZR (rna x)) as J by (apply (IZR_le 1); lia).
  apply Rabs_le_inv in K. lra.
Qed.
Lemma rna_two x : 3 / 2 <= x -> (2 <= rna x)%Z.
Proof.
  intros H. assert (rna (3 / 2) = 2%Z) as <-; [|now apply rna_le].
  unfold Znearest. assert (Zfloor (3 / 2) = 1%Z) as E by (apply Zfloor_imp; cbn; lra). rewrite E.
  rewrite Rcompare_Eq by lra. cbn. apply Zceil_imp. cbn. lra.
Qed.
Lemma rna_one x : / 2 <= x < 3 / 2 -> rna x = 1%Z.
Proof.
  intros [H1 H2]. apply rna_le in H1. rewrite rna_half in H1.
  destruct (Z_le_gt_dec (rna x) 1) as [G|G]; [lia|exfalso].
  pose proof (Znearest_half (Z.leb 0) x) as K. assert (2 <= IZR (rna x)) as J by (apply (IZR_le 2); lia).
  apply Rabs_le_inv in K. lra.
Qed.
Lemma rna_near x : IZR (rna x) - / 2 <= x <= IZR (rna x) + / 2.
Proof. pose proof (Znearest_half (Z.leb 0) x) as K. apply Rabs_le_inv in K. lra. Qed.

Lemma bround_ok x r : isNum x r -> isNum (bround x) (IZR (rna r)).
Proof.
  intros [Fx Ex]. destruct (Bnearbyint_correct 53 1024 Hemax mode_NA x) as (H1 & H2 & _). split; [unfold bround; congruence|].
  unfold bround. rewrite H1, Ex. apply round_FIX_IZR.
Qed.
Lemma btrunc_ok x n : isNum x (IZR n) -> Btrunc x = n.
Proof.
  intros [Fx Ex]. apply eq_IZR. rewrite Btrunc_correct, Ex by exact Hemax.
  rewrite round_FIX_IZR. f_equal. apply Ztrunc_IZR.
Qed.
Lemma fmt_B2R (x : binary64) : generic_format radix2 fe (B2R x).
Proof. apply (generic_format_B2R 53 1024). Qed.
Lemma ge_rnd a x : generic_format radix2 fe a -> a <= x -> a <= rnd x.
Proof. intros Ha H. rewrite <- (rnd_id a Ha). now apply rnd_le. Qed.
Lemma le_rnd a x : generic_format radix2 fe a -> x <= a -> rnd x <= a.
Proof. intros Ha H. rewrite <- (rnd_id a Ha). now apply rnd_le. Qed.
Lemma fmt_half : generic_format radix2 fe (/ 2).
Proof. change (/ 2) with (bpow radix2 (-1)). apply fmt_bpow. lia. Qed.

(** the numbers between 1/2 and 1 are multiples of 2^-53 *)
Lemma grid x : generic_format radix2 fe x -> / 2 <= x < 1 -> exists k, x = IZR k * bpow radix2 (-53).
Proof.
  intros G H. unfold generic_format in G. exists (Ztrunc (scaled_mantissa radix2 fe x)). rewrite G at 1. unfold F2R. cbn [Fnum Fexp].
  f_equal. f_equal. unfold cexp. rewrite (mag_unique radix2 x 0); [reflexivity|]. rewrite Rabs_pos_eq by lra. cbn. lra.
Qed.
Definition nextTwoThirds : Z := 6004799503160662.
Lemma above x : generic_format radix2 fe x -> 2 / 3 < x -> IZR nextTwoThirds * bpow radix2 (-53) <= x.
Proof.
  intros G H. destruct (Rlt_or_le x 1) as [H1|H1].
  - destruct (grid x G) as (k & ->); [lra|]. apply Rmult_le_compat_r; [apply bpow_ge_0|]. apply IZR_le.
    unfold nextTwoThirds. assert (IZR 6004799503160661 < IZR k) as K; [|apply lt_IZR in K; lia].
    cbn [bpow] in H. assert (Z.pow_pos radix2 53 = 9007199254740992%Z) as E by reflexivity. rewrite E in H. lra.
  - unfold nextTwoThirds. cbn [bpow]. assert (Z.pow_pos radix2 53 = 9007199254740992%Z) as E by reflexivity. rewrite E. lra.
Qed.
Definition s1 : binary64 := binary_normalize 53 1024 Hprec Hemax mode_NE nextTwoThirds (-53) false.
Lemma s1_val : isNum s1 (IZR nextTwoThirds * bpow radix2 (-53)).
Proof.
  pose proof (binary_normalize_correct 53 1024 Hprec Hemax mode_NE nextTwoThirds (-53) false) as C. fold s1 in C.
  cbn zeta in C. cbn [round_mode] in C. rewrite fexp_eq in C.
  change (F2R (Float radix2 nextTwoThirds (-53))) with (IZR nextTwoThirds * bpow radix2 (-53)) in C.
  rewrite rnd_id in C by (apply fmt_int; [lia|split; vm_compute; discriminate]).
  rewrite Rlt_bool_true in C; [destruct C as (C1 & C2 & _); now split|].
  apply abs_bnd with 60%Z; [lia|]. unfold nextTwoThirds. cbn. lra.
Qed.
(** a quotient below 3/2 *)
Lemma below x : 0 <= x <= / (IZR nextTwoThirds * bpow radix2 (-53)) -> rnd x < 3 / 2.
Proof.
  intros H. destruct s1_val as [F1 E1]. destruct (ofInt_rep 1) as [[F2 E2] _]; [split; vm_compute; discriminate|].
  assert (0 < IZR nextTwoThirds * bpow radix2 (-53)) as P by (unfold nextTwoThirds; cbn; lra).
  assert (isNum (bdiv (ofInt 1) s1) (rnd (/ (IZR nextTwoThirds * bpow radix2 (-53))))) as Q.
  { apply div_ok; [exact F2|rewrite E1; lra|rewrite E1, E2; unfold Rdiv; now rewrite Rmult_1_l|].
    apply abs_bnd with 2%Z; [lia|]. apply rnd_pos; [lia|]. split; [lra|]. unfold nextTwoThirds. cbn. lra. }
  assert (isNum (bdiv (ofInt 3) (ofInt 2)) (3 / 2)) as T by (split; [reflexivity|vm_compute; lra]).
  pose proof (cmp_lt _ _ _ _ Q T) as C. assert (Bltb (bdiv (ofInt 1) s1) (bdiv (ofInt 3) (ofInt 2)) = true) as C' by (vm_compute; reflexivity).
  rewrite C' in C. revert C. case Rlt_bool_spec; [|discriminate]. intros K _. eapply Rle_lt_trans; [apply rnd_le, H|exact K].
Qed.
Lemma rnd_double x : 0 <= x -> (x = 0 \/ bpow radix2 (-1000) <= x) -> rnd x <= 2 * x.
Proof.
  intros H [->|H'].
  - rewrite rnd_id by apply generic_format_0. lra.
  - pose proof (relative_error_N_FLT radix2 (-1074) 53 Hprec (fun x => negb (Z.even x)) x) as R.
    rewrite Rabs_pos_eq in R by lra. assert (bpow radix2 (-1074 + 53 - 1) <= x) as K.
    { apply Rle_trans with (bpow radix2 (-1000)); [apply bpow_le; lia|exact H']. }
    specialize (R K). apply Rabs_le_inv in R. assert (/ 2 * bpow radix2 (- (53) + 1) * x <= 1 * x).
    { apply Rmult_le_compat_r; [lra|]. cbn. lra. }
    lra.
Qed.

Section Scale.
Variable s : binary64.
Hypothesis Hf : is_finite s = true.
Hypothesis Hs : 2 / 3 < B2R s <= bpow radix2 19.

Lemma scale_nonneg n : (0 <= n)%Z -> 0 <= IZR n * B2R s.
Proof. intros H. apply Rmult_le_pos; [now apply IZR_le|lra]. Qed.
Lemma scaleBy_bound n : (0 <= n)%Z -> (0 <= scaleBy s n <= 2 ^ 20 * n)%Z.
Proof.
  intros H. pose proof (scale_nonneg n H) as P. unfold scaleBy. split.
  - apply Z.le_trans with (rna (IZR 0)); [rewrite rna_Z; lia|]. apply rna_le. apply ge_rnd; [apply generic_format_0|exact P].
  - rewrite <- (rna_Z (2 ^ 20 * n)). apply rna_le. apply Rle_trans with (2 * (IZR n * B2R s)).
    + apply rnd_double; [exact P|]. destruct (Z.eq_dec n 0) as [->|N]; [left; lra|right].
      apply Rle_trans with (IZR 1 * (/ 2)).
      * rewrite Rmult_1_l. change (/ 2) with (bpow radix2 (-1)). apply bpow_le. lia.
      * apply Rmult_le_compat; try lra. apply IZR_le. lia.
    + rewrite mult_IZR. change (2 ^ 20)%Z with (Z.pow radix2 20). rewrite IZR_Zpower by lia.
      change 20%Z with (1 + 19)%Z. rewrite bpow_plus. change (bpow radix2 1) with 2.
      assert (0 <= IZR n) by now apply IZR_le. nra.
Qed.
Lemma scaleBy_pos n : (0 < n)%Z -> (0 < scaleBy s n)%Z.
Proof.
  intros H. unfold scaleBy. assert (1 <= rna (rnd (IZR n * B2R s)))%Z; [|lia]. rewrite <- rna_half. apply rna_le.
  apply ge_rnd; [apply fmt_half|]. assert (1 <= IZR n) by (apply (IZR_le 1); lia). nra.
Qed.
Lemma scaleBy_small n : (0 <= n)%Z -> (scaleBy s n <= 2 ^ 50)%Z -> (n <= 2 ^ 51)%Z.
Proof.
  intros H H'. destruct (Z_le_gt_dec n (2 ^ 51)) as [G|G]; [exact G|exfalso].
  assert (2 ^ 50 + 1 <= scaleBy s n)%Z; [|lia]. rewrite <- (rna_Z (2 ^ 50 + 1)). apply rna_le.
  apply ge_rnd; [apply fmt_Z; split; vm_compute; discriminate|].
  assert (IZR (2 ^ 51 + 1) <= IZR n) as K by (apply IZR_le; lia).
  apply Rle_trans with (IZR (2 ^ 51 + 1) * (2 / 3)); [cbn; lra|]. apply Rmult_le_compat; try lra. cbn. lra.
Qed.
Lemma scaleBy_exact y n : (0 <= n)%Z -> (scaleBy s n <= 2 ^ 50)%Z -> brep y n -> brep (bround (bmult y s)) (scaleBy s n).
Proof.
  intros H H' [[Fy Ey] _]. pose proof (scaleBy_small n H H') as Hn. pose proof (scaleBy_bound n H) as Hb. split.
  - apply bround_ok. apply mult_ok; [exact Fy|exact Hf|now rewrite Ey|].
    apply abs_bnd with 70%Z; [lia|]. apply rnd_pos; [lia|]. split; [now apply scale_nonneg|].
    change 70%Z with (51 + 19)%Z. rewrite bpow_plus. apply Rmult_le_compat; try lra; [now apply IZR_le|].
    rewrite <- IZR_Zpower by lia. now apply IZR_le.
  - unfold exactZ. lia.
Qed.
Lemma quot_zero y : brep y 0 -> Btrunc (bround (bdiv y s)) = 0%Z.
Proof.
  intros [[Fy Ey] _]. apply btrunc_ok. rewrite <- (rna_Z 0). apply bround_ok. apply div_ok; [exact Fy|lra| |].
  - rewrite Ey. unfold Rdiv. rewrite Rmult_0_l. apply rnd_id, generic_format_0.
  - rewrite Rabs_R0. apply bpow_gt_0.
Qed.
Lemma quot_one y : brep y (scaleBy s 1) -> Btrunc (bround (bdiv y s)) = 1%Z.
Proof.
  intros [[Fy Ey] _]. apply btrunc_ok.
  assert (scaleBy s 1 = rna (B2R s)) as E by (unfold scaleBy; rewrite Rmult_1_l; now rewrite rnd_id by apply fmt_B2R).
  rewrite E in Ey. set (k := rna (B2R s)) in *.
  assert (/ 2 <= rnd (IZR k / B2R s) < 3 / 2) as Q.
  { pose proof (rna_near (B2R s)) as N. fold k in N. destruct (Rlt_or_le (B2R s) (3 / 2)) as [L|L].
    - assert (k = 1%Z) as -> by (apply rna_one; lra). pose proof (above (B2R s) (fmt_B2R s) (proj1 Hs)) as Ab.
      assert (0 < IZR nextTwoThirds * bpow radix2 (-53)) as P by (unfold nextTwoThirds; cbn; lra). unfold Rdiv. rewrite Rmult_1_l. split.
      + apply ge_rnd; [apply fmt_half|]. apply Rinv_le; lra.
      + apply below. split; [apply Rlt_le, Rinv_0_lt_compat; lra|]. now apply Rinv_le.
    - assert (2 <= IZR k) as K2 by (apply IZR_le; now apply rna_two). split.
      + apply ge_rnd; [apply fmt_half|]. apply Rmult_le_reg_r with (B2R s); [lra|]. unfold Rdiv. rewrite Rmult_assoc, Rinv_l by lra. lra.
      + apply Rle_lt_trans with (IZR 11 * bpow radix2 (-3)); [|cbn; lra]. apply le_rnd; [apply fmt_int; [lia|split; vm_compute; discriminate]|].
        apply Rmult_le_reg_r with (B2R s); [lra|]. unfold Rdiv. rewrite Rmult_assoc, Rinv_l by lra. cbn. lra. }
  rewrite <- (rna_one _ Q). apply bround_ok. apply div_ok; [exact Fy|lra|now rewrite Ey|].
  apply abs_bnd with 1%Z; [lia|]. cbn. lra.
Qed.
Theorem scaling_b64 pow (Hp : powOk pow) : scaling (b64 pow) (b64_laws pow Hp) s (scaleBy s).
Proof.
  constructor.
  - exact scaleBy_bound.
  - exact scaleBy_pos.
  - exact scaleBy_small.
  - exact scaleBy_exact.
  - exact quot_zero.
  - exact quot_one.
Qed.
End Scale.

(** ** The number of spaces written for a space of width 1 *)
Lemma scaleBy_one s : scaleBy s 1 = rna (B2R s).
Proof. unfold scaleBy. rewrite Rmult_1_l. now rewrite rnd_id by apply fmt_B2R. Qed.
Lemma spaces_b64 pow (o : lopts (b64 pow)) : let s := l_scale o in is_finite s = true -> 0 < B2R s <= bpow radix2 19 ->
  let k := fint (b64 pow) (downScale (b64 pow) o (scale (b64 pow) o (fZ (b64 pow) 1))) in
  (B2R s < / 2 -> k = 0%Z) /\ (/ 2 <= B2R s <= 2 / 3 -> k = 2%Z) /\ (2 / 3 < B2R s -> k = 1%Z).
Proof.
  intros s Hf Hs k. subst k. unfold downScale, scale. cbn [fint fround fdiv fmul fZ b64]. fold s.
  destruct (ofInt_rep 1) as [[F1 E1] _]; [split; vm_compute; discriminate|].
  assert (isNum (bround (bmult (ofInt 1) s)) (IZR (rna (B2R s)))) as Y.
  { apply bround_ok. apply mult_ok; [exact F1|exact Hf|rewrite E1, Rmult_1_l; apply rnd_id, fmt_B2R|].
    apply abs_bnd with 19%Z; [lia|lra]. }
  destruct Y as [Fy Ey]. split; [|split]; intros H.
  - assert (rna (B2R s) = 0%Z) as E0.
    { apply Z.le_antisymm; [now apply rna_low|]. rewrite <- (rna_Z 0) at 1. apply rna_le. lra. }
    rewrite E0 in Ey. apply btrunc_ok. rewrite <- (rna_Z 0). apply bround_ok. apply div_ok; [exact Fy|lra| |].
    + rewrite Ey. unfold Rdiv. rewrite Rmult_0_l. apply rnd_id, generic_format_0.
    + rewrite Rabs_R0. apply bpow_gt_0.
  - assert (rna (B2R s) = 1%Z) as E0 by (apply rna_one; lra). rewrite E0 in Ey. apply btrunc_ok.
    assert (3 / 2 <= rnd (1 / B2R s) <= 2) as Q.
    { replace (1 / B2R s) with (/ B2R s) by (unfold Rdiv; now rewrite Rmult_1_l). split.
      - apply ge_rnd; [replace (3 / 2) with (IZR 3 * bpow radix2 (-1)) by (cbn; lra); apply fmt_int; [lia|split; vm_compute; discriminate]|].
        replace (3 / 2) with (/ (2 / 3)) by lra. apply Rinv_le; lra.
      - apply le_rnd; [apply (fmt_Z 2); split; vm_compute; discriminate|]. replace 2 with (/ / 2) by lra. apply Rinv_le; lra. }
    assert (rna (rnd (1 / B2R s)) = 2%Z) as R2.
    { apply Z.le_antisymm; [|apply rna_two, Q]. apply Z.le_trans with (rna (IZR 2)); [apply rna_le, Q|rewrite rna_Z; lia]. }
    rewrite <- R2. apply bround_ok. apply div_ok; [exact Fy|lra|now rewrite Ey|]. apply abs_bnd with 1%Z; [lia|]. cbn. lra.
  - apply (quot_one s); [lra|]. rewrite scaleBy_one. split; [split; assumption|].
    pose proof (scaleBy_bound s ltac:(lra) 1) as K. rewrite scaleBy_one in K. unfold exactZ. lia.
Qed.
