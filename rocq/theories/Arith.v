(** The float64 operations used by package linebreak. Instance: IEEE-754 binary64 (ArithB64.v). *)
From Verif Require Import Base.

Record arith := mkArith {
  F : Type;
  fZ : Z -> F;                    (* integer literals, float64(int) *)
  fHalf : F; fMinusHalf : F;      (* 0.5, -0.5 *)
  fTolerance : F;                 (* 8.6 *)
  fMax : F;                       (* math.MaxFloat64 *)
  fadd : F -> F -> F; fsub : F -> F -> F; fmul : F -> F -> F; fdiv : F -> F -> F;
  fopp : F -> F; fabs : F -> F;
  fpow : F -> F -> F;             (* math.Pow *)
  fround : F -> F;                (* math.Round *)
  flt : F -> F -> bool; fle : F -> F -> bool; feq : F -> F -> bool;
  fint : F -> Z                   (* int(x) *)
}.

(** What the theorems need to know of the arithmetic: it is exact on integers below 2^53, quotients of integers are
    correctly ordered, and there is no overflow on non-negative numbers below 2^k for small k. [rep x n]: x is the
    integer n. [bnd k x]: x is a number between 0 and 2^k. *)
Definition exactZ (n : Z) : Prop := - 2 ^ 53 <= n <= 2 ^ 53.
Record laws (A : arith) := mkLaws {
  rep : F A -> Z -> Prop;
  bnd : Z -> F A -> Prop;
  rep_Z : forall n, exactZ n -> rep (fZ A n) n;
  rep_nz : forall x n, rep x n -> n <> 0 -> x = fZ A n;
  rep_exact : forall x n, rep x n -> exactZ n;
  rep_add : forall x y a b, rep x a -> rep y b -> exactZ (a + b) -> rep (fadd A x y) (a + b);
  rep_sub : forall x y a b, rep x a -> rep y b -> exactZ (a - b) -> rep (fsub A x y) (a - b);
  rep_mul : forall x y a b, rep x a -> rep y b -> exactZ (a * b) -> rep (fmul A x y) (a * b);
  rep_div : forall x y q b, rep x (q * b) -> rep y b -> b <> 0 -> exactZ q -> rep (fdiv A x y) q;
  rep_opp : forall x a, rep x a -> rep (fopp A x) (- a);
  rep_round : forall x a, rep x a -> rep (fround A x) a;
  rep_int : forall x a, rep x a -> fint A x = a;
  rep_lt : forall x y a b, rep x a -> rep y b -> flt A x y = (a <? b);
  rep_le : forall x y a b, rep x a -> rep y b -> fle A x y = (a <=? b);
  rep_eq : forall x y a b, rep x a -> rep y b -> feq A x y = (a =? b);
  lt_le : forall x y, flt A x y = true -> fle A y x = false;
  eq_sym : forall x y, feq A x y = feq A y x;
  lt_asym : forall x y, flt A x y = true -> flt A y x = false;
  le_trans : forall x y z, fle A x y = true -> fle A y z = true -> fle A x z = true;
  max_refl : fle A (fMax A) (fMax A) = true;
  (* quotients of positive integers *)
  quo_low : forall a b, 0 < a <= 2 ^ 53 -> 0 < b <= 2 ^ 20 ->
    flt A (fdiv A (fZ A a) (fZ A b)) (fZ A (-1)) = false /\ fle A (fZ A (-1)) (fdiv A (fZ A a) (fZ A b)) = true;
  quo_class : forall a b, 0 < a <= 2 ^ 53 -> 0 < b <= 2 ^ 20 ->
    flt A (fdiv A (fZ A a) (fZ A b)) (fMinusHalf A) = false /\
    fle A (fdiv A (fZ A a) (fZ A b)) (fHalf A) = (2 * a <=? b) /\
    fle A (fdiv A (fZ A a) (fZ A b)) (fZ A 1) = (a <=? b);
  quo_tol : forall a b, 0 < a <= 2 ^ 53 -> 0 < b <= 2 ^ 20 ->
    fle A (fdiv A (fZ A a) (fZ A b)) (fTolerance A) = (5 * a <=? 43 * b);
  quo_bnd : forall a b, 0 < a <= 2 ^ 53 -> 0 < b <= 2 ^ 20 -> bnd 54 (fdiv A (fZ A a) (fZ A b));
  quo_mono : forall a b c d, 0 < a <= 2 ^ 53 -> 0 < b <= 2 ^ 20 -> 0 < c <= 2 ^ 53 -> 0 < d <= 2 ^ 20 -> a * d <= c * b ->
    fle A (fdiv A (fZ A a) (fZ A b)) (fdiv A (fZ A c) (fZ A d)) = true;
  tol_inf : fle A (fZ A 10000) (fTolerance A) = false;
  half_zero : fle A (fZ A 0) (fHalf A) = true /\ flt A (fZ A 0) (fMinusHalf A) = false;
  tol_zero : fle A (fZ A 0) (fTolerance A) = true;
  (* magnitudes *)
  bnd_rep : forall k x n, rep x n -> 0 <= k -> 0 <= n <= 2 ^ k -> bnd k x;
  bnd_refl : forall k x, bnd k x -> feq A x x = true;
  bnd_mono : forall j k x, bnd j x -> j <= k -> bnd k x;
  bnd_add : forall k x y, 0 <= k <= 500 -> bnd k x -> bnd k y -> bnd (k + 1) (fadd A x y);
  bnd_mul : forall j k x y, 0 <= j <= 400 -> 0 <= k <= 400 -> bnd j x -> bnd k y -> bnd (j + k) (fmul A x y);
  bnd_abs : forall k x, bnd k x -> bnd k (fabs A x);
  bnd_pow2 : forall k x, 0 <= k <= 200 -> bnd k x -> bnd (2 * k + 1) (fpow A x (fZ A 2));
  bnd_pow3 : forall k x, 0 <= k <= 200 -> bnd k x -> bnd (3 * k + 1) (fpow A x (fZ A 3));
  bnd_sub0 : forall k x y, bnd k x -> flt A (fZ A 0) y = false -> bnd 100 y ->
    0 <= k <= 500 -> bnd k (fsub A x (fpow A y (fZ A 2)));
  bnd_nonneg : forall k x, bnd k x -> flt A x (fZ A 0) = false;
  bnd_max : forall k x, 0 <= k <= 500 -> bnd k x -> flt A x (fMax A) = true /\ fle A (fMax A) x = false;
  bnd_neg : forall k x n, bnd k x -> - 2 ^ 53 <= n < 0 -> feq A x (fZ A n) = false
}.
