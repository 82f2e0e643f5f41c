(** float64 on the platforms Go runs on: int(x) is implementation-dependent when x does not fit in 64 bits (Go specification,
    "Conversions between numeric types"), that is also when it is infinite or not a number. [conv] is the choice of the platform. *)
From Coq Require Import Reals.
From Flocq Require Import Core BinarySingleNaN.
From Coq Require Import Permutation.
From Verif Require Import Base Arith ArithB64 Unicode Split Hyph KP Nodes Render SpecKP SpecGreedy Options Call AlignProofs Greedy.
Local Open Scope Z_scope.

Definition fits64 (x : binary64) : bool := is_finite x && (- 2 ^ 63 <=? Btrunc x) && (Btrunc x <? 2 ^ 63).
Definition b64on (conv : binary64 -> Z) (pow : binary64 -> binary64 -> binary64) : arith := {|
  F := binary64; fZ := fZ (b64 pow); fHalf := fHalf (b64 pow); fMinusHalf := fMinusHalf (b64 pow); fTolerance := fTolerance (b64 pow);
  fMax := fMax (b64 pow); fadd := fadd (b64 pow); fsub := fsub (b64 pow); fmul := fmul (b64 pow); fdiv := fdiv (b64 pow);
  fopp := fopp (b64 pow); fabs := fabs (b64 pow); fpow := pow; fround := fround (b64 pow);
  flt := flt (b64 pow); fle := fle (b64 pow); feq := feq (b64 pow);
  fint := fun x => if fits64 x then Btrunc x else conv x
|}.
(** amd64: the conversion instruction returns -2^63; arm64: it saturates, and converts NaN to 0. *)
Definition amd64 (_ : binary64) : Z := - 2 ^ 63.
Definition arm64 (x : binary64) : Z :=
  match x with
  | B754_nan => 0
  | B754_infinity false => 2 ^ 63 - 1 | B754_infinity true => - 2 ^ 63
  | _ => if Btrunc x <? 0 then - 2 ^ 63 else 2 ^ 63 - 1
  end.
Definition b64on_laws conv pow (L : laws (b64 pow)) (H : forall x n, rep (b64 pow) L x n -> is_finite x = true) : laws (b64on conv pow).
Proof.
  destruct L as [r b H1 H2 H3 H4 H5 H6 H7 H8 H9 Hi H11 H12 H13 H14 H15 H16 H17 H18 H19 H20 H21 H22 H23 H24 H25 H26 H27 H28 H29 H30 H31 H32 H33 H34 H35 H36 H37 H38].
  cbn [rep] in H.
  refine (mkLaws (b64on conv pow) r b H1 H2 H3 H4 H5 H6 H7 H8 H9 _ H11 H12 H13 H14 H15 H16 H17 H18 H19 H20 H21 H22 H23 H24 H25 H26 H27 H28 H29 H30 H31 H32 H33 H34 H35 H36 H37 H38).
  intros x a Hr. specialize (Hi x a Hr). specialize (H x a Hr). specialize (H3 x a Hr). cbn [fint b64on b64] in *. unfold fits64.
  rewrite H, Hi. unfold exactZ in H3. destruct (Z.leb_spec (- 2 ^ 63) a); [|lia]. destruct (Z.ltb_spec a (2 ^ 63)); [|lia]. reflexivity.
Defined.

Definition platformLaws conv pow (Hp : powOk pow) : laws (b64on conv pow) :=
  b64on_laws conv pow (b64_laws pow Hp) (fun x n (H : rep (b64 pow) (b64_laws pow Hp) x n) => proj1 (proj1 H)).

(** ** The layouts chosen do not depend on the platform *)
Section Same.
Variable rh softOn : bool.
Variable m : list rune -> Z.
Variable sp hy : Z.
Variable A1 A2 : arith.
Variable tol1 : F A1.
Variable tol2 : F A2.
Variable W : Z.
Variable fs : list frag.
Hypothesis Hok : forall first last seg, lineOk rh m sp hy A1 tol1 W first last seg = lineOk rh m sp hy A2 tol2 W first last seg.
Lemma starts_same k : starts rh softOn m sp hy A1 tol1 W fs k -> starts rh softOn m sp hy A2 tol2 W fs k.
Proof. induction 1 as [|k j _ IH H1 H2 H3 H4]; [constructor|]. apply st_next with k; auto. unfold fits in *. now rewrite <- Hok. Qed.
End Same.
Lemma line_same rh softOn m sp hy A1 A2 tol1 tol2 W fs k j :
  (forall first last seg, lineOk rh m sp hy A1 tol1 W first last seg = lineOk rh m sp hy A2 tol2 W first last seg) ->
  line rh softOn m sp hy A1 tol1 W fs k j <-> line rh softOn m sp hy A2 tol2 W fs k j.
Proof.
  intros H. unfold line, fits. rewrite H. split; intros (H1 & H2); (split; [|exact H2]); eapply starts_same; try exact H1; auto.
Qed.
Lemma greedy_same rh softOn m sp hy A1 A2 tol1 tol2 W fs k segs :
  (forall first last seg, lineOk rh m sp hy A1 tol1 W first last seg = lineOk rh m sp hy A2 tol2 W first last seg) ->
  greedy rh softOn m sp hy A1 tol1 W fs k segs -> greedy rh softOn m sp hy A2 tol2 W fs k segs.
Proof.
  intros H.
  assert (forall k j, chosen rh softOn m sp hy A1 tol1 W fs k j -> chosen rh softOn m sp hy A2 tol2 W fs k j) as Hc.
  { intros k0 j (H1 & H2 & H3). split; [now apply (line_same rh softOn m sp hy A1 A2 tol1 tol2)|]. split.
    - intros k' Hk. apply H2. now apply (line_same rh softOn m sp hy A1 A2 tol1 tol2).
    - intros (k' & Hk & Hr). apply H3. exists k'. split; [|exact Hr]. now apply (line_same rh softOn m sp hy A1 A2 tol1 tol2). }
  induction 1 as [k j Hj Hl|k j lines Hj Hl _ IH]; [apply gr_last; auto|apply gr_cut; auto].
Qed.

(** The same options on another platform. *)
Definition onPlatform {c1 pow} c2 (o : lopts (b64on c1 pow)) : lopts (b64on c2 pow) :=
  let s := l_search o in
  @mkLopts (b64on c2 pow) (@mkKopts (b64on c2 pow) (k_tolerance s) (k_badness s) (k_line s) (k_flagged s) (k_fitness s))
    (l_measurer o) (l_scale o) (l_wordBreak o) (l_renderHyphens o) (l_hyphenPenalty o) (l_hardHyphenPenalty o) (l_punctuationPenalty o)
    (l_hyphenator o) (l_punctuator o) (l_minHyphenate o) (l_glueStretch o).
Theorem platforms_same c1 c2 pow (L1 : laws (b64on c1 pow)) (L2 : laws (b64on c2 pow)) u (o : lopts (b64on c1 pow)) m punct parts tokens
    (maxWidth : binary64) W lb1 spare1 ord1 lb2 spare2 ord2 :
  plainCall (b64on c1 pow) L1 u o m punct parts lb1 tokens spare1 maxWidth W ord1 ->
  plainCall (b64on c2 pow) L2 u (onPlatform c2 o) m punct parts lb2 tokens spare2 maxWidth W ord2 -> forall ls,
  (exists ord lb', (forall i k, Permutation (ord i k) [C0; C1; C2; C3]) /\
     leftAlignUniform (b64on c1 pow) u ord spare1 lb1 tokens maxWidth = Ret (Some ls, lb')) ->
  (exists ord lb', (forall i k, Permutation (ord i k) [C0; C1; C2; C3]) /\
     leftAlignUniform (b64on c2 pow) u ord spare2 lb2 tokens maxWidth = Ret (Some ls, lb')).
Proof.
  intros P1 P2 ls H. apply (greedy_exact _ _ _ _ _ _ _ _ _ _ _ _ _ P1) in H. apply (greedy_exact _ _ _ _ _ _ _ _ _ _ _ _ _ P2).
  destruct H as (segs & Hg & ->). exists segs. split; [|reflexivity]. destruct o. eapply greedy_same; [|exact Hg]. intros first last seg. reflexivity.
Qed.
Theorem platforms_set c1 c2 pow (L1 : laws (b64on c1 pow)) (L2 : laws (b64on c2 pow)) u (o : lopts (b64on c1 pow)) m punct parts tokens
    (maxWidth : binary64) W lb1 spare1 ord1 lb2 spare2 ord2 :
  plainCall (b64on c1 pow) L1 u o m punct parts lb1 tokens spare1 maxWidth W ord1 ->
  plainCall (b64on c2 pow) L2 u (onPlatform c2 o) m punct parts lb2 tokens spare2 maxWidth W ord2 ->
  exists r1 lb1' r2 lb2', leftAlignUniform (b64on c1 pow) u ord1 spare1 lb1 tokens maxWidth = Ret (r1, lb1') /\
    leftAlignUniform (b64on c2 pow) u ord2 spare2 lb2 tokens maxWidth = Ret (r2, lb2') /\ (r1 = None <-> r2 = None).
Proof.
  intros P1 P2. destruct (call _ _ _ _ _ _ _ _ _ _ _ _ _ P1) as (r1 & lb1' & E1 & _ & H1). destruct (call _ _ _ _ _ _ _ _ _ _ _ _ _ P2) as (r2 & lb2' & E2 & _ & H2).
  exists r1, lb1', r2, lb2'. split; [exact E1|]. split; [exact E2|]. destruct r1 as [l1|], r2 as [l2|]; [split; discriminate| | |split; reflexivity]; exfalso.
  - apply H2. destruct H1 as (segs & _ & Hl & Ho & _). exists segs. destruct o. split; [exact Hl|exact Ho].
  - apply H1. destruct H2 as (segs & _ & Hl & Ho & _). exists segs. destruct o. split; [exact Hl|exact Ho].
Qed.
