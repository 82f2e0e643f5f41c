(** C113: hyphen penalties that are huge, infinite or not numbers. [sameResult] is in Forbid.v, [powBig] in ForbidB64.v, [keptText] in SpecAny.v, [readable] in AnyCall.v. *)
From Coq Require Import String Ascii Reals Lra.
From Flocq Require Import Core IEEE754.BinarySingleNaN.
From Verif Require Import Base Arith ArithB64 Unicode Split SpecSplit Ansi SpecAnsi Hyph Nodes KP Render Align Options Call Settings PropAlign SpecFormat Format PropFormat
  SpecAny AnyCall PropAny Endless Huge Forbid ForbidB64.
Open Scope Z_scope.

(** The full statement: a hyphen penalty of +Inf, NaN or at least 2^512 gives the same lines as the penalty 10000, which forbids breaks at hyphens.
    It is false for texts with punctuation marks ([C113_forbid_refuted]): the option also sets what two breaks in a row at a mark or a hyphen cost.
    Proved for texts without punctuation marks and hyphens, whatever the width of lines. [R] relates two line breakers given the same tokens. *)
Theorem C113_forbid_partial : forall pow (L : laws (b64 pow)) u opts p, powBig pow -> Forall (okOption (b64 pow) L) opts ->
  p = B754_nan \/ p = B754_infinity false \/ is_finite p = true /\ (bpow radix2 512 <= B2R p)%R ->
  let o1 := withOptions (b64 pow) (defaultHyphenator u) (defaultPunctuator u) (opts ++ [@WithHyphenPenalty (b64 pow) p]) in
  let o2 := withOptions (b64 pow) (defaultHyphenator u) (defaultPunctuator u) (opts ++ [WithHyphenPenalty (fZ (b64 pow) 10000)]) in
  (exists ps, l_punctuator o2 [] = Ret ps /\ concat ps = []) ->
  exists mz, measures (b64 pow) L (l_measurer o2) mz /\
  exists R : breaker (b64 pow) -> breaker (b64 pow) -> Prop,
    (forall lb1 lb2, newBreaker (b64 pow) o1 = Ret lb1 -> newBreaker (b64 pow) o2 = Ret lb2 -> R lb1 lb2) /\
    forall lb1 lb2 tokens spare itemss maxWidth ord, R lb1 lb2 -> readable u tokens spare itemss ->
      Forall (fun items => Forall (fun r => punctSplitFunc u r = false /\ isHyphenRune r = false) (keptText items)) itemss ->
      mz (joinWith 32 (map keptText itemss)) <= 2 ^ 30 ->
      sameResult R (leftAlignUniform (b64 pow) u ord spare lb1 tokens maxWidth) (leftAlignUniform (b64 pow) u ord spare lb2 tokens maxWidth).
Proof. exact options_forbid. Qed.
Print Assumptions C113_forbid_partial.

(** "abc,def" fits on lines of 4 columns if the penalty is 10000, not if it is infinite or not a number *)
Theorem C113_forbid_refuted : exists opts tokens w,
  PropAlign.run (opts ++ [@WithHyphenPenalty B (B754_infinity false)]) (from 0) tokens w = Ret None /\
  PropAlign.run (opts ++ [@WithHyphenPenalty B B754_nan]) (from 0) tokens w = Ret None /\
  PropAlign.run (opts ++ [WithHyphenPenalty (n 10000)]) (from 0) tokens w = lines ["abc,"; "def"]%string.
Proof. exists [WithHyphenator (Some byTwo)], ["abc,def"%string], (n 4). repeat split; vm_compute; reflexivity. Qed.
Print Assumptions C113_forbid_refuted.

(** The same lines for the four penalties, other ones for 300. *)
Definition c113Tokens : list string := ["abcd"; "efghij"; "kl"]%string.
Definition c113Items : list (list SpecAnsi.item) := map (fun t => map (fun r => Chr [r]) (txt t)) c113Tokens.
Example C113_ex : map (fun p => PropAlign.run [WithHyphenator (Some byTwo); @WithHyphenPenalty B p] (from 0) c113Tokens (n 8)) [n 10000; B754_infinity false; B754_nan; ofInt (2 ^ 600)] =
    repeat (lines ["abcd"; "efghij"; "kl"]%string) 4 /\
  PropAlign.run [WithHyphenator (Some byTwo); WithHyphenPenalty (n 300)] (from 0) c113Tokens (n 8) = lines ["abcd ef-"; "ghij kl"]%string /\
  powBig mulPow /\ readable ascii (map txt c113Tokens) (fun _ => []) c113Items /\
  Forall (fun items => Forall (fun r => punctSplitFunc ascii r = false /\ isHyphenRune r = false) (keptText items)) c113Items.
Proof.
  split; [vm_compute; reflexivity|]. split; [vm_compute; reflexivity|]. split; [exact mulPow_big|]. split; [split; [|split]|].
  - repeat (apply Forall2_cons || apply Forall2_nil || (apply lx_chr; [discriminate|]) || apply lx_nil).
  - repeat constructor; vm_compute; discriminate.
  - intros [|[|[|j]]] t; cbn [nth_error map c113Tokens]; intros E; try (injection E as <-; vm_compute; reflexivity). destruct j; discriminate E.
  - repeat constructor.
Qed.
