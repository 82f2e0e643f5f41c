(** C137: with a tolerance of at most 1/2, the lines do not depend on the iteration order of the map. *)
From Coq Require Import String Ascii.
From Verif Require Import Base Arith ArithB64 Unicode Split SpecSplit SpecAnsi Hyph Nodes KP Render SpecKP SpecGreedy Align Options Call Settings
  AlignProofs Fresh Succeed Compare PropAlign PropCompare Sure.
Open Scope Z_scope.

Theorem C137_sure : forall A L u o m punct parts tokens maxWidth W lb1 spare1 ord1 lb2 spare2 ord2,
  plainCall A L u o m punct parts lb1 tokens spare1 maxWidth W ord1 ->
  plainCall A L u o m punct parts lb2 tokens spare2 maxWidth W ord2 ->
  fle A (k_tolerance (l_search o)) (fHalf A) = true ->
  exists res lb1' lb2', leftAlignUniform A u ord1 spare1 lb1 tokens maxWidth = Ret (res, lb1') /\
    leftAlignUniform A u ord2 spare2 lb2 tokens maxWidth = Ret (res, lb2').
Proof. exact align_half. Qed.
Print Assumptions C137_sure.
(** a tolerance of 1/2 *)
Example C137_ex w k : 0 < w <= 2 ^ 30 ->
  plainCall B BL ascii (ofOpts [WithTolerance (fHalf B)]) exM exPunct pairs (breakerOf (ofOpts [WithTolerance (fHalf B)])) (map txt exTokens) (fun _ => [])
    (n w) (1 * w) (from k) /\ fle B (k_tolerance (l_search (ofOpts [WithTolerance (fHalf B)]))) (fHalf B) = true.
Proof. intros Hw. split; [apply cmp_call; [repeat constructor; vm_compute; reflexivity|exact Hw]|vm_compute; reflexivity]. Qed.
Example C137_ex_run : map (fun k => run (exOpts ++ [WithTolerance (fHalf B)]) (from k) ["abcdefghijklmnopqrstuvwxyzab"]%string (n 12)) [0; 1; 2; 3]%nat =
  repeat (lines ["abcdefgh-"; "ijklmnop-"; "qrstuvwxyzab"]%string) 4.
Proof. vm_compute. reflexivity. Qed.

(** A tolerance of 1 is too much *)
Theorem C137_one_refuted : exists tokens w,
  run (exOpts ++ [WithTolerance (n 1)]) (from 1) tokens (n w) = lines ["abcdef-"; "ghijklmnop-"; "qrstuvwxyzab"]%string /\
  run (exOpts ++ [WithTolerance (n 1)]) (from 2) tokens (n w) = lines ["abcdefghij-"; "klmnop-"; "qrstuvwxyzab"]%string.
Proof. exists ["abcdefghijklmnopqrstuvwxyzab"]%string, 12. split; vm_compute; reflexivity. Qed.
Print Assumptions C137_one_refuted.
