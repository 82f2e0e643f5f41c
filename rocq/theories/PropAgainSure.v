(** C101 with a tolerance of at most 1/2: lines made of whole tokens are the same when set again, whatever the orders of the maps. *)
From Coq Require Import String Ascii.
From Verif Require Import Base Arith ArithB64 Unicode Split SpecSplit SpecAnsi Hyph Nodes KP Render SpecKP Align Options Call Settings
  AlignProofs Fresh Succeed Compare Counts PropAlign PropCompare PropFewest PropCounts Sure PropSure Least RestSure PropRestSure AgainSure.
Open Scope Z_scope.

Theorem C101_sure : forall A L u o m punct parts tokens maxWidth W lb1 spare1 ord1 lb2 spare2 ord2 gs words,
  plainCall A L u o m punct parts lb1 tokens spare1 maxWidth W ord1 ->
  plainCall A L u o m punct parts lb2 words spare2 maxWidth W ord2 ->
  fle A (k_tolerance (l_search o)) (fHalf A) = true -> Forall (Forall (fun r => isSpace r = false)) tokens ->
  forall ls lb1', leftAlignUniform A u ord1 spare1 lb1 tokens maxWidth = Ret (Some ls, lb1') ->
  concat gs = tokens -> ls = map (joinWith 32) gs -> tokenizerBreakWord (joinWith 10 ls) = Ret words ->
  words = tokens /\ exists lb2', leftAlignUniform A u ord2 spare2 lb2 words maxWidth = Ret (Some ls, lb2').
Proof. exact again_half. Qed.
Print Assumptions C101_sure.
(** the calls: [opts_call]; the lines are made of whole tokens, and read back as the same tokens *)
Example C101_sure_ex : Forall (Forall (fun r => isSpace r = false)) (map txt five) /\
  map (fun k => run (exOpts ++ [WithTolerance (fHalf B)]) (from k) five (n 9)) [0; 1; 2; 3]%nat =
  repeat (lines ["aaaa bbbb"; "cccc dddd"; "eeee"]%string) 4 /\
  concat [map txt ["aaaa"; "bbbb"]; map txt ["cccc"; "dddd"]; [txt "eeee"]]%string = map txt five /\
  tokenizerBreakWord (joinWith 10 (map txt ["aaaa bbbb"; "cccc dddd"; "eeee"]%string)) = Ret (map txt five).
Proof. split; [repeat constructor|]. repeat split; vm_compute; reflexivity. Qed.
