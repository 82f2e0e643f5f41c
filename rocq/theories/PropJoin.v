(** C134: two texts set together. [plainCall], [fragsOf] are in Call.v, [marksGlued] in Compare.v. *)
From Coq Require Import String Ascii Permutation.
From Verif Require Import Base Arith ArithB64 Unicode Split SpecSplit Ansi SpecAnsi Hyph Nodes KP Render SpecKP Align Options Call Settings
  Fresh Compare Join PropAlign PropCombine PropCompare PropFewest.
Open Scope Z_scope.

(** With the same iteration order of the map: 3 lines and 1 apart, 5 together *)
Theorem C134_join_refuted : exists t1 t2 w ls1 ls2 ls,
  run exOpts (from 2) t1 (n w) = lines ls1 /\ run exOpts (from 2) t2 (n w) = lines ls2 /\ run exOpts (from 2) (t1 ++ t2) (n w) = lines ls /\
  length ls1 = 3%nat /\ length ls2 = 1%nat /\ length ls = 5%nat.
Proof.
  exists ["one"; "abcdefgh"]%string, ["xyz"]%string, 7, ["one"; "ab-"; "cdefgh"]%string, ["xyz"]%string, ["one"; "ab-"; "cd-"; "ef-"; "gh xyz"]%string.
  repeat split; vm_compute; reflexivity.
Qed.
Print Assumptions C134_join_refuted.
(** On lines of 118 columns: each of two words makes a line, together they are refused *)
Theorem C134_wide_refuted : exists t1 t2 w, run [WithWordBreak false] (from 0) [t1] (n w) = lines [t1] /\
  run [WithWordBreak false] (from 0) [t2] (n w) = lines [t2] /\ run [WithWordBreak false] (from 0) [t1; t2] (n w) = Ret None.
Proof. exists (sixty "a"), (sixty "c"), 118. repeat split; vm_compute; reflexivity. Qed.
Print Assumptions C134_wide_refuted.
(** With some order, on lines of at most 51 columns, with what C91 asks of the text *)
Theorem C134_join_partial : forall A L u o m punct parts t1 t2 maxWidth W lb1 spare1 ord1 lb2 spare2 ord2 lb spare ord,
  plainCall A L u o m punct parts lb1 t1 spare1 maxWidth W ord1 ->
  plainCall A L u o m punct parts lb2 t2 spare2 maxWidth W ord2 ->
  plainCall A L u o m punct parts lb (t1 ++ t2) spare maxWidth W ord ->
  k_tolerance (l_search o) = fTolerance A -> l_renderHyphens o = true \/ l_wordBreak o = false ->
  marksGlued (negb (feq A (l_hyphenPenalty o) (fZ A 10000))) (fragsOf u o punct parts (t1 ++ t2)) ->
  (l_renderHyphens o = true -> Forall (fun f => hyphenW o m <= m (f_text f)) (fragsOf u o punct parts (t1 ++ t2))) ->
  W + m [32] <= 52 ->
  forall ls1 ls2 lb1' lb2', leftAlignUniform A u ord1 spare1 lb1 t1 maxWidth = Ret (Some ls1, lb1') ->
  leftAlignUniform A u ord2 spare2 lb2 t2 maxWidth = Ret (Some ls2, lb2') ->
  exists ls ord' lb', (forall i k, Permutation (ord' i k) [C0; C1; C2; C3]) /\
    leftAlignUniform A u ord' spare lb (t1 ++ t2) maxWidth = Ret (Some ls, lb') /\ (length ls <= length ls1 + length ls2)%nat.
Proof. exact align_join. Qed.
Print Assumptions C134_join_partial.
Example C134_ex w k : 0 < w <= 51 ->
  plainCall B BL ascii exO exM exPunct pairs exB (map txt ["one"; "abcdefgh"]%string) (fun _ => []) (n w) (1 * w) (from k) /\
  plainCall B BL ascii exO exM exPunct pairs exB (map txt ["xyz"]%string) (fun _ => []) (n w) (1 * w) (from k) /\
  plainCall B BL ascii exO exM exPunct pairs exB (map txt ["one"; "abcdefgh"]%string ++ map txt ["xyz"]%string) (fun _ => []) (n w) (1 * w) (from k) /\
  marksGlued (negb (feq B (l_hyphenPenalty exO) (fZ B 10000))) (fragsOf ascii exO exPunct pairs (map txt oneTokens)) /\
  (l_renderHyphens exO = true -> Forall (fun f => hyphenW exO exM <= exM (f_text f)) (fragsOf ascii exO exPunct pairs (map txt oneTokens))) /\
  run exOpts (from 0) ["one"; "abcdefgh"]%string (n 9) = lines ["one"; "abcdefgh"]%string /\
  run exOpts (from 0) ["one"; "abcdefgh"; "xyz"]%string (n 9) = lines ["one abcd-"; "efgh xyz"]%string.
Proof.
  intros H. destruct (C91_ex_call w k) as (P1 & _ & P3 & P4); [lia|].
  split; [apply any_call; [vm_compute; reflexivity|discriminate|vm_compute; reflexivity|vm_compute; discriminate|lia|apply from_all]|].
  split; [apply any_call; [vm_compute; reflexivity|discriminate|vm_compute; reflexivity|vm_compute; discriminate|lia|apply from_all]|].
  split; [exact P1|]. split; [exact P3|]. split; [exact P4|]. split; vm_compute; reflexivity.
Qed.
(** Set apart, they take at most one line more *)
Theorem C134_apart_partial : forall A L u o m punct parts t1 t2 maxWidth W lb1 spare1 ord1 lb2 spare2 ord2 lb spare ord,
  plainCall A L u o m punct parts lb1 t1 spare1 maxWidth W ord1 ->
  plainCall A L u o m punct parts lb2 t2 spare2 maxWidth W ord2 ->
  plainCall A L u o m punct parts lb (t1 ++ t2) spare maxWidth W ord ->
  k_tolerance (l_search o) = fTolerance A -> l_renderHyphens o = true \/ l_wordBreak o = false ->
  marksGlued (negb (feq A (l_hyphenPenalty o) (fZ A 10000))) (fragsOf u o punct parts (t1 ++ t2)) ->
  (l_renderHyphens o = true -> Forall (fun f => hyphenW o m <= m (f_text f)) (fragsOf u o punct parts (t1 ++ t2))) ->
  W + m [32] <= 52 ->
  forall ls lb', leftAlignUniform A u ord spare lb (t1 ++ t2) maxWidth = Ret (Some ls, lb') ->
  exists ls1 ord1' lb1' ls2 ord2' lb2', (forall i k, Permutation (ord1' i k) [C0; C1; C2; C3] /\ Permutation (ord2' i k) [C0; C1; C2; C3]) /\
    leftAlignUniform A u ord1' spare1 lb1 t1 maxWidth = Ret (Some ls1, lb1') /\
    leftAlignUniform A u ord2' spare2 lb2 t2 maxWidth = Ret (Some ls2, lb2') /\ (length ls1 + length ls2 <= S (length ls))%nat.
Proof. exact align_apart. Qed.
Print Assumptions C134_apart_partial.
