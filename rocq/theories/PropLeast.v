(** C138: with a tolerance of at most 1/2, no iteration order of the map costs lines. *)
From Coq Require Import String Ascii.
From Verif Require Import Base Arith ArithB64 Unicode Split SpecSplit SpecAnsi Hyph Nodes KP Render SpecKP SpecGreedy Align Options Call Settings
  AlignProofs Fresh Succeed Compare Counts PropAlign PropCompare PropFewest PropCounts Sure PropSure Least.
Open Scope Z_scope.

(** No more lines than any layout of the text within the tolerance *)
Theorem C138_least : forall A L u o m punct parts lb tokens spare maxWidth W ord,
  plainCall A L u o m punct parts lb tokens spare maxWidth W ord ->
  fle A (k_tolerance (l_search o)) (fHalf A) = true -> gentle A u o m punct parts tokens ->
  forall segs, layout (negb (feq A (l_hyphenPenalty o) (fZ A 10000))) (fragsOf u o punct parts tokens) segs ->
  linesOk (l_renderHyphens o) m (m [32]) (hyphenW o m) A (k_tolerance (l_search o)) W true segs = true ->
  exists ls lb', leftAlignUniform A u ord spare lb tokens maxWidth = Ret (Some ls, lb') /\ (length ls <= length segs)%nat.
Proof. exact align_least. Qed.
Print Assumptions C138_least.
Definition halfO : lopts B := ofOpts [WithTolerance (fHalf B)].
(** the call: [C137_ex]; the text is gentle, and can be laid out as it is *)
Definition halfFrags : list frag := fragsOf ascii halfO exPunct pairs (map txt exTokens).
Definition halfLines : list (list frag) := [firstn 3 halfFrags; firstn 4 (skipn 3 halfFrags); skipn 7 halfFrags].
Definition noFrag : frag := mkFrag [] false Space.
Example C138_ex : gentle B ascii halfO exM exPunct pairs (map txt exTokens) /\
  layout (negb (feq B (l_hyphenPenalty halfO) (fZ B 10000))) halfFrags halfLines /\
  linesOk true exM (exM [32]) (hyphenW halfO exM) B (fHalf B) 9 true halfLines = true /\
  map (lineText true) halfLines = map txt ["ab, ab-"; "cdef gh-"; "ijk xyz"]%string /\
  map (fun k => run (exOpts ++ [WithTolerance (fHalf B)]) (from k) exTokens (n 9)) [0; 1; 2; 3]%nat =
  repeat (lines ["ab, ab-"; "cdef gh-"; "ijk xyz"]%string) 4.
Proof.
  split; [apply gentleb_ok; vm_compute; reflexivity|]. split; [|split; [|split]; vm_compute; reflexivity].
  apply (lay_cut true (firstn 2 halfFrags) (nth 2 halfFrags noFrag)); [reflexivity|].
  apply (lay_cut true (firstn 3 (skipn 3 halfFrags)) (nth 6 halfFrags noFrag)); [reflexivity|]. apply lay_last. discriminate.
Qed.

(** A tolerance of 1 is too much *)
Theorem C138_one_refuted : exists tokens w,
  run (exOpts ++ [WithTolerance (n 1)]) (from 0) tokens (n w) = lines ["one"; "abcdef-"; "gh xyz"]%string /\
  run (exOpts ++ [WithTolerance (n 1)]) (from 2) tokens (n w) = lines ["one"; "ab-"; "cd-"; "ef-"; "gh xyz"]%string.
Proof. exists oneTokens, 7. split; vm_compute; reflexivity. Qed.
Print Assumptions C138_one_refuted.

(** A part of a word narrower than the hyphen: the text of [C91_thin_refuted] can be laid out on 4 lines of 4 columns, and gets 5 *)
Definition fourLines : list (list frag) := [firstn 1 thinFrags; firstn 3 (skipn 1 thinFrags); firstn 1 (skipn 4 thinFrags); skipn 5 thinFrags].
Theorem C138_thin_refuted : layout true thinFrags fourLines /\
  linesOk true exM 1 1 B (fHalf B) 4 true fourLines = true /\ marksGlued true thinFrags /\
  exists ls, length ls = 5%nat /\
    (let! lb := newLineBreaker B ascii (exOpts ++ [WithTolerance (fHalf B)]) in
     let! x := leftAlignUniform B ascii (from 0) (fun _ => []) lb thinTokens (n 4) in Ret (fst x)) = Ret (Some ls).
Proof.
  split; [|split; [vm_compute; reflexivity|split; [apply marksGluedb_ok; vm_compute; reflexivity|]]].
  - apply (lay_cut true [] (nth 0 thinFrags noFrag)); [reflexivity|].
    apply (lay_cut true (firstn 2 (skipn 1 thinFrags)) (nth 3 thinFrags noFrag)); [reflexivity|].
    apply (lay_cut true [] (nth 4 thinFrags noFrag)); [reflexivity|]. apply lay_last. discriminate.
  - exists [txt "xx"; txt "ab-"; txt "cd-"; 0x301 :: txt " yy-"; txt "yyyy"]. split; [reflexivity|]. vm_compute. reflexivity.
Qed.
Print Assumptions C138_thin_refuted.
(** A mark that can come first on a line: 3 lines of 4 columns are enough, there are 4 *)
Definition openTokens : list string := ["(ee"; "(d"; "a"; "d"]%string.
Definition openFrags : list frag := fragsOf ascii exO exPunct pairs (map txt openTokens).
Definition openLines : list (list frag) := [firstn 2 openFrags; firstn 3 (skipn 2 openFrags); skipn 5 openFrags].
Theorem C138_mark_refuted : map (lineText true) openLines = map txt ["(ee"; "(d a"; "d"]%string /\ layout true openFrags openLines /\
  linesOk true exM 1 1 B (fHalf B) 4 true openLines = true /\
  run (exOpts ++ [WithTolerance (fHalf B)]) (from 0) openTokens (n 4) = lines ["("; "ee ("; "d"; "a d"]%string.
Proof.
  split; [vm_compute; reflexivity|]. split; [|split; vm_compute; reflexivity].
  apply (lay_cut true (firstn 1 openFrags) (nth 1 openFrags noFrag)); [reflexivity|].
  apply (lay_cut true (firstn 2 (skipn 2 openFrags)) (nth 4 openFrags noFrag)); [reflexivity|]. apply lay_last. discriminate.
Qed.
Print Assumptions C138_mark_refuted.

(** More tolerance up to 1/2, word breaking, or a smaller scale factor, never costs a line *)
Theorem C138_tolerance : forall A L u opts t1 t2 m punct parts tokens maxWidth W lb1 spare1 ord1 lb2 spare2 ord2,
  plainCall A L u (newWith A u opts (WithTolerance t1)) m punct parts lb1 tokens spare1 maxWidth W ord1 ->
  plainCall A L u (newWith A u opts (WithTolerance t2)) m punct parts lb2 tokens spare2 maxWidth W ord2 ->
  fle A t1 t2 = true -> fle A t2 (fHalf A) = true -> gentle A u (newWith A u opts (WithTolerance t2)) m punct parts tokens ->
  forall ls lb1', leftAlignUniform A u ord1 spare1 lb1 tokens maxWidth = Ret (Some ls, lb1') ->
  exists ls2 lb2', leftAlignUniform A u ord2 spare2 lb2 tokens maxWidth = Ret (Some ls2, lb2') /\ (length ls2 <= length ls)%nat.
Proof. exact tolerance_least. Qed.
Print Assumptions C138_tolerance.
Theorem C138_wordbreak : forall A L u opts m punct parts tokens maxWidth W lb1 spare1 ord1 lb2 spare2 ord2,
  plainCall A L u (newWith A u opts (WithWordBreak false)) m punct parts lb1 tokens spare1 maxWidth W ord1 ->
  plainCall A L u (newWith A u opts (WithWordBreak true)) m punct parts lb2 tokens spare2 maxWidth W ord2 ->
  (forall a b, m (a ++ b) = m a + m b) -> hyphenFree punct tokens ->
  fle A (k_tolerance (l_search (newWith A u opts (WithWordBreak true)))) (fHalf A) = true ->
  gentle A u (newWith A u opts (WithWordBreak true)) m punct parts tokens ->
  forall ls lb1', leftAlignUniform A u ord1 spare1 lb1 tokens maxWidth = Ret (Some ls, lb1') ->
  exists ls2 lb2', leftAlignUniform A u ord2 spare2 lb2 tokens maxWidth = Ret (Some ls2, lb2') /\ (length ls2 <= length ls)%nat.
Proof. exact wordbreak_least. Qed.
Print Assumptions C138_wordbreak.
Theorem C138_scale : forall A L u opts x1 x2 k1 k2 m punct parts tokens maxWidth n lb1 spare1 ord1 lb2 spare2 ord2,
  plainCall A L u (newWith A u opts (WithScaleFactor x1)) (fun t => k1 * m t) punct parts lb1 tokens spare1 maxWidth (k1 * n) ord1 ->
  plainCall A L u (newWith A u opts (WithScaleFactor x2)) (fun t => k2 * m t) punct parts lb2 tokens spare2 maxWidth (k2 * n) ord2 ->
  1 <= k2 <= k1 -> fle A (k_tolerance (l_search (newWith A u opts (WithScaleFactor x2)))) (fHalf A) = true ->
  gentle A u (newWith A u opts (WithScaleFactor x2)) (fun t => k2 * m t) punct parts tokens ->
  forall ls lb1', leftAlignUniform A u ord1 spare1 lb1 tokens maxWidth = Ret (Some ls, lb1') ->
  exists ls2 lb2', leftAlignUniform A u ord2 spare2 lb2 tokens maxWidth = Ret (Some ls2, lb2') /\ (length ls2 <= length ls)%nat.
Proof. exact scale_least. Qed.
Print Assumptions C138_scale.
(** The beginning of a text needs no more lines than the text, on lines that can be left short at the end *)
Theorem C138_beginning : forall A L u o m punct parts t1 t2 maxWidth W lb1 spare1 ord1 lb2 spare2 ord2,
  plainCall A L u o m punct parts lb1 (t1 ++ t2) spare1 maxWidth W ord1 ->
  plainCall A L u o m punct parts lb2 t1 spare2 maxWidth W ord2 ->
  fle A (fdiv A (fZ A W) (fZ A 9994)) (k_tolerance (l_search o)) = true -> fle A (k_tolerance (l_search o)) (fHalf A) = true ->
  gentle A u o m punct parts t1 ->
  forall ls lb1', leftAlignUniform A u ord1 spare1 lb1 (t1 ++ t2) maxWidth = Ret (Some ls, lb1') ->
  exists ls2 lb2', leftAlignUniform A u ord2 spare2 lb2 t1 maxWidth = Ret (Some ls2, lb2') /\ (length ls2 <= length ls)%nat.
Proof. exact beginning_least. Qed.
Print Assumptions C138_beginning.
(** the calls: with the tolerance of 1/2 as the last option [C83_ex_call] at t = 1/2, with word breaking as the last option: *)
Example C138_ex_call b w k : 0 < w <= 2 ^ 30 -> exists lb,
  plainCall B BL ascii (newWith B ascii (exOpts ++ [WithTolerance (fHalf B)]) (WithWordBreak b)) exM exPunct pairs lb (map txt exTokens)
    (fun _ => []) (n w) (1 * w) (from k) /\
  fle B (k_tolerance (l_search (newWith B ascii (exOpts ++ [WithTolerance (fHalf B)]) (WithWordBreak b)))) (fHalf B) = true /\
  gentle B ascii (newWith B ascii (exOpts ++ [WithTolerance (fHalf B)]) (WithWordBreak b)) exM exPunct pairs (map txt exTokens).
Proof.
  intros Hw. exists (breakerOf (ofOpts [WithTolerance (fHalf B); WithWordBreak b])).
  split; [apply (cmp_call [WithTolerance (fHalf B); WithWordBreak b]); [repeat constructor; vm_compute; reflexivity|exact Hw]|].
  split; [vm_compute; reflexivity|apply gentleb_ok; destruct b; vm_compute; reflexivity].
Qed.
(** Width 60 and a tolerance of 1/4 are within what [C138_beginning] asks; with word breaking there are 3 lines
    of 9 columns, without there are none within the tolerance; there are 4 and 4 of 6 columns *)
Example C138_ex_more :
  fle B (fdiv B (fZ B 60) (fZ B 9994)) (fdiv B (n 1) (n 4)) = true /\ fle B (fdiv B (n 1) (n 4)) (fHalf B) = true /\
  map (fun k => run (exOpts ++ [WithTolerance (fHalf B); WithWordBreak false]) (from k) exTokens (n 6)) [0; 1; 2; 3]%nat =
    repeat (lines ["ab,"; "abcdef"; "gh-ijk"; "xyz"]%string) 4 /\
  map (fun k => run (exOpts ++ [WithTolerance (fHalf B); WithWordBreak true]) (from k) exTokens (n 6)) [0; 1; 2; 3]%nat =
    repeat (lines ["ab,"; "abcdef"; "gh-ij-"; "k xyz"]%string) 4.
Proof. split; [vm_compute; reflexivity|]. split; [vm_compute; reflexivity|]. split; vm_compute; reflexivity. Qed.
