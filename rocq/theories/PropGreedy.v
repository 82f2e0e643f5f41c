(** C87-C91: which of the possible layouts LeftAlignUniform returns; what the hyphen penalty and the looseness change. *)
From Coq Require Import String Ascii Permutation.
From Verif Require Import Base Arith ArithB64 Unicode Split SpecSplit SpecAnsi Hyph Nodes KP Render SpecKP SpecGreedy Align Options Call Settings
  AlignProofs Fresh Succeed Compare PropAlign PropCompare Greedy.
Open Scope Z_scope.

(** ** The hypotheses of the theorems are met *)
Lemma pen_call p w k : okPenalty B BL p -> 0 < w <= 2 ^ 30 ->
  plainCall B BL ascii (newWith B ascii exOpts (WithHyphenPenalty p)) exM exPunct pairs (breakerOf (newWith B ascii exOpts (WithHyphenPenalty p)))
    (map txt exTokens) (fun _ => []) (n w) (1 * w) (from k).
Proof. intros Hp Hw. apply (cmp_call [WithHyphenPenalty p]); [constructor; [exact Hp|constructor]|exact Hw]. Qed.
Lemma int_penalty z : 0 < z <= 2 ^ 30 -> z <> 200 -> z <> 400 -> okPenalty B BL (n z).
Proof.
  intros H H2 H4. assert (forall x, Z.abs x <= 2 ^ 30 -> rep B BL (fZ B x) x) as R by (intros x Hx; apply (rep_Z B BL); unfold exactZ; lia).
  split; [apply bnd_rep with z; [apply R|..]; lia|]. unfold n.
  rewrite (rep_eq B BL _ _ 0 z), (rep_eq B BL _ _ 200 z), (rep_eq B BL _ _ 400 z) by (apply R; lia).
  repeat split; apply Z.eqb_neq; lia.
Qed.
Lemma pen_run p ord w : okPenalty B BL p ->
  run (exOpts ++ [WithHyphenPenalty p]) ord exTokens w =
  let! x := leftAlignUniform B ascii ord (fun _ => []) (breakerOf (newWith B ascii exOpts (WithHyphenPenalty p))) (map txt exTokens) w in Ret (fst x).
Proof.
  intros Hp. assert (S := cmp_settings [WithHyphenPenalty p] ltac:(constructor; [exact Hp|constructor])).
  destruct (settings_new B BL ascii _ exM exPunct pairs S) as (sp & hy & E & _).
  unfold run, newLineBreaker, breakerOf. fold (ofOpts [WithHyphenPenalty p]). change (newWith B ascii exOpts (WithHyphenPenalty p)) with (ofOpts [WithHyphenPenalty p]).
  rewrite E. reflexivity.
Qed.

(** ** Theorems *)

(** C87: the results of a call, for all the iteration orders of the map of candidates, are exactly the greedy layouts *)
Theorem C87_exact : forall A L u o m punct parts lb tokens spare maxWidth W ord,
  plainCall A L u o m punct parts lb tokens spare maxWidth W ord -> forall ls,
  (exists segs, greedy (l_renderHyphens o) (negb (feq A (l_hyphenPenalty o) (fZ A 10000))) m (m [32]) (hyphenW o m) A (k_tolerance (l_search o)) W
      (fragsOf u o punct parts tokens) 0 segs /\ ls = map (lineText (l_renderHyphens o)) segs) <->
  exists ord' lb', (forall i k, Permutation (ord' i k) [C0; C1; C2; C3]) /\
    leftAlignUniform A u ord' spare lb tokens maxWidth = Ret (Some ls, lb').
Proof. exact greedy_exact. Qed.
Print Assumptions C87_exact.
(** [ex_call] meets the hypothesis. Two results for the same text: "ab-" and "abcd-" are both among the lines chosen *)
Example C87_ex :
  run exOpts (from 0) ["one"; "abcdefgh"; "xyz"]%string (n 8) = lines ["one"; "abcd-"; "efgh xyz"]%string /\
  run exOpts (from 2) ["one"; "abcdefgh"; "xyz"]%string (n 8) = lines ["one"; "ab-"; "cd-"; "efgh xyz"]%string.
Proof. split; vm_compute; reflexivity. Qed.

(** C48: the calls, over the histories of the line breaker, the spare capacities and the iteration orders, all return the same lines
    if and only if the greedy layouts all have the same lines *)
Theorem C48_determined : forall A L u o m punct parts tokens maxWidth W lb spare ord,
  plainCall A L u o m punct parts lb tokens spare maxWidth W ord ->
  (forall lb1 spare1 ord1 ls1 lb1' lb2 spare2 ord2 ls2 lb2',
     plainCall A L u o m punct parts lb1 tokens spare1 maxWidth W ord1 ->
     plainCall A L u o m punct parts lb2 tokens spare2 maxWidth W ord2 ->
     leftAlignUniform A u ord1 spare1 lb1 tokens maxWidth = Ret (Some ls1, lb1') ->
     leftAlignUniform A u ord2 spare2 lb2 tokens maxWidth = Ret (Some ls2, lb2') -> ls1 = ls2) <->
  (forall segs1 segs2,
     greedy (l_renderHyphens o) (negb (feq A (l_hyphenPenalty o) (fZ A 10000))) m (m [32]) (hyphenW o m) A (k_tolerance (l_search o)) W
       (fragsOf u o punct parts tokens) 0 segs1 ->
     greedy (l_renderHyphens o) (negb (feq A (l_hyphenPenalty o) (fZ A 10000))) m (m [32]) (hyphenW o m) A (k_tolerance (l_search o)) W
       (fragsOf u o punct parts tokens) 0 segs2 ->
     map (lineText (l_renderHyphens o)) segs1 = map (lineText (l_renderHyphens o)) segs2).
Proof. exact determined_iff. Qed.
Print Assumptions C48_determined.
(** [ex_call] meets the hypothesis; "one abcdefgh xyz" in 8 columns has two results (C87_ex), in 16 columns and in 3 a single one *)
Example C48_determined_ex :
  map (fun k => run exOpts (from k) ["one"; "abcdefgh"; "xyz"]%string (n 16)) [0; 1; 2; 3]%nat = repeat (lines ["one abcdefgh xyz"]%string) 4 /\
  map (fun k => run exOpts (from k) ["one"; "abcdefgh"; "xyz"]%string (n 3)) [0; 1; 2; 3]%nat = repeat (lines ["one"; "ab-"; "cd-"; "ef-"; "gh"; "xyz"]%string) 4.
Proof. split; vm_compute; reflexivity. Qed.

(** C88, for every text: when a text can be set without hyphens, a hyphen penalty that is high enough avoids them *)
Definition C88_penalty : Prop := forall A L u opts m punct parts tokens maxWidth W,
  (forall p, okPenalty A L p -> exists lb spare ord,
     plainCall A L u (newWith A u opts (WithHyphenPenalty p)) m punct parts lb tokens spare maxWidth W ord) ->
  (exists lb spare ord ls lb', plainCall A L u (newWith A u opts (WithHyphenPenalty (fZ A 10000))) m punct parts lb tokens spare maxWidth W ord /\
     leftAlignUniform A u ord spare lb tokens maxWidth = Ret (Some ls, lb')) ->
  exists p, okPenalty A L p /\ feq A p (fZ A 10000) = false /\ forall lb spare ord ls lb',
    plainCall A L u (newWith A u opts (WithHyphenPenalty p)) m punct parts lb tokens spare maxWidth W ord ->
    leftAlignUniform A u ord spare lb tokens maxWidth = Ret (Some ls, lb') -> reflow false (joinWith 32 tokens) ls.
(** Whatever the penalty, "gh-ijk" is hyphenated though the text can be set without hyphens *)
Theorem C88_penalty_refuted : exists tokens w,
  run (exOpts ++ [WithHyphenPenalty (n 10000)]) (from 0) tokens (n w) = lines ["ab,"; "abcdef"; "gh-ijk"; "xyz"]%string /\
  forall p, okPenalty B BL p -> feq B p (fZ B 10000) = false -> exists ord, (forall i k, Permutation (ord i k) [C0; C1; C2; C3]) /\
    run (exOpts ++ [WithHyphenPenalty p]) ord tokens (n w) = lines ["ab,"; "abcdef"; "gh-ij-"; "k xyz"]%string.
Proof.
  exists exTokens, 6. split; [vm_compute; reflexivity|]. intros p Hp Hn.
  assert (okPenalty B BL (n 300)) as H3 by (apply int_penalty; lia).
  pose proof (pen_call (n 300) 6 0 H3 ltac:(lia)) as K1. pose proof (pen_call p 6 0 Hp ltac:(lia)) as K2.
  assert (feq B (n 300) (fZ B 10000) = feq B p (fZ B 10000)) as Hf by (rewrite Hn; vm_compute; reflexivity).
  assert (exists lb', leftAlignUniform B ascii (from 0) (fun _ => []) (breakerOf (newWith B ascii exOpts (WithHyphenPenalty (n 300)))) (map txt exTokens) (n 6)
    = Ret (Some (map txt ["ab,"; "abcdef"; "gh-ij-"; "k xyz"]%string), lb')) as (lb' & E).
  { assert (run (exOpts ++ [WithHyphenPenalty (n 300)]) (from 0) exTokens (n 6) = lines ["ab,"; "abcdef"; "gh-ij-"; "k xyz"]%string) as R by (vm_compute; reflexivity).
    rewrite (pen_run _ _ _ H3) in R. destruct (leftAlignUniform _ _ _ _ _ _ _) as [[[ls|] lb']|]; cbn [gbind fst] in R; try discriminate R.
    exists lb'. injection R as ->. reflexivity. }
  destruct (penalty_same B BL ascii exOpts (n 300) p exM exPunct pairs _ _ _ _ _ _ _ _ _ K1 K2 Hf _ _ E) as (ord & lb2 & Ho & E2).
  exists ord. split; [exact Ho|]. rewrite (pen_run _ _ _ Hp), E2. reflexivity.
Qed.
Print Assumptions C88_penalty_refuted.
(** What holds: the value of the penalty makes no difference at all, but for 10000. Each result with a penalty is a result
    with the other one, for some iteration order of the map *)
Theorem C88_penalty_partial : forall A L u opts p1 p2 m punct parts tokens maxWidth W lb1 spare1 ord1 lb2 spare2 ord2,
  plainCall A L u (newWith A u opts (WithHyphenPenalty p1)) m punct parts lb1 tokens spare1 maxWidth W ord1 ->
  plainCall A L u (newWith A u opts (WithHyphenPenalty p2)) m punct parts lb2 tokens spare2 maxWidth W ord2 ->
  feq A p1 (fZ A 10000) = feq A p2 (fZ A 10000) ->
  forall ls lb1', leftAlignUniform A u ord1 spare1 lb1 tokens maxWidth = Ret (Some ls, lb1') ->
  exists ord lb2', (forall i k, Permutation (ord i k) [C0; C1; C2; C3]) /\
    leftAlignUniform A u ord spare2 lb2 tokens maxWidth = Ret (Some ls, lb2').
Proof. exact penalty_same. Qed.
Print Assumptions C88_penalty_partial.
Example C88_ex_call z w k : 0 < z <= 2 ^ 30 -> z <> 200 -> z <> 400 -> 0 < w <= 2 ^ 30 ->
  plainCall B BL ascii (newWith B ascii exOpts (WithHyphenPenalty (n z))) exM exPunct pairs (breakerOf (newWith B ascii exOpts (WithHyphenPenalty (n z))))
    (map txt exTokens) (fun _ => []) (n w) (1 * w) (from k).
Proof. intros H H2 H4 Hw. apply pen_call; [now apply int_penalty|exact Hw]. Qed.

(** C89: the penalty 10000 forbids hyphenation. No line gets a hyphen, and each one but the last ends with a mark, with a
    hyphen of the text or at the end of a token *)
Theorem C89_infinite_penalty : forall A L u o m punct parts lb tokens spare maxWidth W ord,
  plainCall A L u o m punct parts lb tokens spare maxWidth W ord -> feq A (l_hyphenPenalty o) (fZ A 10000) = true ->
  forall ls lb', leftAlignUniform A u ord spare lb tokens maxWidth = Ret (Some ls, lb') ->
  reflow false (joinWith 32 tokens) ls /\
  exists segs, ls = map (lineText false) segs /\ concat segs = fragsOf u o punct parts tokens /\
    forall pre s post, segs = pre ++ s :: post -> post <> [] -> exists l f, s = l ++ [f] /\
      ((exists r, f_text f = [r] /\ (punctSplitFunc u r = true \/ isHyphenRune r = true)) \/ f_joint f = Space).
Proof. exact penalty_infinite. Qed.
Print Assumptions C89_infinite_penalty.
Example C89_ex : feq B (l_hyphenPenalty (newWith B ascii exOpts (WithHyphenPenalty (n 10000)))) (fZ B 10000) = true /\
  okPenalty B BL (n 10000) /\
  run (exOpts ++ [WithHyphenPenalty (n 10000)]) (from 0) exTokens (n 6) = lines ["ab,"; "abcdef"; "gh-ijk"; "xyz"]%string /\
  run (exOpts ++ [WithHyphenPenalty (n 10000)]) (from 0) exTokens (n 5) = Ret None.
Proof. split; [vm_compute; reflexivity|]. split; [apply int_penalty; lia|]. split; vm_compute; reflexivity. Qed.

(** C90: a looseness of 1 makes for one line more, when it is possible. It is ignored: here 3 lines are possible, each within
    the tolerance *)
Definition threeFrags : list frag := [mkFrag (txt "a") false Space; mkFrag (txt "b") false Space; mkFrag (txt "cd") false End_].
Theorem C90_looseness_refuted : exists tokens w,
  run [WithWordBreak false] (from 0) tokens (n w) = lines ["a"; "b cd"]%string /\
  run [WithWordBreak false; WithLooseness 1] (from 0) tokens (n w) = lines ["a"; "b cd"]%string /\
  run [WithWordBreak false; WithLooseness (-1)] (from 0) tokens (n w) = lines ["a"; "b cd"]%string /\
  (let o := withOptions B (defaultHyphenator ascii) (defaultPunctuator ascii) [WithWordBreak false; WithLooseness 1] in
  fragsOf ascii o exPunct pairs (map txt tokens) = threeFrags /\ layout true threeFrags (map (fun f => [f]) threeFrags) /\
  linesOk true exM 1 1 B (k_tolerance (l_search o)) (1 * w) true (map (fun f => [f]) threeFrags) = true).
Proof.
  exists ["a"; "b"; "cd"]%string, 4. do 3 (split; [vm_compute; reflexivity|]). cbv zeta. split; [vm_compute; reflexivity|]. split; [|vm_compute; reflexivity].
  apply (lay_cut true [] (mkFrag (txt "a") false Space)); [reflexivity|]. apply (lay_cut true [] (mkFrag (txt "b") false Space)); [reflexivity|].
  apply lay_last. discriminate.
Qed.
Print Assumptions C90_looseness_refuted.
Theorem C90_looseness_partial : forall A u opts1 q opts2,
  newLineBreaker A u (opts1 ++ WithLooseness q :: opts2) = newLineBreaker A u (opts1 ++ opts2).
Proof. exact looseness_ignored. Qed.
Print Assumptions C90_looseness_partial.

(** C91: a result has no more lines than another possible layout of the same text. Here the text can be set on 3 lines, even
    without breaking words, and gets 4 *)
Theorem C91_fewest_refuted : exists tokens w,
  run (exOpts ++ [WithWordBreak false]) (from 2) tokens (n w) = lines ["one"; "abcdefgh"; "xyz"]%string /\
  run exOpts (from 0) tokens (n w) = lines ["one"; "abcd-"; "efgh xyz"]%string /\
  run exOpts (from 2) tokens (n w) = lines ["one"; "ab-"; "cd-"; "efgh xyz"]%string.
Proof. exists ["one"; "abcdefgh"; "xyz"]%string, 8. repeat split; vm_compute; reflexivity. Qed.
Print Assumptions C91_fewest_refuted.

(** C50, for widths above 4997: with the default tolerance, the single line is returned for some iteration order exactly if
    the text fits and leaves at most 86000 columns *)
Theorem C50_some_order_partial : forall A L u o m punct parts lb tokens spare maxWidth W ord,
  plainCall A L u o m punct parts lb tokens spare maxWidth W ord ->
  k_tolerance (l_search o) = fTolerance A -> (forall a b, m (a ++ b) = m a + m b) ->
  (m (joinWith 32 tokens) <= W <= m (joinWith 32 tokens) + 86000 <->
   exists ord' lb', (forall i k, Permutation (ord' i k) [C0; C1; C2; C3]) /\
     leftAlignUniform A u ord' spare lb tokens maxWidth = Ret (Some [joinWith 32 tokens], lb')).
Proof. exact one_line_exact. Qed.
Print Assumptions C50_some_order_partial.
(** The text of [C50_wide_line_refuted], with another order *)
Example C50_some_order_ex : k_tolerance (l_search exO) = fTolerance B /\
  (let! lb := newLineBreaker B ascii [WithWordBreak false] in
   let! x := leftAlignUniform B ascii (from 0) (fun _ => []) lb [wide; txt "b"] (n 6000) in Ret (fst x)) = Ret (Some [joinWith 32 [wide; txt "b"]]).
Proof. split; [reflexivity|vm_compute; reflexivity]. Qed.
