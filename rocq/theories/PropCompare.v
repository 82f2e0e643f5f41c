(** C83-C86: LeftAlignUniform with two settings. Which changes of an option, or of the width, keep a text possible to set?
    [newWith A u opts opt] (Compare.v): the options of New(opts..., opt). *)
From Coq Require Import String Ascii.
From Verif Require Import Base Arith ArithB64 Unicode Split SpecSplit SpecAnsi Hyph Nodes KP Render SpecKP Align Options Call Settings
  AlignProofs Reuse Fresh Succeed Compare PropAlign.
Open Scope Z_scope.

(** ** The hypotheses of the theorems are met: the tokens [exTokens], any width, any of the options compared *)
Definition changes (opts : list (lbOption B)) : Prop := Forall (fun opt => match opt with
  | WithTolerance t => fle B (fZ B 10000) t = false | WithHyphenPenalty p => okPenalty B BL p
  | WithWordBreak _ | WithRenderHyphens _ => True | _ => False end) opts.
Definition ofOpts (opts : list (lbOption B)) : lopts B := withOptions B (defaultHyphenator ascii) (defaultPunctuator ascii) (exOpts ++ opts).
Definition breakerOf (o : lopts B) : breaker B := match newBreaker B o with Ret lb => lb | Panic => mkBreaker o (n 0) (n 0) [] end.
Lemma changes_same opts : forall o, changes opts -> fle B (fZ B 10000) (k_tolerance (l_search o)) = false -> okPenalty B BL (l_hyphenPenalty o) ->
  let o' := fold_left (applyOption B (defaultHyphenator ascii) (defaultPunctuator ascii)) opts o in
  fle B (fZ B 10000) (k_tolerance (l_search o')) = false /\ l_scale o' = l_scale o /\ l_measurer o' = l_measurer o /\
  l_punctuator o' = l_punctuator o /\ l_hyphenator o' = l_hyphenator o /\ okPenalty B BL (l_hyphenPenalty o').
Proof.
  induction opts as [|opt opts IH]; intros o H Ht Hp.
  { cbn [fold_left]. cbv zeta. split; [exact Ht|]. do 4 (split; [reflexivity|]). exact Hp. }
  inversion H as [|? ? H1 H2]; subst. cbn [fold_left]. cbv zeta.
  set (o1 := applyOption B (defaultHyphenator ascii) (defaultPunctuator ascii) o opt).
  assert (fle B (fZ B 10000) (k_tolerance (l_search o1)) = false /\ l_scale o1 = l_scale o /\ l_measurer o1 = l_measurer o /\
    l_punctuator o1 = l_punctuator o /\ l_hyphenator o1 = l_hyphenator o /\ okPenalty B BL (l_hyphenPenalty o1)) as (E1 & E2 & E3 & E4 & E5 & E6).
  { subst o1. destruct o as [[tol bad li fl fi] ms sc wb rh hp hh pp h p mi gl], opt; try contradiction; (split; [assumption|]); do 4 (split; [reflexivity|]); assumption. }
  destruct (IH o1 H2 E1 E6) as (F1 & F2 & F3 & F4 & F5 & F6). rewrite F2, F3, F4, F5. repeat (split; [assumption|]). exact F6.
Qed.
Lemma ex_penalty : okPenalty B BL (l_hyphenPenalty exO).
Proof. destruct (default_reached B BL ascii) as [_ _ _ _ _ H]. exact H. Qed.
Lemma cmp_settings opts : changes opts -> settings B BL ascii (ofOpts opts) exM exPunct pairs.
Proof.
  intros H. destruct (changes_same opts exO H (tol_inf B BL) ex_penalty) as (E1 & E2 & E3 & E4 & E5 & E6).
  assert (ofOpts opts = fold_left (applyOption B (defaultHyphenator ascii) (defaultPunctuator ascii)) opts exO) as E
    by (unfold ofOpts, exO, withOptions; now rewrite fold_left_app).
  rewrite <- E in E1, E2, E3, E4, E5, E6.
  apply (make_settings B BL ascii (exOpts ++ opts) (fun n => 1 * n) cols); fold (ofOpts opts).
  - exact E1.
  - rewrite E2. apply scaling_int; [lia|]. apply (rep_Z B BL). unfold exactZ. lia.
  - rewrite E3. apply default_measures.
  - vm_compute. reflexivity.
  - vm_compute. discriminate.
  - rewrite E4. apply default_punctuator.
  - rewrite E5. apply byTwo_cuts.
  - exact E6.
Qed.
Lemma cmp_call opts w k : changes opts -> 0 < w <= 2 ^ 30 ->
  plainCall B BL ascii (ofOpts opts) exM exPunct pairs (breakerOf (ofOpts opts)) (map txt exTokens) (fun _ => []) (n w) (1 * w) (from k).
Proof.
  intros H Hw. pose proof (cmp_settings opts H) as S. apply make_call; [exact S| |exact ex_plain| | | | |lia|apply from_all].
  - destruct (settings_new B BL ascii _ exM exPunct pairs S) as (sp & hy & E & _). apply us_new. unfold breakerOf. rewrite E. reflexivity.
  - split; [discriminate|]. repeat constructor; discriminate.
  - intros a b. unfold exM. rewrite cols_app. lia.
  - vm_compute. discriminate.
  - destruct (changes_same opts exO H (tol_inf B BL) ex_penalty) as (_ & E2 & _).
    apply scaled_width with (k := 1) (n := w); [|lia|apply (rep_Z B BL); unfold exactZ; lia|lia|lia].
    assert (l_scale (ofOpts opts) = l_scale exO) as -> by (unfold ofOpts, withOptions; rewrite fold_left_app; exact E2).
    apply (rep_Z B BL). unfold exactZ. lia.
Qed.

(** ** Theorems *)

(** C83: a text that can be set with tolerance [t1] can be set with any greater tolerance, whatever the other options, the
    earlier calls and the iteration orders *)
Theorem C83_tolerance : forall A L u opts t1 t2 m punct parts tokens maxWidth W lb1 spare1 ord1 lb2 spare2 ord2,
  plainCall A L u (newWith A u opts (WithTolerance t1)) m punct parts lb1 tokens spare1 maxWidth W ord1 ->
  plainCall A L u (newWith A u opts (WithTolerance t2)) m punct parts lb2 tokens spare2 maxWidth W ord2 ->
  fle A t1 t2 = true -> forall ls lb1', leftAlignUniform A u ord1 spare1 lb1 tokens maxWidth = Ret (Some ls, lb1') ->
  exists ls2 lb2', leftAlignUniform A u ord2 spare2 lb2 tokens maxWidth = Ret (Some ls2, lb2').
Proof. exact align_tolerance. Qed.
Print Assumptions C83_tolerance.
Example C83_ex_call t w k : fle B (fZ B 10000) t = false -> 0 < w <= 2 ^ 30 -> exists lb,
  plainCall B BL ascii (newWith B ascii exOpts (WithTolerance t)) exM exPunct pairs lb (map txt exTokens) (fun _ => []) (n w) (1 * w) (from k).
Proof. intros Ht Hw. eexists. apply (cmp_call [WithTolerance t]); [repeat constructor; exact Ht|exact Hw]. Qed.
(** with tolerance 0 the last line may not be short; with tolerance 1 it may *)
Example C83_ex : run [WithWordBreak false; WithTolerance (n 0)] (from 0) ["ab"; "abcde"; "xyz"]%string (n 8) = Ret None /\
  run [WithWordBreak false; WithTolerance (n 1)] (from 0) ["ab"; "abcde"; "xyz"]%string (n 8) = lines ["ab abcde"; "xyz"]%string /\
  run [WithWordBreak false; WithTolerance (n 9999)] (from 0) ["ab"; "abcde"; "xyz"]%string (n 8) = lines ["ab abcde"; "xyz"]%string.
Proof. repeat split; vm_compute; reflexivity. Qed.

(** C84, for every text: allowing words to be broken never makes a text impossible to set *)
Definition C84_wordbreak : Prop := forall A L u opts m punct parts tokens maxWidth W lb1 spare1 ord1 lb2 spare2 ord2,
  plainCall A L u (newWith A u opts (WithWordBreak false)) m punct parts lb1 tokens spare1 maxWidth W ord1 ->
  plainCall A L u (newWith A u opts (WithWordBreak true)) m punct parts lb2 tokens spare2 maxWidth W ord2 ->
  forall ls lb1', leftAlignUniform A u ord1 spare1 lb1 tokens maxWidth = Ret (Some ls, lb1') ->
  exists ls2 lb2', leftAlignUniform A u ord2 spare2 lb2 tokens maxWidth = Ret (Some ls2, lb2').
(** A token that starts with a hyphen counts as a mark when words may be broken, and a line that starts with a mark
    has no stretch. *)
Theorem C84_wordbreak_refuted : exists tokens w,
  run [WithWordBreak false] (from 0) tokens (n w) = lines tokens /\ run [WithWordBreak true] (from 0) tokens (n w) = Ret None.
Proof. exists ["aaaaaa"; "-bbbb"; "cccccc"]%string, 6. split; vm_compute; reflexivity. Qed.
Print Assumptions C84_wordbreak_refuted.
(** What holds: for widths that add up, when no piece of the tokens, except the first, starts with a hyphen *)
Theorem C84_wordbreak_partial : forall A L u opts m punct parts tokens maxWidth W lb1 spare1 ord1 lb2 spare2 ord2,
  plainCall A L u (newWith A u opts (WithWordBreak false)) m punct parts lb1 tokens spare1 maxWidth W ord1 ->
  plainCall A L u (newWith A u opts (WithWordBreak true)) m punct parts lb2 tokens spare2 maxWidth W ord2 ->
  (forall a b, m (a ++ b) = m a + m b) -> hyphenFree punct tokens ->
  forall ls lb1', leftAlignUniform A u ord1 spare1 lb1 tokens maxWidth = Ret (Some ls, lb1') ->
  exists ls2 lb2', leftAlignUniform A u ord2 spare2 lb2 tokens maxWidth = Ret (Some ls2, lb2').
Proof. exact align_wordbreak. Qed.
Print Assumptions C84_wordbreak_partial.
Example C84_ex_call b w k : 0 < w <= 2 ^ 30 -> (exists lb,
  plainCall B BL ascii (newWith B ascii exOpts (WithWordBreak b)) exM exPunct pairs lb (map txt exTokens) (fun _ => []) (n w) (1 * w) (from k)) /\
  (forall a b, exM (a ++ b) = exM a + exM b) /\ hyphenFree exPunct (map txt exTokens).
Proof.
  intros Hw. split; [|split].
  - eexists. apply (cmp_call [WithWordBreak b]); [repeat constructor|exact Hw].
  - intros x y. unfold exM. rewrite cols_app. lia.
  - intros r t H. vm_compute in H. repeat destruct H as [H|H]; inversion H; reflexivity.
Qed.
Example C84_ex : run [WithHyphenator (Some byTwo); WithWordBreak false] (from 0) exTokens (n 6) = lines ["ab,"; "abcdef"; "gh-ijk"; "xyz"]%string /\
  run [WithHyphenator (Some byTwo); WithWordBreak true] (from 0) exTokens (n 6) = lines ["ab,"; "abcdef"; "gh-ij-"; "k xyz"]%string.
Proof. split; vm_compute; reflexivity. Qed.

(** C85, for every text and widths: a text that fits a narrow column fits a wider one *)
Definition C85_wider : Prop := forall A L u o m punct parts tokens w1 w2 W1 W2 lb1 spare1 ord1 lb2 spare2 ord2,
  plainCall A L u o m punct parts lb1 tokens spare1 w1 W1 ord1 ->
  plainCall A L u o m punct parts lb2 tokens spare2 w2 W2 ord2 -> W1 <= W2 ->
  forall ls lb1', leftAlignUniform A u ord1 spare1 lb1 tokens w1 = Ret (Some ls, lb1') ->
  exists ls2 lb2', leftAlignUniform A u ord2 spare2 lb2 tokens w2 = Ret (Some ls2, lb2').
(** Already at 118 columns, with the default tolerance *)
Definition sixty (c : Ascii.ascii) : string := string_of_list_ascii (repeat c 60).
Theorem C85_wider_refuted : exists tokens w1 w2, w1 < w2 /\
  (exists ls, run [WithWordBreak false] (from 0) tokens (n w1) = Ret (Some ls)) /\ run [WithWordBreak false] (from 0) tokens (n w2) = Ret None.
Proof.
  exists [sixty "a"; "bbbbb"; sixty "c"]%string, 66, 118. split; [reflexivity|]. split; [eexists|]; vm_compute; reflexivity.
Qed.
Print Assumptions C85_wider_refuted.
(** What holds: with the default tolerance, for a narrow column (a width and a space of at most 52) and any wider one of up to
    85948, when no mark comes just after a place where the line can be cut, and hyphens are rendered or words not broken *)
Theorem C85_wider_partial : forall A L u o m punct parts tokens w1 w2 W1 W2 lb1 spare1 ord1 lb2 spare2 ord2,
  plainCall A L u o m punct parts lb1 tokens spare1 w1 W1 ord1 ->
  plainCall A L u o m punct parts lb2 tokens spare2 w2 W2 ord2 ->
  k_tolerance (l_search o) = fTolerance A -> l_renderHyphens o = true \/ l_wordBreak o = false ->
  marksGlued (negb (feq A (l_hyphenPenalty o) (fZ A 10000))) (fragsOf u o punct parts tokens) ->
  W1 + m [32] <= 52 -> W1 <= W2 <= 85948 ->
  forall ls lb1', leftAlignUniform A u ord1 spare1 lb1 tokens w1 = Ret (Some ls, lb1') ->
  exists ls2 lb2', leftAlignUniform A u ord2 spare2 lb2 tokens w2 = Ret (Some ls2, lb2').
Proof. exact align_wider. Qed.
Print Assumptions C85_wider_partial.
Example C85_ex_call w1 w2 k : 0 < w1 <= 51 -> w1 <= w2 <= 85948 ->
  plainCall B BL ascii exO exM exPunct pairs exB (map txt exTokens) (fun _ => []) (n w1) (1 * w1) (from k) /\
  plainCall B BL ascii exO exM exPunct pairs exB (map txt exTokens) (fun _ => []) (n w2) (1 * w2) (from k) /\
  k_tolerance (l_search exO) = fTolerance B /\ l_renderHyphens exO = true /\
  marksGlued (negb (feq B (l_hyphenPenalty exO) (fZ B 10000))) (fragsOf ascii exO exPunct pairs (map txt exTokens)) /\
  1 * w1 + exM [32] <= 52 /\ 1 * w1 <= 1 * w2 <= 85948.
Proof.
  intros H1 H2. split; [apply ex_call; lia|]. split; [apply ex_call; lia|]. split; [reflexivity|]. split; [reflexivity|]. split.
  - apply marksGluedb_ok. vm_compute. reflexivity.
  - change (exM [32]) with 1. lia.
Qed.

(** C86, for every text: not printing the hyphens, which leaves more room, never makes a text impossible to set *)
Definition C86_hyphens : Prop := forall A L u opts m punct parts tokens maxWidth W lb1 spare1 ord1 lb2 spare2 ord2,
  plainCall A L u (newWith A u opts (WithRenderHyphens true)) m punct parts lb1 tokens spare1 maxWidth W ord1 ->
  plainCall A L u (newWith A u opts (WithRenderHyphens false)) m punct parts lb2 tokens spare2 maxWidth W ord2 ->
  forall ls lb1', leftAlignUniform A u ord1 spare1 lb1 tokens maxWidth = Ret (Some ls, lb1') ->
  exists ls2 lb2', leftAlignUniform A u ord2 spare2 lb2 tokens maxWidth = Ret (Some ls2, lb2').
(** A line cut inside a word has some stretch only when its hyphen is printed *)
Theorem C86_hyphens_refuted : exists opts tokens w,
  run (opts ++ [WithRenderHyphens true]) (from 0) tokens (n w) = lines ["ab-"; "cdef"]%string /\
  run (opts ++ [WithRenderHyphens false]) (from 0) tokens (n w) = Ret None.
Proof. exists exOpts, ["abcdef"]%string, 5. split; vm_compute; reflexivity. Qed.
Print Assumptions C86_hyphens_refuted.
(** What holds: when words are not broken, printing hyphens or not makes no difference *)
Theorem C86_hyphens_partial : forall A L u opts b1 b2 m punct parts tokens maxWidth W lb1 spare1 ord1 lb2 spare2 ord2,
  let o b := newWith A u (opts ++ [WithWordBreak false]) (WithRenderHyphens b) in
  plainCall A L u (o b1) m punct parts lb1 tokens spare1 maxWidth W ord1 ->
  plainCall A L u (o b2) m punct parts lb2 tokens spare2 maxWidth W ord2 ->
  forall ls lb1', leftAlignUniform A u ord1 spare1 lb1 tokens maxWidth = Ret (Some ls, lb1') ->
  exists ls2 lb2', leftAlignUniform A u ord2 spare2 lb2 tokens maxWidth = Ret (Some ls2, lb2').
Proof. exact align_hyphens. Qed.
Print Assumptions C86_hyphens_partial.
(** and when no line set with hyphens ends with one *)
Theorem C86_unhyphenated_partial : forall A L u opts m punct parts tokens maxWidth W lb1 spare1 ord1 lb2 spare2 ord2,
  plainCall A L u (newWith A u opts (WithRenderHyphens true)) m punct parts lb1 tokens spare1 maxWidth W ord1 ->
  plainCall A L u (newWith A u opts (WithRenderHyphens false)) m punct parts lb2 tokens spare2 maxWidth W ord2 ->
  forall ls lb1', leftAlignUniform A u ord1 spare1 lb1 tokens maxWidth = Ret (Some ls, lb1') -> Forall (fun l => last l 0 <> 45) ls ->
  exists ls2 lb2', leftAlignUniform A u ord2 spare2 lb2 tokens maxWidth = Ret (Some ls2, lb2').
Proof. exact align_uncut. Qed.
Print Assumptions C86_unhyphenated_partial.
Example C86_ex_unhyphenated b w k : 0 < w <= 2 ^ 30 -> exists lb,
  plainCall B BL ascii (newWith B ascii exOpts (WithRenderHyphens b)) exM exPunct pairs lb (map txt exTokens) (fun _ => [])
    (n w) (1 * w) (from k).
Proof. intros Hw. eexists. apply (cmp_call [WithRenderHyphens b]); [repeat constructor|exact Hw]. Qed.
Example C86_ex_lines : run (exOpts ++ [WithRenderHyphens true]) (from 0) ["good"; "dogs"]%string (n 5) = lines ["good"; "dogs"]%string /\
  run (exOpts ++ [WithRenderHyphens false]) (from 0) ["good"; "dogs"]%string (n 5) = lines ["good"; "dogs"]%string.
Proof. split; vm_compute; reflexivity. Qed.
Example C86_ex_call b w k : 0 < w <= 2 ^ 30 -> exists lb,
  plainCall B BL ascii (newWith B ascii (exOpts ++ [WithWordBreak false]) (WithRenderHyphens b)) exM exPunct pairs lb (map txt exTokens) (fun _ => [])
    (n w) (1 * w) (from k).
Proof. intros Hw. eexists. apply (cmp_call [WithWordBreak false; WithRenderHyphens b]); [repeat constructor|exact Hw]. Qed.
