(** C44-C59, C62, C63: LeftAlignUniform. [plainCall] (Call.v): a call on non-empty tokens without escape sequences, with any
    permissible options, on a line breaker with any history of such calls, for every iteration order of the map of
    candidates. [options_call] shows that every call after New with permissible options is one. The theorems hold for every
    arithmetic with the [laws] of Arith.v, binary64 being one. The [_refuted] ones are computed on binary64. *)
From Coq Require Import String Ascii QArith Reals Lra.
From Flocq Require Import Core BinarySingleNaN.
From Verif Require Import Base Arith ArithB64 Unicode Split SpecSplit SpecAnsi Hyph Nodes KP Render SpecKP SpecDemerits Align Options Call Settings
  AlignProofs Reuse Fresh ScaleB64 Succeed Words.
Open Scope Z_scope.

(** ** Setting of the examples *)
Definition ascii : unicode := mkUnicode (fun _ => false) (fun r => r =? 44) (fun r => r).
Definition B : arith := b64 mulPow.
Definition BL : laws B := b64_laws mulPow mulPow_ok.
Fixpoint txt (s : string) : list rune :=
  match s with EmptyString => [] | String c s' => Z.of_nat (nat_of_ascii c) :: txt s' end.
(** the map of candidates is iterated from its k-th class on *)
Definition from (k : nat) : nat -> nat -> list fclass :=
  fun _ _ => match k with 0%nat => [C0;C1;C2;C3] | 1%nat => [C1;C2;C3;C0] | 2%nat => [C2;C3;C0;C1] | _ => [C3;C0;C1;C2] end.
Lemma from_all k i j c : In c (from k i j).
Proof. destruct k as [|[|[|k]]], c; cbn; tauto. Qed.
(** New(opts...) then LeftAlignUniform(tokens, width) *)
Definition run (opts : list (lbOption B)) (ord : nat -> nat -> list fclass) (tokens : list string) (width : F B)
  : go (option (list (list rune))) :=
  let! lb := newLineBreaker B ascii opts in
  let! x := leftAlignUniform B ascii ord (fun _ => []) lb (map txt tokens) width in
  Ret (fst x).
Definition lines (l : list string) : go (option (list (list rune))) := Ret (Some (map txt l)).
Definition n (z : Z) : F B := fZ B z.
(** a hyphenator that cuts words in parts of two runes *)
Fixpoint pairs (w : list rune) : list (list rune) :=
  match w with [] => [] | [a] => [[a]] | a :: b :: w' => [a; b] :: pairs w' end.
Definition byTwo : splitFunc := fun w => Ret (pairs w).
Lemma pairs_ok k : forall w, (length w <= k)%nat -> concat (pairs w) = w /\ Forall (fun p => p <> []) (pairs w).
Proof.
  induction k as [|k IH]; intros w Hw.
  - destruct w; [split; [reflexivity|constructor]|cbn in Hw; lia].
  - destruct w as [|a [|b w]]; [split; [reflexivity|constructor]|split; [reflexivity|repeat constructor; discriminate]|].
    cbn [length] in Hw. destruct (IH w) as [H1 H2]; [lia|]. cbn [pairs concat app]. rewrite H1. split; [reflexivity|]. constructor; [discriminate|exact H2].
Qed.
Lemma byTwo_cuts : cuts byTwo pairs.
Proof. intros w _. split; [reflexivity|]. now apply (pairs_ok (length w)). Qed.

Definition exOpts : list (lbOption B) := [WithHyphenator (Some byTwo)].
Definition exO : lopts B := withOptions B (defaultHyphenator ascii) (defaultPunctuator ascii) exOpts.
Definition exTokens : list string := ["ab,"; "abcdef"; "gh-ijk"; "xyz"]%string.
Definition exM (t : list rune) : Z := 1 * cols t.
Definition exPunct := splitAt (punctSplitFunc ascii).
Example ex_settings : settings B BL ascii exO exM exPunct pairs.
Proof.
  apply (make_settings B BL ascii exOpts (fun n => 1 * n) cols).
  - apply (tol_inf B BL).
  - apply scaling_int; [lia|]. apply (rep_Z B BL). unfold exactZ. lia.
  - apply default_measures.
  - vm_compute. reflexivity.
  - vm_compute. discriminate.
  - apply default_punctuator.
  - apply byTwo_cuts.
  - destruct (default_reached B BL ascii) as [_ _ _ _ _ H]. exact H.
Qed.
Definition exB : breaker B := match newBreaker B exO with Ret lb => lb | Panic => mkBreaker exO (n 0) (n 0) [] end.
Lemma ex_usable : usable B ascii exO exB.
Proof.
  destruct (settings_new B BL ascii exO exM exPunct pairs ex_settings) as (sp & hy & E & _). apply us_new. unfold exB. rewrite E. reflexivity.
Qed.
Lemma plain_check ts : forallb (fun t => forallb (fun r => (0 <=? r) && (r <=? 0x10ffff) && negb (r =? 27)) t && (zlen t <? 1000)) ts = true ->
  plainTokens ts (fun _ => []).
Proof.
  rewrite forallb_forall. intros H. split.
  - apply Forall_forall. intros t Ht. specialize (H t Ht). apply andb_prop in H. destruct H as [H _]. rewrite forallb_forall in H. split.
    + intros (pre & post & ->). specialize (H 27). discriminate H. apply in_or_app. right. now left.
    + apply Forall_forall. intros r Hr. specialize (H r Hr). unfold okRune. lia.
  - intros j t E. apply nth_error_In in E. specialize (H t E). apply andb_prop in H. destruct H as [_ H]. apply Z.ltb_lt in H. cbn beta. rewrite app_nil_r. eapply Z.lt_trans; [exact H|reflexivity].
Qed.
Lemma ex_plain : plainTokens (map txt exTokens) (fun _ => []).
Proof. apply plain_check. vm_compute. reflexivity. Qed.
(** the hypothesis of the theorems below, for every integral width *)
Example ex_call w k : 0 < w <= 2 ^ 30 ->
  plainCall B BL ascii exO exM exPunct pairs exB (map txt exTokens) (fun _ => []) (n w) (1 * w) (from k).
Proof.
  intros Hw. apply make_call; [exact ex_settings|exact ex_usable|exact ex_plain| | | | |lia|apply from_all].
  - split; [discriminate|]. repeat constructor; discriminate.
  - intros a b. unfold exM. rewrite cols_app. lia.
  - vm_compute. discriminate.
  - apply scaled_width with (k := 1) (n := w); [apply (rep_Z B BL); unfold exactZ; lia|lia|apply (rep_Z B BL); unfold exactZ; lia|lia|lia].
Qed.
Example ex_run : run exOpts (from 0) exTokens (n 6) = lines ["ab,"; "abcdef"; "gh-ij-"; "k xyz"]%string /\
  run exOpts (from 0) exTokens (n 5) = lines ["ab,"; "ab-"; "cdef"; "gh-"; "ij-"; "k xyz"]%string /\
  run exOpts (from 0) exTokens (n 30) = lines ["ab, abcdef gh-ijk xyz"]%string /\
  run exOpts (from 0) exTokens (n 2) = Ret None.
Proof. repeat split; vm_compute; reflexivity. Qed.
Definition five : list string := ["aaaa"; "bbbb"; "cccc"; "dddd"; "eeee"]%string.

(** ** Theorems *)

(** C63: New does not panic, and its line breakers are those of the theorems *)
Theorem C63_new_works : forall (A : arith) (L : laws A) (u : unicode) (opts : list (lbOption A)), Forall (okOption A L) opts ->
  let o := withOptions A (defaultHyphenator u) (defaultPunctuator u) opts in
  exists lb0, newLineBreaker A u opts = Ret lb0 /\ usable A u o lb0 /\
  exists sc mz punct parts, scaling A L (l_scale o) sc /\ measures A L (l_measurer o) mz /\
    forall lb tokens spare maxWidth n ord, usable A u o lb -> plainTokens tokens spare -> tokens <> [] /\ Forall (fun t => t <> []) tokens ->
      mz (joinWith 32 tokens) <= 2 ^ 30 -> rep A L maxWidth n -> 0 < n <= 2 ^ 30 -> (forall i k c, In c (ord i k)) ->
      plainCall A L u o (fun t => sc (mz t)) punct parts lb tokens spare maxWidth (sc n) ord.
Proof. exact options_call. Qed.
Print Assumptions C63_new_works.
(** Permissible scale factors (option [WithScaleFactor]): the integers up to 2^20 and, on binary64, every number above 2/3 and
    up to 2^19. A width n becomes [scaleBy s n], the rounded product. *)
Theorem C63_integral_scale : forall A L x k, 1 <= k <= 2 ^ 20 -> rep A L x k -> scaling A L x (fun n => k * n).
Proof. exact scaling_int. Qed.
Print Assumptions C63_integral_scale.
Theorem C63_real_scale : forall (s : binary64), is_finite s = true -> (2 / 3 < B2R s <= bpow radix2 19)%R ->
  forall pow (Hp : powOk pow), scaling (b64 pow) (b64_laws pow Hp) s (scaleBy s).
Proof. exact scaling_b64. Qed.
Print Assumptions C63_real_scale.
(** 7/5 *)
Definition sevenFifths : F B := fdiv B (n 7) (n 5).
Lemma sevenFifths_scaling : scaling B BL sevenFifths (scaleBy sevenFifths).
Proof.
  destruct (quo 7 5) as [H1 H2]; [lia|lia|]. apply C63_real_scale; [exact H1|]. change sevenFifths with (bdiv (ofInt 7) (ofInt 5)). rewrite H2. split.
  - apply (Rlt_le_trans _ 1)%R; [lra|]. apply ge_rnd; [apply (fmt_Z 1); split; vm_compute; discriminate|lra].
  - apply le_rnd; [apply fmt_bpow; lia|]. cbn. lra.
Qed.
Example C63_ex : Forall (okOption B BL) [WithScaleFactor (n 3); WithHyphenator (Some byTwo); WithTolerance (n 20); WithRenderHyphens false;
  WithScaleFactor sevenFifths].
Proof.
  repeat apply Forall_cons; try apply Forall_nil; cbn [okOption].
  - exists (fun x => 3 * x). apply scaling_int; [lia|]. apply (rep_Z B BL). unfold exactZ. lia.
  - exists pairs. exact byTwo_cuts.
  - vm_compute. reflexivity.
  - exact I.
  - exists (scaleBy sevenFifths). exact sevenFifths_scaling.
Qed.

(** C44 *)
Theorem C44_reflow : forall A L u o m punct parts lb tokens spare maxWidth W ord,
  plainCall A L u o m punct parts lb tokens spare maxWidth W ord -> forall ls lb',
  leftAlignUniform A u ord spare lb tokens maxWidth = Ret (Some ls, lb') ->
  reflow (l_renderHyphens o) (joinWith 32 tokens) ls.
Proof. exact align_reflow. Qed.
Print Assumptions C44_reflow.
Example C44_ex : reflow true (joinWith 32 (map txt exTokens)) (map txt ["ab,"; "abcdef"; "gh-ij-"; "k xyz"]%string).
Proof.
  apply (rf_space _ (txt "ab,")); [discriminate|]. apply (rf_space _ (txt "abcdef")); [discriminate|].
  apply (rf_hyphen _ (txt "gh-ij")); [reflexivity|discriminate|]. constructor. discriminate.
Qed.

(** C45 *)
Theorem C45_width_partial : forall A L u o m punct parts lb tokens spare maxWidth W ord,
  plainCall A L u o m punct parts lb tokens spare maxWidth W ord -> (forall a b, m (a ++ b) = m a + m b) -> forall ls lb',
  leftAlignUniform A u ord spare lb tokens maxWidth = Ret (Some ls, lb') -> Forall (fun l => m l <= W) ls.
Proof. exact align_width. Qed.
Print Assumptions C45_width_partial.
(** in the units of the measurer, with an integral scale factor *)
Theorem C45_width_unscaled_partial : forall A L u opts k, Forall (okOption A L) opts ->
  let o := withOptions A (defaultHyphenator u) (defaultPunctuator u) opts in
  1 <= k <= 2 ^ 20 -> rep A L (l_scale o) k ->
  exists mz, measures A L (l_measurer o) mz /\
  forall lb tokens spare maxWidth n ord ls lb', usable A u o lb -> plainTokens tokens spare -> tokens <> [] /\ Forall (fun t => t <> []) tokens ->
    mz (joinWith 32 tokens) <= 2 ^ 30 -> rep A L maxWidth n -> 0 < n <= 2 ^ 30 -> (forall i k c, In c (ord i k)) ->
    leftAlignUniform A u ord spare lb tokens maxWidth = Ret (Some ls, lb') -> Forall (fun l => mz l <= n) ls.
Proof. exact options_width. Qed.
Print Assumptions C45_width_unscaled_partial.
Example C45_ex : Forall (fun l => cols l <= 6) (map txt ["ab,"; "abcdef"; "gh-ij-"; "k xyz"]%string).
Proof. repeat constructor; vm_compute; discriminate. Qed.
(** false with a tolerance of 10000 (the ratio of an overfull line), and with scale factors that are not integers, permissible or not *)
Theorem C45_tolerance_refuted : exists opts tokens w ls, run opts (from 0) tokens (n w) = Ret (Some ls) /\ exists l, In l ls /\ w < cols l.
Proof.
  exists [WithTolerance (n 10000)], ["ab"; "abcd"; "ab"]%string, 3, (map txt ["ab abcd"; "ab"]%string). split; [vm_compute; reflexivity|].
  exists (txt "ab abcd"). split; [now left|vm_compute; reflexivity].
Qed.
Print Assumptions C45_tolerance_refuted.
Theorem C45_scale_refuted : exists opts tokens w ls, run opts (from 0) tokens (n w) = Ret (Some ls) /\ exists l, In l ls /\ w < cols l.
Proof.
  exists [WithScaleFactor (fdiv B (n 3) (n 10))], ["a"; "a"; "a"; "a"]%string, 2, (map txt ["aaaa"]%string). split; [vm_compute; reflexivity|].
  exists (txt "aaaa"). split; [now left|vm_compute; reflexivity].
Qed.
Print Assumptions C45_scale_refuted.
Definition letters : list string := ["a"; "b"; "c"; "d"; "e"; "f"; "g"; "h"]%string.
Theorem C45_scale_above_one_refuted : exists (s : F B) w ls, scaling B BL s (scaleBy s) /\
  run [@WithScaleFactor B s] (from 0) letters (n w) = Ret (Some ls) /\ exists l, In l ls /\ w < cols l.
Proof.
  exists sevenFifths, 10, (map txt ["a"; "b c d e f g h"]%string). split; [exact sevenFifths_scaling|]. split; [vm_compute; reflexivity|].
  exists (txt "b c d e f g h"). split; [right; now left|vm_compute; reflexivity].
Qed.
Print Assumptions C45_scale_above_one_refuted.

(** C46: the lines are the fragments of the tokens, cut where it is allowed, every line being feasible *)
Theorem C46_feasible : forall A L u o m punct parts lb tokens spare maxWidth W ord,
  plainCall A L u o m punct parts lb tokens spare maxWidth W ord -> forall ls lb',
  leftAlignUniform A u ord spare lb tokens maxWidth = Ret (Some ls, lb') ->
  exists segs, ls = map (lineText (l_renderHyphens o)) segs /\
    layout (negb (feq A (l_hyphenPenalty o) (fZ A 10000))) (fragsOf u o punct parts tokens) segs /\
    linesOk (l_renderHyphens o) m (m [32]) (hyphenW o m) A (k_tolerance (l_search o)) W true segs = true.
Proof. exact align_sound. Qed.
Print Assumptions C46_feasible.
(** the fragments of "ab, abcdef gh-ijk xyz" and a breaking of them *)
Definition exFrags : list frag := fragsOf ascii exO exPunct pairs (map txt exTokens).
Definition exSegs : list (list frag) := [firstn 2 exFrags; firstn 3 (skipn 2 exFrags); firstn 3 (skipn 5 exFrags); skipn 8 exFrags].
Example C46_ex : map f_text exFrags = map txt ["ab"; ","; "ab"; "cd"; "ef"; "gh"; "-"; "ij"; "k"; "xyz"]%string /\
  map (map f_text) exSegs = map (map txt) [["ab"; ","]; ["ab"; "cd"; "ef"]; ["gh"; "-"; "ij"]; ["k"; "xyz"]]%string /\
  map (lineText true) exSegs = map txt ["ab,"; "abcdef"; "gh-ij-"; "k xyz"]%string /\
  linesOk true exM (exM [32]) (hyphenW exO exM) B (fTolerance B) 6 true exSegs = true.
Proof. repeat split; vm_compute; reflexivity. Qed.

(** C47 *)
Theorem C47_complete : forall A L u o m punct parts lb tokens spare maxWidth W ord,
  plainCall A L u o m punct parts lb tokens spare maxWidth W ord ->
  exists res lb', leftAlignUniform A u ord spare lb tokens maxWidth = Ret (res, lb') /\
  (res = None <-> ~ exists segs, layout (negb (feq A (l_hyphenPenalty o) (fZ A 10000))) (fragsOf u o punct parts tokens) segs /\
    linesOk (l_renderHyphens o) m (m [32]) (hyphenW o m) A (k_tolerance (l_search o)) W true segs = true).
Proof. exact align_complete. Qed.
Print Assumptions C47_complete.
Example C47_ex : run exOpts (from 0) exTokens (n 2) = Ret None /\ run exOpts (from 0) exTokens (n 3) <> Ret None.
Proof. split; vm_compute; [reflexivity|discriminate]. Qed.

(** C48: whether the paragraph can be set, and the last line, do not depend on the iteration order of the map *)
Theorem C48_deterministic_partial : forall A L u o m punct parts tokens maxWidth W lb1 spare1 ord1 lb2 spare2 ord2,
  plainCall A L u o m punct parts lb1 tokens spare1 maxWidth W ord1 ->
  plainCall A L u o m punct parts lb2 tokens spare2 maxWidth W ord2 -> exists r1 lb1' r2 lb2',
  leftAlignUniform A u ord1 spare1 lb1 tokens maxWidth = Ret (r1, lb1') /\
  leftAlignUniform A u ord2 spare2 lb2 tokens maxWidth = Ret (r2, lb2') /\
  match r1, r2 with
  | None, None => True
  | Some ls1, Some ls2 => W <= 4997 -> last ls1 [] = last ls2 []
  | _, _ => False
  end.
Proof. exact align_same. Qed.
Print Assumptions C48_deterministic_partial.
(** the other lines do *)
Theorem C48_deterministic_refuted : exists opts tokens w ord1 ord2, (forall i k c, In c (ord1 i k)) /\ (forall i k c, In c (ord2 i k)) /\
  run opts ord1 tokens (n w) <> run opts ord2 tokens (n w).
Proof.
  exists [WithWordBreak false], five, 12, (from 0), (from 2). split; [apply from_all|]. split; [apply from_all|].
  assert (run [WithWordBreak false] (from 0) five (n 12) = lines ["aaaa"; "bbbb cccc"; "dddd eeee"]%string) as -> by (vm_compute; reflexivity).
  assert (run [WithWordBreak false] (from 2) five (n 12) = lines ["aaaa"; "bbbb"; "cccc"; "dddd eeee"]%string) as -> by (vm_compute; reflexivity).
  discriminate.
Qed.
Print Assumptions C48_deterministic_refuted.

(** C49: for every iteration order that starts anywhere, the result is not the best breaking (and an order exists for which
    it has one line more) *)
Definition fiveFrags : list frag := [mkFrag (txt "aaaa") false Space; mkFrag (txt "bbbb") false Space; mkFrag (txt "cccc") false Space;
  mkFrag (txt "dddd") false Space; mkFrag (txt "eeee") false End_].
Fixpoint cutIn (sizes : list nat) (fs : list frag) : list (list frag) :=
  match sizes with [] => [] | k :: sizes' => firstn k fs :: cutIn sizes' (skipn k fs) end.
Definition fiveOk (segs : list (list frag)) : Prop :=
  layout true fiveFrags segs /\ linesOk true cols 1 0 B (fTolerance B) 12 true segs = true.
Definition fiveDemerits (segs : list (list frag)) : Q := totalDemerits true cols 1 0 12 300 (single isHyphenRune) segs.
Theorem C49_optimal_refuted : forall k, exists segs best,
  run [WithWordBreak false] (from k) five (n 12) = Ret (Some (map (lineText true) segs)) /\
  fiveOk segs /\ fiveOk best /\ Qlt (fiveDemerits best) (fiveDemerits segs).
Proof.
  assert (forall sizes, In sizes [[2;2;1]; [1;2;2]; [1;1;1;2]]%nat -> fiveOk (cutIn sizes fiveFrags)) as H.
  { intros sizes H. split; [|cbn in H; decompose [or] H; subst; try contradiction; vm_compute; reflexivity].
    cbn in H; decompose [or] H; subst; try contradiction.
    - apply (lay_cut true [mkFrag (txt "aaaa") false Space] (mkFrag (txt "bbbb") false Space)); [reflexivity|].
      apply (lay_cut true [mkFrag (txt "cccc") false Space] (mkFrag (txt "dddd") false Space)); [reflexivity|]. constructor. discriminate.
    - apply (lay_cut true [] (mkFrag (txt "aaaa") false Space)); [reflexivity|].
      apply (lay_cut true [mkFrag (txt "bbbb") false Space] (mkFrag (txt "cccc") false Space)); [reflexivity|]. constructor. discriminate.
    - apply (lay_cut true [] (mkFrag (txt "aaaa") false Space)); [reflexivity|].
      apply (lay_cut true [] (mkFrag (txt "bbbb") false Space)); [reflexivity|].
      apply (lay_cut true [] (mkFrag (txt "cccc") false Space)); [reflexivity|]. constructor. discriminate. }
  intros k. exists (cutIn (if (k <=? 1)%nat then [1;2;2] else [1;1;1;2])%nat fiveFrags), (cutIn [2;2;1]%nat fiveFrags).
  split; [|split; [|split]].
  - destruct k as [|[|[|k]]]; vm_compute; reflexivity.
  - apply H. destruct (k <=? 1)%nat; cbn; tauto.
  - apply H. cbn; tauto.
  - destruct (k <=? 1)%nat; vm_compute; reflexivity.
Qed.
Print Assumptions C49_optimal_refuted.

(** C50: with the default tolerance *)
Theorem C50_one_line_partial : forall A L u opts, Forall (okOption A L) opts ->
  let o := withOptions A (defaultHyphenator u) (defaultPunctuator u) opts in
  k_tolerance (l_search o) = fTolerance A -> l_scale o = fZ A 1 ->
  exists mz, measures A L (l_measurer o) mz /\
  forall lb tokens spare maxWidth n ord, usable A u o lb -> plainTokens tokens spare -> tokens <> [] /\ Forall (fun t => t <> []) tokens ->
    rep A L maxWidth n -> 0 < n <= 4997 -> mz (joinWith 32 tokens) <= n -> (forall i k c, In c (ord i k)) ->
    exists lb', leftAlignUniform A u ord spare lb tokens maxWidth = Ret (Some [joinWith 32 tokens], lb').
Proof. exact options_one_line. Qed.
Print Assumptions C50_one_line_partial.
(** any tolerance: if the single line is feasible *)
Theorem C50_one_line_any_partial : forall A L u o m punct parts lb tokens spare maxWidth W ord,
  plainCall A L u o m punct parts lb tokens spare maxWidth W ord -> W <= 4997 ->
  lineOk (l_renderHyphens o) m (m [32]) (hyphenW o m) A (k_tolerance (l_search o)) W true true (fragsOf u o punct parts tokens) = true ->
  exists lb', leftAlignUniform A u ord spare lb tokens maxWidth = Ret (Some [joinWith 32 tokens], lb').
Proof. exact align_one_line. Qed.
Print Assumptions C50_one_line_any_partial.
(** a width above 86000 is refused for a short text; one above 5000 is not always filled *)
Theorem C50_one_line_refuted : exists tokens w, cols (joinWith 32 (map txt tokens)) <= w /\ run [] (from 0) tokens (n w) = Ret None.
Proof. exists ["a"]%string, 100000. split; [vm_compute; discriminate|vm_compute; reflexivity]. Qed.
Print Assumptions C50_one_line_refuted.
Definition wide : list rune := repeat 97 (Z.to_nat 5990).
Definition countLines (x : go (option (list (list rune)))) : option nat := match x with Ret (Some ls) => Some (length ls) | _ => None end.
Theorem C50_wide_line_refuted : exists tokens w ord, (forall i k c, In c (ord i k)) /\ cols (joinWith 32 tokens) <= w /\
  countLines (let! lb := newLineBreaker B ascii [WithWordBreak false] in
    let! x := leftAlignUniform B ascii ord (fun _ => []) lb tokens (n w) in Ret (fst x)) = Some 2%nat.
Proof.
  exists [wide; txt "b"], 6000, (from 2). split; [apply from_all|]. split; [vm_compute; discriminate|]. vm_compute. reflexivity.
Qed.
Print Assumptions C50_wide_line_refuted.

(** C51 *)
Theorem C51_returns_partial : forall A L u o m punct parts lb tokens spare maxWidth W ord,
  plainCall A L u o m punct parts lb tokens spare maxWidth W ord ->
  exists res lb', leftAlignUniform A u ord spare lb tokens maxWidth = Ret (res, lb') /\ usable A u o lb' /\
  forall ls, res = Some ls -> ls <> [] /\ Forall (fun l => l <> []) ls.
Proof. exact align_returns. Qed.
Print Assumptions C51_returns_partial.
Example C51_ex : run exOpts (from 0) exTokens (n 3) = lines ["ab,"; "ab-"; "cd-"; "ef"; "gh-"; "ijk"; "xyz"]%string.
Proof. vm_compute. reflexivity. Qed.
(** a negative penalty can select breaks in the wrong order *)
Theorem C51_negative_penalty_refuted : exists tokens w, run [WithHyphenPenalty (n (-15)); WithHyphenator (Some byTwo)] (from 0) tokens (n w) = Panic.
Proof. exists ["a"; "ccc"; "abcdef"]%string, 3. vm_compute. reflexivity. Qed.
Print Assumptions C51_negative_penalty_refuted.
(** a hyphenator that returns no part *)
Theorem C51_no_parts_refuted : exists tokens w, run [WithHyphenator (Some (fun _ => Ret []))] (from 0) tokens (n w) = Panic.
Proof. exists ["abcdef"]%string, 10. vm_compute. reflexivity. Qed.
Print Assumptions C51_no_parts_refuted.

(** C52, C57: a line is its fragments; it ends with an added '-' exactly when it is cut between two parts of a hyphenated
    word; a cut falls after a mark, at a space, or there *)
Theorem C52_hyphens_partial : forall A L u o m punct parts lb tokens spare maxWidth W ord,
  plainCall A L u o m punct parts lb tokens spare maxWidth W ord -> forall ls lb',
  leftAlignUniform A u ord spare lb tokens maxWidth = Ret (Some ls, lb') ->
  exists segs, concat segs = fragsOf u o punct parts tokens /\
  Forall2 (fun l s => exists pre f, s = pre ++ [f] /\
    l = paraText pre ++ f_text f ++ (if l_renderHyphens o && isSoft f then [45] else [])) ls segs /\
  (forall pre s post, segs = pre ++ s :: post -> post <> [] -> exists l f, s = l ++ [f] /\
     match f_joint f with
     | Space => True
     | Soft => l_wordBreak o = true /\ exists t p w x y before after,
         In t tokens /\ In p (punct t) /\ 4 < zlen p /\ In w (splitAt isHyphenRune p) /\ single isHyphenRune w = false /\
         parts w = x ++ f_text f :: y /\ y <> [] /\
         paraText (concat pre ++ s) = before ++ concat (x ++ [f_text f]) /\ paraText (concat post) = concat y ++ after
     | _ => exists r, f_text f = [r] /\ (punctSplitFunc u r = true \/ isHyphenRune r = true)
     end).
Proof. exact align_cuts_words. Qed.
Print Assumptions C52_hyphens_partial.
(** a hyphen penalty of 0, 200 or 400 is that of another kind of break *)
Theorem C52_collision_refuted :
  run [WithHyphenPenalty (n 0)] (from 0) ["aaaa"; "bbbb"]%string (n 5) = lines ["aaaa-"; "bbbb"]%string /\
  run [WithHyphenPenalty (n 400)] (from 0) ["abc,def"]%string (n 4) = lines ["abc,-"; "def"]%string /\
  run [WithHyphenPenalty (n 200); WithHyphenator (Some (fun w => Ret [w]))] (from 0) ["aaa-bbb"]%string (n 5) = lines ["aaa--"; "bbb"]%string.
Proof. repeat split; vm_compute; reflexivity. Qed.
Print Assumptions C52_collision_refuted.

(** C53 *)
Theorem C53_too_wide_partial : forall A L u o m punct parts lb tokens spare maxWidth W ord,
  plainCall A L u o m punct parts lb tokens spare maxWidth W ord -> forall f,
  In f (fragsOf u o punct parts tokens) -> W < m (f_text f) ->
  exists lb', leftAlignUniform A u ord spare lb tokens maxWidth = Ret (None, lb').
Proof. exact align_too_wide. Qed.
Print Assumptions C53_too_wide_partial.
Example C53_ex : In (mkFrag (txt "xyz") false End_) exFrags /\ exM (txt "xyz") = 3 /\ run exOpts (from 0) exTokens (n 2) = Ret None.
Proof. repeat split; vm_compute; tauto. Qed.
Theorem C53_tolerance_refuted : run [WithTolerance (n 10000)] (from 0) ["abcd"]%string (n 3) = lines ["abcd"]%string.
Proof. vm_compute. reflexivity. Qed.
Print Assumptions C53_tolerance_refuted.

(** C54: [usable]: any history of calls on plain tokens. Holds for panics too. *)
Theorem C54_reuse_partial : forall A u o lb1 lb2 ord spare1 spare2 tokens maxWidth, usable A u o lb1 -> usable A u o lb2 ->
  plainTokens tokens spare1 -> plainTokens tokens spare2 ->
  (let! x := leftAlignUniform A u ord spare1 lb1 tokens maxWidth in Ret (fst x)) =
  (let! x := leftAlignUniform A u ord spare2 lb2 tokens maxWidth in Ret (fst x)).
Proof. exact align_reuse. Qed.
Print Assumptions C54_reuse_partial.
Example C54_ex : exists res lb, leftAlignUniform B ascii (from 0) (fun _ => []) exB (map txt exTokens) (n 5) = Ret (res, lb) /\ usable B ascii exO lb.
Proof.
  destruct (C51_returns_partial _ _ _ _ _ _ _ _ _ _ _ _ _ (ex_call 5 0 ltac:(lia))) as (res & lb & E & H & _). eauto.
Qed.
(** after a first call on ESC[1m"abc", the next lines are bold *)
Definition bold (s : string) : list rune := [27;91;49;109] ++ txt s.
Theorem C54_reuse_refuted : exists t1 t2 w, run [] (from 0) t2 (n w) = lines t2 /\
  (let! lb := newLineBreaker B ascii [] in
   let! x := leftAlignUniform B ascii (from 0) (fun _ => []) lb t1 (n w) in
   let! y := leftAlignUniform B ascii (from 0) (fun _ => []) (snd x) (map txt t2) (n w) in
   Ret (fst y)) = Ret (Some (map bold t2)).
Proof. exists [bold "abc"], ["ghi"; "jkl"]%string, 3. split; vm_compute; reflexivity. Qed.
Print Assumptions C54_reuse_refuted.

(** C55 *)
Theorem C55_no_word_break : forall A L u o m punct parts lb tokens spare maxWidth W ord,
  plainCall A L u o m punct parts lb tokens spare maxWidth W ord -> forall ls lb', l_wordBreak o = false ->
  leftAlignUniform A u ord spare lb tokens maxWidth = Ret (Some ls, lb') ->
  reflow false (joinWith 32 tokens) ls /\
  exists segs, Forall2 (fun l s => exists pre f, s = pre ++ [f] /\ l = paraText pre ++ f_text f) ls segs /\
    layout false (paragraph punct (fun w => [w]) (fun w => [w]) (single (punctSplitFunc u)) (fun _ => false) (fun _ => false) tokens) segs.
Proof. exact align_no_break. Qed.
Print Assumptions C55_no_word_break.
Example C55_ex : run [WithWordBreak false] (from 0) ["ab-cdefg"; "hi,jk"]%string (n 8) = lines ["ab-cdefg"; "hi,jk"]%string /\
  run [WithWordBreak false] (from 0) ["ab-cdefg"; "hi,jk"]%string (n 7) = Ret None.
Proof. split; vm_compute; reflexivity. Qed.

(** C56: sequences without text are dropped, a sequence left open is written twice *)
Theorem C56_sequences_refuted :
  (let! lb := newLineBreaker B ascii [] in
   let! x := leftAlignUniform B ascii (from 0) (fun _ => []) lb [bold ""; txt "abc"; [27;91;48;109]] (n 12) in
   Ret (fst x)) = lines ["abc "]%string /\
  (let! lb := newLineBreaker B ascii [] in
   let! x := leftAlignUniform B ascii (from 0) (fun _ => []) lb [bold "abc"; txt "def"] (n 12) in
   Ret (fst x)) = Ret (Some [[27;91;49;109] ++ bold "abc def"]).
Proof. split; vm_compute; reflexivity. Qed.
Print Assumptions C56_sequences_refuted.

(** C58 *)
Theorem C58_trimmed : forall A L u o m punct parts lb tokens spare maxWidth W ord,
  plainCall A L u o m punct parts lb tokens spare maxWidth W ord -> forall ls lb', Forall noBlank tokens ->
  leftAlignUniform A u ord spare lb tokens maxWidth = Ret (Some ls, lb') -> Forall trimmed ls.
Proof. exact align_trimmed. Qed.
Print Assumptions C58_trimmed.
Example C58_ex : Forall noBlank (map txt exTokens) /\ trimmed (txt "k xyz") /\ ~ trimmed (txt "abc ") /\ ~ trimmed (txt "abcd  ab").
Proof.
  split; [repeat constructor; discriminate|]. split; [apply scan_trim; reflexivity|].
  split; intros (_ & H2 & H3); [apply (H2 (txt "abc")); reflexivity|apply (H3 (txt "abcd") (txt "ab")); reflexivity].
Qed.

(** C59: permissible scale factors (see C63) *)
Theorem C59_one_space_partial : forall A L u opts, Forall (okOption A L) opts ->
  let o := withOptions A (defaultHyphenator u) (defaultPunctuator u) opts in
  exists sc mz punct parts, scaling A L (l_scale o) sc /\ measures A L (l_measurer o) mz /\ mz [32] = 1 /\ mz [45] <= 2 ^ 20 /\
    settings A L u o (fun t => sc (mz t)) punct parts.
Proof. exact options_settings. Qed.
Print Assumptions C59_one_space_partial.
(** the number of spaces written for a space of width 1, for every scale factor up to 2^19 *)
Theorem C59_spaces : forall pow (o : lopts (b64 pow)), let s := l_scale o in
  is_finite s = true -> (0 < B2R s <= bpow radix2 19)%R ->
  let k := fint (b64 pow) (downScale (b64 pow) o (scale (b64 pow) o (fZ (b64 pow) 1))) in
  (B2R s < / 2 -> k = 0%Z)%R /\ (/ 2 <= B2R s <= 2 / 3 -> k = 2%Z)%R /\ (2 / 3 < B2R s -> k = 1%Z)%R.
Proof. exact spaces_b64. Qed.
Print Assumptions C59_spaces.
Theorem C59_scale_refuted :
  run [WithScaleFactor (fHalf B)] (from 0) ["ab"; "abcd"; "ab"]%string (n 10) = lines ["ab"; "abcd  ab"]%string /\
  run [WithScaleFactor (fdiv B (n 3) (n 10))] (from 0) ["ab"; "cd"]%string (n 10) = lines ["abcd"]%string.
Proof. split; vm_compute; reflexivity. Qed.
Print Assumptions C59_scale_refuted.

(** C62 *)
Theorem C62_longest_last_line : forall A L u o m punct parts lb tokens spare maxWidth W ord,
  plainCall A L u o m punct parts lb tokens spare maxWidth W ord -> forall ls lb', W <= 4997 ->
  leftAlignUniform A u ord spare lb tokens maxWidth = Ret (Some ls, lb') ->
  exists segs, ls = map (lineText (l_renderHyphens o)) segs /\
  layout (negb (feq A (l_hyphenPenalty o) (fZ A 10000))) (fragsOf u o punct parts tokens) segs /\
  forall segs', layout (negb (feq A (l_hyphenPenalty o) (fZ A 10000))) (fragsOf u o punct parts tokens) segs' ->
    linesOk (l_renderHyphens o) m (m [32]) (hyphenW o m) A (k_tolerance (l_search o)) W true segs' = true ->
    (length (last segs' []) <= length (last segs []))%nat.
Proof. exact align_last. Qed.
Print Assumptions C62_longest_last_line.
Example C62_ex : run exOpts (from 2) exTokens (n 5) = lines ["ab,"; "ab-"; "cdef"; "gh-"; "ij-"; "k xyz"]%string.
Proof. vm_compute. reflexivity. Qed.

(** C72: with the default tolerance, LeftAlignUniform succeeds if the tokens (or, more generally, the lines of some layout) are
    at most 51 columns wide, fit in the width, and none but the first starts with a punctuation mark or a hyphen *)
Theorem C72_succeeds_partial : forall A L u o m punct parts lb tokens spare maxWidth W ord,
  plainCall A L u o m punct parts lb tokens spare maxWidth W ord -> k_tolerance (l_search o) = fTolerance A ->
  (forall a b, m (a ++ b) = m a + m b) -> W <= 85948 ->
  Forall (fun t => m t <= W /\ m t + m [32] <= 52) tokens ->
  (forall r t, In (r :: t) (tl tokens) -> punctSplitFunc u r = false /\ isHyphenRune r = false) ->
  exists ls lb', leftAlignUniform A u ord spare lb tokens maxWidth = Ret (Some ls, lb').
Proof. exact align_tokens. Qed.
Print Assumptions C72_succeeds_partial.
Theorem C72_succeeds_hyphenated_partial : forall A L u o m punct parts lb tokens spare maxWidth W ord,
  plainCall A L u o m punct parts lb tokens spare maxWidth W ord -> k_tolerance (l_search o) = fTolerance A -> forall segs, W <= 85948 ->
  layout (negb (feq A (l_hyphenPenalty o) (fZ A 10000))) (fragsOf u o punct parts tokens) segs ->
  Forall (fun s => lineWidth (l_renderHyphens o) m (m [32]) (hyphenW o m) s <= W /\
    lineWidth (l_renderHyphens o) m (m [32]) (hyphenW o m) s + m [32] <= 52) segs ->
  Forall (fun s => startsWithMark s = false) (tl segs) -> Forall (fun s => l_renderHyphens o = true \/ lastSoft s = false) segs ->
  exists ls lb', leftAlignUniform A u ord spare lb tokens maxWidth = Ret (Some ls, lb').
Proof. exact align_succeeds. Qed.
Print Assumptions C72_succeeds_hyphenated_partial.
Example C72_ex : Forall (fun t => exM t <= 6 /\ exM t + exM [32] <= 52) (map txt exTokens) /\
  (forall r t, In (r :: t) (tl (map txt exTokens)) -> punctSplitFunc ascii r = false /\ isHyphenRune r = false) /\
  k_tolerance (l_search exO) = fTolerance B.
Proof.
  split; [repeat constructor; vm_compute; discriminate|]. split; [|reflexivity].
  intros r t H. cbn in H. decompose [or] H; try contradiction; match goal with E : _ = _ |- _ => injection E as <- _ end; split; reflexivity.
Qed.
(** false for tokens that start with a hyphen (or a punctuation mark): a wider column is refused, a narrower one is accepted;
    false for long words *)
Theorem C72_marks_refuted : exists tokens w, run [] (from 0) tokens (n w) = lines tokens /\ run [] (from 0) tokens (n (w + 1)) = Ret None.
Proof. exists ["bbbbbb"; "-aaaaa"; "cccccc"]%string, 6. split; vm_compute; reflexivity. Qed.
Print Assumptions C72_marks_refuted.
Theorem C72_long_words_refuted : exists tokens w, Forall (fun t => cols t <= w) tokens /\
  (let! lb := newLineBreaker B ascii [WithWordBreak false] in
   let! x := leftAlignUniform B ascii (from 0) (fun _ => []) lb tokens (n w) in Ret (fst x)) = Ret None.
Proof.
  exists (repeat (repeat 97 60%nat) 3%nat), 120. split; [repeat constructor; vm_compute; discriminate|vm_compute; reflexivity].
Qed.
Print Assumptions C72_long_words_refuted.

(** C73: with the default tolerance, every line but the last is at most 51 short of the width *)
Theorem C73_ragged : forall A L u o m punct parts lb tokens spare maxWidth W ord,
  plainCall A L u o m punct parts lb tokens spare maxWidth W ord -> k_tolerance (l_search o) = fTolerance A ->
  (forall a b, m (a ++ b) = m a + m b) -> forall ls lb', leftAlignUniform A u ord spare lb tokens maxWidth = Ret (Some ls, lb') ->
  forall pre l post, ls = pre ++ l :: post -> post <> [] -> W - 51 <= m l <= W.
Proof. exact align_ragged. Qed.
Print Assumptions C73_ragged.
(** a line other than the first that starts with a mark, and a line that ends inside a word when hyphens are not rendered, are
    full, unless they are the last one *)
Theorem C73_full : forall A L u o m punct parts lb tokens spare maxWidth W ord,
  plainCall A L u o m punct parts lb tokens spare maxWidth W ord -> k_tolerance (l_search o) = fTolerance A ->
  forall ls lb', leftAlignUniform A u ord spare lb tokens maxWidth = Ret (Some ls, lb') ->
  exists segs, ls = map (lineText (l_renderHyphens o)) segs /\ concat segs = fragsOf u o punct parts tokens /\
  forall pre s post, segs = pre ++ s :: post -> post <> [] ->
    pre <> [] /\ startsWithMark s = true \/ lastSoft s = true /\ l_renderHyphens o = false ->
    lineWidth (l_renderHyphens o) m (m [32]) (hyphenW o m) s = W.
Proof. exact align_full. Qed.
Print Assumptions C73_full.
Example C73_full_ex : run [WithRenderHyphens false; WithHyphenator (Some byTwo)] (from 0) ["abcdef"]%string (n 4) = lines ["abcd"; "ef"]%string /\
  run [WithRenderHyphens false; WithHyphenator (Some byTwo)] (from 0) ["abcdef"]%string (n 5) = Ret None.
Proof. split; vm_compute; reflexivity. Qed.
Example C73_ex : run [WithWordBreak false] (from 0) ["a"; "b"]%string (n 52) = lines ["a b"]%string /\
  (let! lb := newLineBreaker B ascii [WithWordBreak false] in
   let! x := leftAlignUniform B ascii (from 0) (fun _ => []) lb [txt "a"; repeat 97 52%nat] (n 52) in Ret (fst x)) = Ret (Some [txt "a"; repeat 97 52%nat]) /\
  (let! lb := newLineBreaker B ascii [WithWordBreak false] in
   let! x := leftAlignUniform B ascii (from 0) (fun _ => []) lb [txt "a"; repeat 97 53%nat] (n 53) in Ret (fst x)) = Ret None.
Proof. repeat split; vm_compute; reflexivity. Qed.

(** C74: an opening mark can be left alone at the end of a line *)
Theorem C74_opening_mark_refuted : run [] (from 0) ["-aaaa"; "-bbbb"; "-cccc"]%string (n 6) = lines ["-"; "aaaa -"; "bbbb"; "-cccc"]%string.
Proof. vm_compute. reflexivity. Qed.
Print Assumptions C74_opening_mark_refuted.
