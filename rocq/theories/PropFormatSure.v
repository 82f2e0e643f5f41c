(** C137, C138 and C87 for formatted tokens: the same lines, with the same escape sequences. *)
From Coq Require Import String Ascii Permutation.
From Verif Require Import Base Arith ArithB64 Unicode Split SpecSplit Ansi SpecAnsi Hyph Dict Cache Lang PatUs Attr Nodes KP Render SpecKP SpecGreedy Align Options
  Call Settings AlignProofs Fresh Succeed Compare Counts SpecFormat Format PropAlign PropCompare PropFormat PropLayouts PropFewest PropCounts Sure FormatSure.
Open Scope Z_scope.

(** C87: what is returned, escape sequences included, is a function of the layout *)
Theorem C87_formatted_shown : forall A L u o m punct parts lb ts spare1 spare2 maxWidth W ord,
  plainCall A L u o m punct parts lb (map tokenText ts) spare2 maxWidth W ord ->
  (forall j x, nth_error ts j = Some x -> token A u o x (spare1 j) (spare2 j)) ->
  exists (show : list (list frag) -> list (list rune)) (lb' : breaker A), forall ord', (forall i k c, In c (ord' i k)) ->
  leftAlignUniform A u ord' spare1 lb (map tokenRunes ts) maxWidth = Ret (None, lb') \/
  exists segs, greedy (l_renderHyphens o) (negb (feq A (l_hyphenPenalty o) (fZ A 10000))) m (m [32]) (hyphenW o m) A (k_tolerance (l_search o)) W
      (fragsOf u o punct parts (map tokenText ts)) 0 segs /\
    leftAlignUniform A u ord' spare1 lb (map tokenRunes ts) maxWidth = Ret (Some (show segs), lb').
Proof. exact formatted_shown. Qed.
Print Assumptions C87_formatted_shown.
(** the call: [C87_ex_formatted_call]; the tokens: [C64_ex_token]; the lines: [C87_ex_formatted] *)

(** C137 *)
Theorem C137_formatted : forall A L u o m punct parts lb ts spare1 spare2 maxWidth W ord1 ord2,
  plainCall A L u o m punct parts lb (map tokenText ts) spare2 maxWidth W ord1 -> (forall i k c, In c (ord2 i k)) ->
  (forall j x, nth_error ts j = Some x -> token A u o x (spare1 j) (spare2 j)) ->
  fle A (k_tolerance (l_search o)) (fHalf A) = true ->
  leftAlignUniform A u ord1 spare1 lb (map tokenRunes ts) maxWidth = leftAlignUniform A u ord2 spare1 lb (map tokenRunes ts) maxWidth.
Proof. exact formatted_half. Qed.
Print Assumptions C137_formatted.
Definition fHalfO : lopts B := withOptions B (defaultHyphenator digits) (defaultPunctuator digits) (exOpts ++ [WithTolerance (fHalf B)]).
Definition fHalfB : breaker B := match newBreaker B fHalfO with Ret lb => lb | Panic => mkBreaker fHalfO (n 0) (n 0) [] end.
Lemma fHalf_settings : settings B BL digits fHalfO exM fPunct pairs.
Proof.
  apply (make_settings B BL digits (exOpts ++ [WithTolerance (fHalf B)]) (fun n => 1 * n) cols).
  - vm_compute. reflexivity.
  - apply scaling_int; [lia|]. apply (rep_Z B BL). unfold exactZ. lia.
  - apply default_measures.
  - vm_compute. reflexivity.
  - vm_compute. discriminate.
  - apply default_punctuator.
  - apply byTwo_cuts.
  - destruct (default_reached B BL digits) as [_ _ _ _ _ H]. exact H.
Qed.
Lemma fHalf_new : newBreaker B fHalfO = Ret fHalfB.
Proof. destruct (settings_new B BL digits fHalfO exM fPunct pairs fHalf_settings) as (sp & hy & E & _). unfold fHalfB. rewrite E. reflexivity. Qed.
Example C137_ex_formatted_call w k : 0 < w <= 2 ^ 30 ->
  plainCall B BL digits fHalfO exM fPunct pairs fHalfB (map tokenText exDoc64) (fun _ => []) (n w) (1 * w) (from k) /\
  (forall j x, nth_error exDoc64 j = Some x -> token B digits fHalfO x [] []) /\
  fle B (k_tolerance (l_search fHalfO)) (fHalf B) = true /\ gentle B digits fHalfO exM fPunct pairs (map tokenText exDoc64).
Proof.
  intros Hw. split; [|split; [|split; [vm_compute; reflexivity|apply gentleb_ok; vm_compute; reflexivity]]].
  - assert (map tokenText exDoc64 = map txt ["ab,"; "abcdef,"; "xyz"]%string) as -> by (vm_compute; reflexivity).
    apply make_call; [exact fHalf_settings|apply us_new; exact fHalf_new|apply plain_check; vm_compute; reflexivity| | | | |lia|apply from_all].
    + split; [discriminate|]. repeat constructor; discriminate.
    + intros a b. unfold exM. rewrite cols_app. lia.
    + vm_compute. discriminate.
    + apply scaled_width with (k := 1) (n := w); [apply (rep_Z B BL); unfold exactZ; lia|lia|apply (rep_Z B BL); unfold exactZ; lia|lia|lia].
  - intros j x H. destruct (C64_ex_token j x H) as (H1 & _ & H3 & H4). split; [exact H1|]. split; [|split; assumption].
    apply nth_error_In in H. cbn in H. repeat (destruct H as [<-|H]; [vm_compute; repeat constructor|]); destruct H.
Qed.
Example C137_ex_formatted :
  map (fun k => let! x := leftAlignUniform B digits (from k) (fun _ => []) fHalfB (map tokenRunes exDoc64) (n 7) in Ret (fst x)) [0; 1; 2; 3]%nat =
  repeat (Ret (Some [txt "ab, " ++ boldOn ++ txt "ab-" ++ off; boldOn ++ txt "cdef" ++ off ++ txt ","; txt "xyz"])) 4.
Proof. vm_compute. reflexivity. Qed.

(** C138 *)
Theorem C138_formatted : forall A L u o m punct parts lb ts spare1 spare2 maxWidth W ord,
  plainCall A L u o m punct parts lb (map tokenText ts) spare2 maxWidth W ord ->
  (forall j x, nth_error ts j = Some x -> token A u o x (spare1 j) (spare2 j)) ->
  fle A (k_tolerance (l_search o)) (fHalf A) = true -> gentle A u o m punct parts (map tokenText ts) ->
  forall segs, layout (negb (feq A (l_hyphenPenalty o) (fZ A 10000))) (fragsOf u o punct parts (map tokenText ts)) segs ->
  linesOk (l_renderHyphens o) m (m [32]) (hyphenW o m) A (k_tolerance (l_search o)) W true segs = true ->
  exists ls lb', leftAlignUniform A u ord spare1 lb (map tokenRunes ts) maxWidth = Ret (Some ls, lb') /\ (length ls <= length segs)%nat.
Proof. exact formatted_least. Qed.
Print Assumptions C138_formatted.
