(** C91: no more lines than necessary, for some iteration order of the map. *)
From Coq Require Import String Ascii Permutation.
From Verif Require Import Base Arith ArithB64 Unicode Split SpecSplit SpecAnsi Hyph Nodes KP Render SpecKP SpecGreedy Align Options Call Settings
  AlignProofs Fresh Succeed Compare PropAlign Greedy Fewest.
Open Scope Z_scope.

(** ** The hypotheses of the theorem are met *)
Lemma rune_call tokens w ord : forallb (fun t => forallb (fun r => (0 <=? r) && (r <=? 0x10ffff) && negb (r =? 27)) t && (zlen t <? 1000)) tokens = true ->
  tokens <> [] -> forallb (fun t => negb (zlen t =? 0)) tokens = true ->
  exM (joinWith 32 tokens) <= 2 ^ 50 -> 0 < w <= 2 ^ 30 -> (forall i k c, In c (ord i k)) ->
  plainCall B BL ascii exO exM exPunct pairs exB tokens (fun _ => []) (n w) (1 * w) ord.
Proof.
  intros H1 H2 H3 H4 Hw Ho. apply make_call; [exact ex_settings|exact ex_usable|now apply plain_check| | | | |lia|exact Ho].
  - split; [exact H2|]. apply Forall_forall. rewrite forallb_forall in H3. intros t Ht E. specialize (H3 t Ht). now rewrite E in H3.
  - intros a b. unfold exM. rewrite cols_app. lia.
  - exact H4.
  - apply scaled_width with (k := 1) (n := w); [apply (rep_Z B BL); unfold exactZ; lia|lia|apply (rep_Z B BL); unfold exactZ; lia|lia|lia].
Qed.
Lemma any_call tokens w ord : forallb (fun t => forallb (fun r => (0 <=? r) && (r <=? 0x10ffff) && negb (r =? 27)) t && (zlen t <? 1000)) (map txt tokens) = true ->
  tokens <> [] -> forallb (fun t => negb (zlen t =? 0)) (map txt tokens) = true ->
  exM (joinWith 32 (map txt tokens)) <= 2 ^ 50 -> 0 < w <= 2 ^ 30 -> (forall i k c, In c (ord i k)) ->
  plainCall B BL ascii exO exM exPunct pairs exB (map txt tokens) (fun _ => []) (n w) (1 * w) ord.
Proof. intros H1 H2. apply rune_call; [exact H1|]. destruct tokens; [congruence|discriminate]. Qed.

Lemma ex_new : newLineBreaker B ascii exOpts = Ret exB.
Proof.
  destruct (settings_new B BL ascii exO exM exPunct pairs ex_settings) as (sp & hy & E & _). unfold exB. rewrite E. exact E.
Qed.

(** C91: a text that can be laid out on some number of lines within the tolerance gets no more lines, for some iteration
    order of the map; if no mark comes just after a place where the line can be cut, and if no part of a word is narrower than
    the hyphen put after it *)
Theorem C91_some_order_partial : forall A L u o m punct parts lb tokens spare maxWidth W ord,
  plainCall A L u o m punct parts lb tokens spare maxWidth W ord ->
  fle A (fZ A 0) (k_tolerance (l_search o)) = true ->
  marksGlued (negb (feq A (l_hyphenPenalty o) (fZ A 10000))) (fragsOf u o punct parts tokens) ->
  (l_renderHyphens o = true -> Forall (fun f => hyphenW o m <= m (f_text f)) (fragsOf u o punct parts tokens)) ->
  forall segs, layout (negb (feq A (l_hyphenPenalty o) (fZ A 10000))) (fragsOf u o punct parts tokens) segs ->
  linesOk (l_renderHyphens o) m (m [32]) (hyphenW o m) A (k_tolerance (l_search o)) W true segs = true ->
  exists ls ord' lb', (forall i k, Permutation (ord' i k) [C0; C1; C2; C3]) /\
    leftAlignUniform A u ord' spare lb tokens maxWidth = Ret (Some ls, lb') /\ (length ls <= length segs)%nat.
Proof. exact align_fewest. Qed.
Print Assumptions C91_some_order_partial.
(** the text of [C91_fewest_refuted], which gets 3 lines with one order and 4 with another *)
Definition oneTokens : list string := ["one"; "abcdefgh"; "xyz"]%string.
Example C91_ex_call w k : 0 < w <= 2 ^ 30 ->
  plainCall B BL ascii exO exM exPunct pairs exB (map txt oneTokens) (fun _ => []) (n w) (1 * w) (from k) /\
  fle B (fZ B 0) (k_tolerance (l_search exO)) = true /\
  marksGlued (negb (feq B (l_hyphenPenalty exO) (fZ B 10000))) (fragsOf ascii exO exPunct pairs (map txt oneTokens)) /\
  (l_renderHyphens exO = true -> Forall (fun f => hyphenW exO exM <= exM (f_text f)) (fragsOf ascii exO exPunct pairs (map txt oneTokens))).
Proof.
  intros Hw. split; [apply any_call; [vm_compute; reflexivity|discriminate|vm_compute; reflexivity|vm_compute; discriminate|lia|apply from_all]|].
  split; [vm_compute; reflexivity|]. split; [apply marksGluedb_ok; vm_compute; reflexivity|]. intros _.
  apply Forall_forall. intros f Hf.
  assert (forallb (fun f => hyphenW exO exM <=? exM (f_text f)) (fragsOf ascii exO exPunct pairs (map txt oneTokens)) = true) as H by (vm_compute; reflexivity).
  rewrite forallb_forall in H. specialize (H f Hf). lia.
Qed.
Example C91_ex_run : run exOpts (from 0) oneTokens (n 8) = lines ["one"; "abcd-"; "efgh xyz"]%string /\
  run exOpts (from 2) oneTokens (n 8) = lines ["one"; "ab-"; "cd-"; "efgh xyz"]%string.
Proof. split; vm_compute; reflexivity. Qed.

(** A mark that can come first on a line: the text can be laid out on 3 lines within the tolerance, and gets 4 whatever the
    order *)
Definition markTokens : list string := ["xxx"; "yyy"; "(bbb"; "cc"; "d"]%string.
Definition markFrags : list frag := fragsOf ascii exO exPunct pairs (map txt markTokens).
Definition threeLines : list (list frag) := [firstn 2 markFrags; firstn 3 (skipn 2 markFrags); skipn 5 markFrags].
Theorem C91_mark_refuted :
  map (lineText true) threeLines = map txt ["xxx yyy"; "(bbb cc"; "d"]%string /\ layout true markFrags threeLines /\
  linesOk true exM 1 1 B (k_tolerance (l_search exO)) 7 true threeLines = true /\
  forall ord, (forall i k c, In c (ord i k)) -> exists ls, run exOpts ord markTokens (n 7) = Ret (Some ls) /\ length ls = 4%nat.
Proof.
  split; [vm_compute; reflexivity|]. split; [|split; [vm_compute; reflexivity|]].
  - apply (lay_cut true (firstn 1 markFrags) (mkFrag (txt "yyy") false Space)); [reflexivity|].
    apply (lay_cut true (firstn 2 (skipn 2 markFrags)) (mkFrag (txt "cc") false Space)); [reflexivity|]. apply lay_last. discriminate.
  - intros ord Ho.
    assert (plainCall B BL ascii exO exM exPunct pairs exB (map txt markTokens) (fun _ => []) (n 7) (1 * 7) ord) as C
      by (apply any_call; [vm_compute; reflexivity|discriminate|vm_compute; reflexivity|vm_compute; discriminate|lia|exact Ho]).
    destruct (call B BL ascii exO exM exPunct pairs exB (map txt markTokens) (fun _ => []) (n 7) (1 * 7) ord C) as (res & lb' & E & _ & H).
    assert (layout true markFrags [firstn 1 markFrags; firstn 2 (skipn 1 markFrags); firstn 1 (skipn 3 markFrags); skipn 4 markFrags]) as Hfour.
    { apply (lay_cut true [] (mkFrag (txt "xxx") false Space)); [reflexivity|].
      apply (lay_cut true [mkFrag (txt "yyy") false Space] (mkFrag (txt "(") true Glued)); [reflexivity|].
      apply (lay_cut true [] (mkFrag (txt "bbb") false Space)); [reflexivity|]. apply lay_last. discriminate. }
    change (negb (feq B (l_hyphenPenalty exO) (fZ B 10000))) with true in H.
    assert (forallb (fun s => negb (linesOk true exM 1 1 B (k_tolerance (l_search exO)) 7 true s) || (length (last s []) <? 2)%nat || (length s =? 4)%nat)
      (layouts true markFrags) = true) as Hall by (vm_compute; reflexivity).
    rewrite forallb_forall in Hall.
    destruct res as [ls|].
    + destruct H as (segs & -> & Hl & Hok & Hbest). exists (map (lineText (l_renderHyphens exO)) segs). split.
      * unfold run. rewrite ex_new. cbn [gbind]. rewrite E. reflexivity.
      * specialize (Hbest ltac:(lia) _ Hfour ltac:(vm_compute; reflexivity)). cbn [last] in Hbest. change (length (skipn 4 markFrags)) with 2%nat in Hbest.
        specialize (Hall segs (layouts_all _ _ _ Hl)). apply orb_prop in Hall. destruct Hall as [Hall|Hall].
        -- apply orb_prop in Hall. destruct Hall as [Hall|Hall]; [|apply Nat.ltb_lt in Hall; lia]. exfalso.
           change (linesOk true exM 1 1 B (k_tolerance (l_search exO)) 7 true segs = true) in Hok. now rewrite Hok in Hall.
        -- rewrite map_length. now apply Nat.eqb_eq.
    + exfalso. apply H. exists threeLines. split; [|vm_compute; reflexivity].
      apply (lay_cut true (firstn 1 markFrags) (mkFrag (txt "yyy") false Space)); [reflexivity|].
      apply (lay_cut true (firstn 2 (skipn 2 markFrags)) (mkFrag (txt "cc") false Space)); [reflexivity|]. apply lay_last. discriminate.
Qed.
Print Assumptions C91_mark_refuted.

(** A part of a word narrower than the hyphen: "xx", "abcd" with an acute accent on the d, which byTwo takes for a part, and
    "yyyyyy". The text can be laid out on 2 lines of 7 columns, and gets at least 3 whatever the order: there is no room for "xx abcd-" *)
Definition thinTokens : list (list rune) := [txt "xx"; txt "abcd" ++ [0x301]; txt "yyyyyy"].
Definition thinFrags : list frag := fragsOf ascii exO exPunct pairs thinTokens.
Definition twoLines : list (list frag) := [firstn 4 thinFrags; skipn 4 thinFrags].
Theorem C91_thin_refuted :
  map (lineText true) twoLines = [txt "xx abcd" ++ [0x301]; txt "yyyyyy"] /\ layout true thinFrags twoLines /\
  linesOk true exM 1 1 B (k_tolerance (l_search exO)) 7 true twoLines = true /\ marksGlued true thinFrags /\
  forall ord, (forall i k c, In c (ord i k)) -> exists lb ls lb', newLineBreaker B ascii exOpts = Ret lb /\
    leftAlignUniform B ascii ord (fun _ => []) lb thinTokens (n 7) = Ret (Some ls, lb') /\ (3 <= length ls)%nat.
Proof.
  assert (layout true thinFrags twoLines) as Htwo.
  { apply (lay_cut true (firstn 3 thinFrags) (mkFrag [0x301] false Space)); [reflexivity|]. apply lay_last. discriminate. }
  split; [vm_compute; reflexivity|]. split; [exact Htwo|]. split; [vm_compute; reflexivity|]. split; [apply marksGluedb_ok; vm_compute; reflexivity|].
  intros ord Ho.
  assert (plainCall B BL ascii exO exM exPunct pairs exB thinTokens (fun _ => []) (n 7) (1 * 7) ord) as C
    by (apply rune_call; [vm_compute; reflexivity|discriminate|vm_compute; reflexivity|vm_compute; discriminate|lia|exact Ho]).
  destruct (call B BL ascii exO exM exPunct pairs exB thinTokens (fun _ => []) (n 7) (1 * 7) ord C) as (res & lb' & E & _ & H).
  assert (layout true thinFrags [firstn 1 thinFrags; firstn 2 (skipn 1 thinFrags); skipn 3 thinFrags]) as Hthree.
  { apply (lay_cut true [] (mkFrag (txt "xx") false Space)); [reflexivity|].
    apply (lay_cut true [mkFrag (txt "ab") false Soft] (mkFrag (txt "cd") false Soft)); [reflexivity|]. apply lay_last. discriminate. }
  change (negb (feq B (l_hyphenPenalty exO) (fZ B 10000))) with true in H.
  assert (forallb (fun s => negb (linesOk true exM 1 1 B (k_tolerance (l_search exO)) 7 true s) || (length (last s []) <? 4)%nat || (3 <=? length s)%nat)
    (layouts true thinFrags) = true) as Hall by (vm_compute; reflexivity).
  rewrite forallb_forall in Hall. exists exB. destruct res as [ls|].
  - destruct H as (segs & -> & Hl & Hok & Hbest). exists (map (lineText (l_renderHyphens exO)) segs), lb'. split; [exact ex_new|]. split; [exact E|].
    specialize (Hbest ltac:(lia) _ Hthree ltac:(vm_compute; reflexivity)). cbn [last] in Hbest. change (length (skipn 3 thinFrags)) with 4%nat in Hbest.
    specialize (Hall segs (layouts_all _ _ _ Hl)). rewrite map_length. apply orb_prop in Hall. destruct Hall as [Hall|Hall]; [|now apply Nat.leb_le].
    apply orb_prop in Hall. destruct Hall as [Hall|Hall]; [|apply Nat.ltb_lt in Hall; lia]. exfalso.
    change (linesOk true exM 1 1 B (k_tolerance (l_search exO)) 7 true segs = true) in Hok. now rewrite Hok in Hall.
  - exfalso. apply H. exists twoLines. split; [exact Htwo|vm_compute; reflexivity].
Qed.
Print Assumptions C91_thin_refuted.

(** C121: a wider column needs no more lines. With the same iteration order, no *)
Theorem C121_wider_refuted : exists tokens w1 w2, w1 < w2 /\
  run exOpts (from 2) tokens (n w1) = lines ["one"; "ab-"; "cdef-"; "gh xyz"]%string /\
  run exOpts (from 2) tokens (n w2) = lines ["one"; "ab-"; "cd-"; "ef-"; "gh xyz"]%string.
Proof. exists oneTokens, 6, 7. split; [lia|]. split; vm_compute; reflexivity. Qed.
Print Assumptions C121_wider_refuted.
(** With some order, yes, when C85 applies and no part of a word is narrower than the hyphen *)
Theorem C121_wider_partial : forall A L u o m punct parts tokens w1 w2 W1 W2 lb1 spare1 ord1 lb2 spare2 ord2,
  plainCall A L u o m punct parts lb1 tokens spare1 w1 W1 ord1 ->
  plainCall A L u o m punct parts lb2 tokens spare2 w2 W2 ord2 ->
  k_tolerance (l_search o) = fTolerance A -> l_renderHyphens o = true \/ l_wordBreak o = false ->
  marksGlued (negb (feq A (l_hyphenPenalty o) (fZ A 10000))) (fragsOf u o punct parts tokens) ->
  (l_renderHyphens o = true -> Forall (fun f => hyphenW o m <= m (f_text f)) (fragsOf u o punct parts tokens)) ->
  W1 + m [32] <= 52 -> W1 <= W2 <= 85948 ->
  forall ls lb1', leftAlignUniform A u ord1 spare1 lb1 tokens w1 = Ret (Some ls, lb1') ->
  exists ls2 ord lb2', (forall i k, Permutation (ord i k) [C0; C1; C2; C3]) /\
    leftAlignUniform A u ord spare2 lb2 tokens w2 = Ret (Some ls2, lb2') /\ (length ls2 <= length ls)%nat.
Proof. exact wider_count. Qed.
Print Assumptions C121_wider_partial.
Example C121_ex w1 w2 k : 0 < w1 <= 51 -> w1 <= w2 <= 85948 ->
  plainCall B BL ascii exO exM exPunct pairs exB (map txt oneTokens) (fun _ => []) (n w1) (1 * w1) (from k) /\
  plainCall B BL ascii exO exM exPunct pairs exB (map txt oneTokens) (fun _ => []) (n w2) (1 * w2) (from k) /\
  k_tolerance (l_search exO) = fTolerance B /\ l_renderHyphens exO = true /\
  marksGlued (negb (feq B (l_hyphenPenalty exO) (fZ B 10000))) (fragsOf ascii exO exPunct pairs (map txt oneTokens)) /\
  (l_renderHyphens exO = true -> Forall (fun f => hyphenW exO exM <= exM (f_text f)) (fragsOf ascii exO exPunct pairs (map txt oneTokens))) /\
  1 * w1 + exM [32] <= 52 /\ 1 * w1 <= 1 * w2 <= 85948 /\
  run exOpts (from 0) oneTokens (n 7) = lines ["one"; "abcdef-"; "gh xyz"]%string.
Proof.
  intros H1 H2. destruct (C91_ex_call w1 k) as (P1 & _ & P3 & P4); [lia|]. destruct (C91_ex_call w2 k) as (Q1 & _); [lia|].
  split; [exact P1|]. split; [exact Q1|]. split; [reflexivity|]. split; [reflexivity|]. split; [exact P3|]. split; [exact P4|].
  change (exM [32]) with 1. split; [lia|]. split; [lia|]. vm_compute. reflexivity.
Qed.
