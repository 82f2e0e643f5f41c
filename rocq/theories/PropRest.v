(** C125: a text cut where a line ends. [plainCall] as in PropAlign.v. *)
From Coq Require Import String Ascii Permutation.
From Verif Require Import Base Arith ArithB64 Unicode Split SpecSplit SpecAnsi Hyph Nodes KP Render SpecKP SpecGreedy Align Options Call Settings
  AlignProofs Fresh Succeed Compare Sub SpecFormat Format PropAlign Greedy Fewest Counts PropFewest PropCounts Rest.
Open Scope Z_scope.

(** If a line ends with a token, the lines after it can be returned for the next tokens alone, unless these start with a mark *)
Theorem C125_rest_partial : forall A L u o m punct parts lb tokens spare maxWidth W ord,
  plainCall A L u o m punct parts lb tokens spare maxWidth W ord ->
  forall ls lb', leftAlignUniform A u ord spare lb tokens maxWidth = Ret (Some ls, lb') ->
  exists segs, ls = map (lineText (l_renderHyphens o)) segs /\
  layout (negb (feq A (l_hyphenPenalty o) (fZ A 10000))) (fragsOf u o punct parts tokens) segs /\
  forall pre post t1 t2, segs = pre ++ post -> tokens = t1 ++ t2 -> t1 <> [] -> t2 <> [] -> length (concat post) = length (fragsOf u o punct parts t2) ->
    startsWithMark (fragsOf u o punct parts t2) = false ->
    forall lb2 spare2 ord2, plainCall A L u o m punct parts lb2 t2 spare2 maxWidth W ord2 ->
    exists ord' lb2', (forall i k, Permutation (ord' i k) [C0; C1; C2; C3]) /\
      leftAlignUniform A u ord' spare2 lb2 t2 maxWidth = Ret (Some (map (lineText (l_renderHyphens o)) post), lb2').
Proof. exact align_rest. Qed.
Print Assumptions C125_rest_partial.
(** Words that are not cut, without marks: after any line *)
Theorem C125_words_partial : forall A L u o m punct parts lb tokens spare maxWidth W ord,
  plainCall A L u o m punct parts lb tokens spare maxWidth W ord -> l_punctuator o = defaultPunctuator u ->
  Forall (fun t => Forall (fun r => punctSplitFunc u r = false) t /\ (l_wordBreak o = true -> zlen t <= 4)) tokens ->
  forall ls lb', leftAlignUniform A u ord spare lb tokens maxWidth = Ret (Some ls, lb') ->
  exists gs, concat gs = tokens /\ ls = map (joinWith 32) gs /\
  forall g1 g2, gs = g1 ++ g2 -> g2 <> [] ->
    forall lb2 spare2 ord2, plainCall A L u o m punct parts lb2 (concat g2) spare2 maxWidth W ord2 ->
    exists ord' lb2', (forall i k, Permutation (ord' i k) [C0; C1; C2; C3]) /\
      leftAlignUniform A u ord' spare2 lb2 (concat g2) maxWidth = Ret (Some (map (joinWith 32) g2), lb2').
Proof. exact align_rest_words. Qed.
Print Assumptions C125_words_partial.
Definition someWords : list string := ["one"; "two"; "thre"; "four"; "five"; "six"; "sevn"; "eigh"; "nine"]%string.
Example C125_ex : plainCall B BL ascii exO exM exPunct pairs exB (map txt someWords) (fun _ => []) (n 15) (1 * 15) (from 2) /\
  l_punctuator exO = defaultPunctuator ascii /\
  Forall (fun t => Forall (fun r => punctSplitFunc ascii r = false) t /\ (l_wordBreak exO = true -> zlen t <= 4)) (map txt someWords) /\
  run exOpts (from 2) someWords (n 15) = lines ["one two"; "thre four"; "five six"; "sevn eigh nine"]%string /\
  run exOpts (from 2) ["thre"; "four"; "five"; "six"; "sevn"; "eigh"; "nine"]%string (n 15) = lines ["thre four"; "five six"; "sevn eigh nine"]%string.
Proof.
  split; [apply any_call; [vm_compute; reflexivity|discriminate|vm_compute; reflexivity|vm_compute; discriminate|lia|exact (from_all 2)]|].
  split; [reflexivity|]. split; [repeat (constructor; [split; [repeat constructor|intros _; vm_compute; discriminate]|]); constructor|].
  split; vm_compute; reflexivity.
Qed.

(** To see that lines are not returned, for any order: another layout has a longer last line *)
Lemma never tokens w segs bad : forallb (fun t => forallb (fun r => (0 <=? r) && (r <=? 0x10ffff) && negb (r =? 27)) t && (zlen t <? 1000)) (map txt tokens) = true ->
  tokens <> [] -> forallb (fun t => negb (zlen t =? 0)) (map txt tokens) = true -> exM (joinWith 32 (map txt tokens)) <= 2 ^ 50 -> 0 < w <= 4997 ->
  let fs := fragsOf ascii exO exPunct pairs (map txt tokens) in
  layout true fs segs -> linesOk true exM 1 1 B (k_tolerance (l_search exO)) (1 * w) true segs = true ->
  forallb (fun s => (length (last s []) <? length (last segs []))%nat || (if list_eq_dec (list_eq_dec Z.eq_dec) (map (lineText true) s) (map txt bad) then false else true))
    (layouts true fs) = true ->
  forall ord, (forall i k c, In c (ord i k)) -> run exOpts ord tokens (n w) <> lines bad.
Proof.
  intros H1 H2 H3 H4 Hw fs Hl Hok Hall ord Ho. pose proof (any_call tokens w ord H1 H2 H3 H4 ltac:(lia) Ho) as C.
  destruct (call B BL ascii exO exM exPunct pairs exB (map txt tokens) (fun _ => []) (n w) (1 * w) ord C) as (res & lb' & E & _ & H).
  unfold run. rewrite ex_new. cbn [gbind]. rewrite E. cbn [gbind fst]. change (negb (feq B (l_hyphenPenalty exO) (fZ B 10000))) with true in H.
  destruct res as [ls|]; [|discriminate]. destruct H as (s & -> & Hs & Hoks & Hbest). specialize (Hbest ltac:(lia) segs Hl Hok).
  rewrite forallb_forall in Hall. specialize (Hall s (layouts_all _ _ _ Hs)). apply orb_prop in Hall. destruct Hall as [Hall|Hall].
  - apply Nat.ltb_lt in Hall. fold fs in Hbest. lia.
  - change (l_renderHyphens exO) with true. unfold lines. intros N. injection N as N. destruct (list_eq_dec _ _ _) as [|Hd]; [discriminate|]. now apply Hd.
Qed.

(** The rest starts with a mark: the line "(a" is allowed as a first line only, so that "b" and "c" are on different lines in
    the whole text, and never for the rest alone *)
Theorem C125_mark_refuted : exists t1 t2 l1 l2 w, run exOpts (from 0) t1 (n w) = lines l1 /\
  run exOpts (from 0) (t1 ++ t2) (n w) = lines (l1 ++ l2) /\ l1 = ["xxxx"]%string /\ l2 = ["(a b"; "c"]%string /\
  forall ord, (forall i k c, In c (ord i k)) -> run exOpts ord t2 (n w) <> lines l2.
Proof.
  exists ["xxxx"]%string, ["(a"; "b"; "c"]%string, ["xxxx"]%string, ["(a b"; "c"]%string, 4.
  split; [vm_compute; reflexivity|]. split; [vm_compute; reflexivity|]. split; [reflexivity|]. split; [reflexivity|].
  set (fs := fragsOf ascii exO exPunct pairs (map txt ["(a"; "b"; "c"]%string)).
  apply (never _ _ [firstn 2 fs; skipn 2 fs]); [vm_compute; reflexivity|discriminate|vm_compute; reflexivity|vm_compute; discriminate|lia| |vm_compute; reflexivity|vm_compute; reflexivity].
  apply (lay_cut true [mkFrag (txt "(") true Glued] (mkFrag (txt "a") false Space)); [reflexivity|]. apply lay_last. discriminate.
Qed.
Print Assumptions C125_mark_refuted.
(** The lines before the cut: they are never those of the beginning alone, whose last line is as long as can be *)
Theorem C125_before_refuted : exists t1 t2 l1 l2 w, run exOpts (from 2) (t1 ++ t2) (n w) = lines (l1 ++ l2) /\
  l1 = ["one two"; "thre four"]%string /\ t1 = ["one"; "two"; "thre"; "four"]%string /\
  forall ord, (forall i k c, In c (ord i k)) -> run exOpts ord t1 (n w) <> lines l1.
Proof.
  exists ["one"; "two"; "thre"; "four"]%string, ["five"; "six"; "sevn"; "eigh"; "nine"]%string, ["one two"; "thre four"]%string, ["five six"; "sevn eigh nine"]%string, 15.
  split; [vm_compute; reflexivity|]. split; [reflexivity|]. split; [reflexivity|].
  set (fs := fragsOf ascii exO exPunct pairs (map txt ["one"; "two"; "thre"; "four"]%string)).
  apply (never _ _ [firstn 1 fs; skipn 1 fs]); [vm_compute; reflexivity|discriminate|vm_compute; reflexivity|vm_compute; discriminate|lia| |vm_compute; reflexivity|vm_compute; reflexivity].
  apply (lay_cut true [] (mkFrag (txt "one") false Space)); [reflexivity|]. apply lay_last. discriminate.
Qed.
Print Assumptions C125_before_refuted.
