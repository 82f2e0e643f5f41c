(** C87 for tokens with escape sequences. [run] and [token] are those of C64, [greedy] is in SpecGreedy.v. *)
From Coq Require Import String Ascii Permutation.
From Verif Require Import Base Arith ArithB64 Unicode Split SpecSplit Ansi SpecAnsi Hyph Nodes KP Render SpecKP SpecGreedy Align Options Call Settings
  Fresh PropAlign SpecFormat Format PropFormat GreedyFormat.
Open Scope Z_scope.

(** The results of a call, for all the iteration orders of the map of candidates, are exactly the greedy layouts of the texts,
    some of the sequences of the tokens being inserted *)
Theorem C87_formatted : forall A L u o m punct parts lb ts spare1 spare2 maxWidth W ord,
  plainCall A L u o m punct parts lb (map tokenText ts) spare2 maxWidth W ord ->
  (forall j x, nth_error ts j = Some x -> token A u o x (spare1 j) (spare2 j)) ->
  let greedy := greedy (l_renderHyphens o) (negb (feq A (l_hyphenPenalty o) (fZ A 10000))) m (m [32]) (hyphenW o m) A (k_tolerance (l_search o)) W
    (fragsOf u o punct parts (map tokenText ts)) 0 in
  let shows ls segs := Forall2 (fun l seg => decorated (sequencesOf (concat ts)) l (lineText (l_renderHyphens o) seg) /\
    reads u l (lineText (l_renderHyphens o) seg)) ls segs in
  (forall ord' ls lb', (forall i k, Permutation (ord' i k) [C0; C1; C2; C3]) ->
     leftAlignUniform A u ord' spare1 lb (map tokenRunes ts) maxWidth = Ret (Some ls, lb') -> exists segs, greedy segs /\ shows ls segs) /\
  (forall segs, greedy segs -> exists ord' ls lb', (forall i k, Permutation (ord' i k) [C0; C1; C2; C3]) /\
     leftAlignUniform A u ord' spare1 lb (map tokenRunes ts) maxWidth = Ret (Some ls, lb') /\ shows ls segs).
Proof. exact formatted_greedy. Qed.
Print Assumptions C87_formatted.

(** The tokens of C64, "abcdef" being in bold face: [C64_ex_token] and *)
Example C87_ex_formatted_call w k : 0 < w <= 2 ^ 30 ->
  plainCall B BL digits fO exM fPunct pairs fB (map tokenText exDoc64) (fun _ => []) (n w) (1 * w) (from k).
Proof.
  intros Hw. assert (map tokenText exDoc64 = map txt ["ab,"; "abcdef,"; "xyz"]%string) as -> by (vm_compute; reflexivity).
  apply make_call; [exact f_settings|apply us_new; exact f_new|apply plain_check; vm_compute; reflexivity| | | | |lia|apply from_all].
  - split; [discriminate|]. repeat constructor; discriminate.
  - intros a b. unfold exM. rewrite cols_app. lia.
  - vm_compute. discriminate.
  - apply scaled_width with (k := 1) (n := w); [apply (rep_Z B BL); unfold exactZ; lia|lia|apply (rep_Z B BL); unfold exactZ; lia|lia|lia].
Qed.
(** In 8 columns, another order of the map gives another layout *)
Definition ordered (k : nat) (ts : list (list SpecFormat.run)) (width : F B) : go (option (list (list rune))) :=
  let! x := leftAlignUniform B digits (from k) (fun _ => []) fB (map tokenRunes ts) width in Ret (fst x).
Definition exDoc87 : list (list SpecFormat.run) := [[plain "one"]; [fmt boldOn "abcdefgh"]; [plain "xyz"]]%string.
Example C87_ex_formatted :
  ordered 0 exDoc87 (n 8) = Ret (Some [txt "one"; boldOn ++ txt "abcd-" ++ off; boldOn ++ txt "efgh" ++ off ++ txt " xyz"]) /\
  ordered 2 exDoc87 (n 8) = Ret (Some [txt "one"; boldOn ++ txt "ab-" ++ off; boldOn ++ txt "cd-" ++ off; boldOn ++ txt "efgh" ++ off ++ txt " xyz"]).
Proof. split; vm_compute; reflexivity. Qed.
