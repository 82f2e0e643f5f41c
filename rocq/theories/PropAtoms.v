(** C133: exactly which texts can be set. [plainCall], [fragsOf] are in Call.v, [layout], [cuttable] in SpecKP.v, [marksGlued] in
    Compare.v, [atoms] in Atoms.v. *)
From Coq Require Import String Ascii.
From Verif Require Import Base Arith ArithB64 Unicode Split SpecSplit Ansi SpecAnsi Hyph Nodes KP Render SpecKP Align Options Call Settings
  Fresh Compare Atoms PropAlign PropCombine PropCompare PropFewest.
Open Scope Z_scope.

(** The pieces of a text: it is cut at every place where a line can be cut *)
Theorem C133_atoms : forall softOn fs, fs <> [] -> layout softOn fs (atoms softOn fs) /\
  forall s a f b, In s (atoms softOn fs) -> s = a ++ f :: b -> b <> [] -> cuttable softOn f = false.
Proof. exact (fun softOn fs H => conj (atoms_layout softOn fs H) (atoms_whole softOn fs)). Qed.
Print Assumptions C133_atoms.
(** A text is set exactly when all of them fit; for lines of at most 51 columns *)
Theorem C133_exactly_partial : forall A L u o m punct parts lb tokens spare maxWidth W ord,
  plainCall A L u o m punct parts lb tokens spare maxWidth W ord -> k_tolerance (l_search o) = fTolerance A ->
  l_renderHyphens o = true \/ l_wordBreak o = false ->
  let softOn := negb (feq A (l_hyphenPenalty o) (fZ A 10000)) in
  let frs := fragsOf u o punct parts tokens in
  marksGlued softOn frs -> (l_renderHyphens o = true -> Forall (fun f => hyphenW o m <= m (f_text f)) frs) -> W + m [32] <= 52 ->
  ((exists ls lb', leftAlignUniform A u ord spare lb tokens maxWidth = Ret (Some ls, lb')) <->
   Forall (fun s => lineWidth (l_renderHyphens o) m (m [32]) (hyphenW o m) s <= W) (atoms softOn frs)).
Proof. exact align_atoms. Qed.
Print Assumptions C133_exactly_partial.
(** "one" "abcdefgh" "xyz" with a hyphenator that cuts every two letters: the widest pieces have three columns *)
Example C133_ex w k : 0 < w <= 51 ->
  plainCall B BL ascii exO exM exPunct pairs exB (map txt oneTokens) (fun _ => []) (n w) (1 * w) (from k) /\
  marksGlued (negb (feq B (l_hyphenPenalty exO) (fZ B 10000))) (fragsOf ascii exO exPunct pairs (map txt oneTokens)) /\
  (l_renderHyphens exO = true -> Forall (fun f => hyphenW exO exM <= exM (f_text f)) (fragsOf ascii exO exPunct pairs (map txt oneTokens))) /\
  map (lineText true) (atoms true (fragsOf ascii exO exPunct pairs (map txt oneTokens))) = map txt ["one"; "ab-"; "cd-"; "ef-"; "gh"; "xyz"]%string /\
  run exOpts (from 0) oneTokens (n 2) = Ret None /\ run exOpts (from 0) oneTokens (n 3) = lines ["one"; "ab-"; "cd-"; "ef-"; "gh"; "xyz"]%string.
Proof.
  intros H. destruct (C91_ex_call w k) as (P1 & _ & P3 & P4); [lia|]. split; [exact P1|]. split; [exact P3|]. split; [exact P4|].
  split; [vm_compute; reflexivity|]. split; vm_compute; reflexivity.
Qed.

(** A mark after a place where the line can be cut: all pieces fit in 7 columns *)
Theorem C133_mark_refuted : exists tokens w,
  Forall (fun s => lineWidth true exM 1 1 s <= w) (atoms true (fragsOf ascii exO exPunct (fun w => [w]) (map txt tokens))) /\
  run [WithHyphenator (Some (fun w => Ret [w]))] (from 0) tokens (n w) = Ret None.
Proof.
  exists ["bbbbbb"; "-aaaaa"; "cccccc"]%string, 7. split; [|vm_compute; reflexivity].
  match goal with |- Forall _ ?l => let v := eval vm_compute in l in replace l with v by (vm_compute; reflexivity) end.
  repeat constructor; vm_compute; discriminate.
Qed.
Print Assumptions C133_mark_refuted.
(** Words of 60 columns on lines of 118 *)
Theorem C133_wide_refuted : exists tokens w, Forall (fun t => cols (txt t) <= w) tokens /\
  run [WithWordBreak false] (from 0) tokens (n w) = Ret None.
Proof. exists [sixty "a"; "bbbbb"; sixty "c"]%string, 118. split; [repeat constructor; vm_compute; discriminate|]. vm_compute. reflexivity. Qed.
Print Assumptions C133_wide_refuted.
