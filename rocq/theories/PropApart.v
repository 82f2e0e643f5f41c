(** C136: pieces of a text that cannot be on the same line. [plainCall], [fragsOf] are in Call.v, [atoms] in Atoms.v (C133). *)
From Coq Require Import String Ascii.
From Verif Require Import Base Arith ArithB64 Unicode Split SpecSplit Ansi SpecAnsi Hyph Nodes KP Render SpecKP Align Options Call Settings
  Fresh Compare Atoms Apart PropAlign PropCombine PropCompare PropFewest.
Open Scope Z_scope.

(** A line each, whatever the iteration order of the map *)
Theorem C136_apart : forall A L u o m punct parts lb tokens spare maxWidth W ord,
  plainCall A L u o m punct parts lb tokens spare maxWidth W ord ->
  let softOn := negb (feq A (l_hyphenPenalty o) (fZ A 10000)) in
  let frs := fragsOf u o punct parts tokens in
  (forall p a b q, atoms softOn frs = p ++ a :: b :: q -> W < lineWidth (l_renderHyphens o) m (m [32]) (hyphenW o m) (a ++ b)) ->
  forall ls lb', leftAlignUniform A u ord spare lb tokens maxWidth = Ret (Some ls, lb') -> ls = map (lineText (l_renderHyphens o)) (atoms softOn frs).
Proof. exact align_apart_pieces. Qed.
Print Assumptions C136_apart.
(** C91_ex_call is the call. *)
Lemma adjacent {X} (l : list X) p a b q : l = p ++ a :: b :: q -> In (a, b) (combine l (tl l)).
Proof.
  intros ->. induction p as [|x p IH]; [now left|]. cbn [app tl]. destruct p as [|y p]; [right; now left|]. right. exact IH.
Qed.
Example C136_ex p a b q : atoms true (fragsOf ascii exO exPunct pairs (map txt oneTokens)) = p ++ a :: b :: q ->
  3 < lineWidth true exM 1 1 (a ++ b).
Proof.
  intros E. apply adjacent in E.
  assert (forallb (fun x => 3 <? lineWidth true exM 1 1 (fst x ++ snd x)) (let l := atoms true (fragsOf ascii exO exPunct pairs (map txt oneTokens)) in combine l (tl l)) = true) as H
    by (vm_compute; reflexivity).
  rewrite forallb_forall in H. specialize (H _ E). now apply Z.ltb_lt in H.
Qed.
Example C136_ex_run : map (fun k => run exOpts (from k) oneTokens (n 3)) [0; 1; 2; 3]%nat = repeat (lines ["one"; "ab-"; "cd-"; "ef-"; "gh"; "xyz"]%string) 4.
Proof. vm_compute. reflexivity. Qed.
