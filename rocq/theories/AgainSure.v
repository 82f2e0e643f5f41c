(** Setting the lines again, with a tolerance of at most 1/2. *)
From Verif Require Import Base Arith Unicode Split SpecSplit SpecAnsi Hyph KP Nodes Render SpecKP Align Options Call Settings AlignProofs Again Sure PropSure.

Lemma again_half A L u o m punct parts tokens maxWidth W lb1 spare1 ord1 lb2 spare2 ord2 gs words :
  plainCall A L u o m punct parts lb1 tokens spare1 maxWidth W ord1 ->
  plainCall A L u o m punct parts lb2 words spare2 maxWidth W ord2 ->
  fle A (k_tolerance (l_search o)) (fHalf A) = true -> Forall (Forall (fun r => isSpace r = false)) tokens ->
  forall ls lb1', leftAlignUniform A u ord1 spare1 lb1 tokens maxWidth = Ret (Some ls, lb1') ->
  concat gs = tokens -> ls = map (joinWith 32) gs -> tokenizerBreakWord (joinWith 10 ls) = Ret words ->
  words = tokens /\ exists lb2', leftAlignUniform A u ord2 spare2 lb2 words maxWidth = Ret (Some ls, lb2').
Proof.
  intros C1 C2 Ht Hb ls lb1' E Eg El Ew. destruct C1 as [D1 D2 D3 D4 D5 D6 D7 D8] eqn:EC. clear EC. pose proof C2 as C2'. destruct C2' as [F1 F2 F3 F4 F5 F6 F7 F8].
  assert (Forall (fun t => t <> [] /\ Forall (fun r => isSpace r = false) t) tokens) as Hn.
  { destruct D4 as [_ D4]. rewrite Forall_forall in *. intros t Hin. split; [now apply D4|now apply Hb]. }
  destruct (Again.align_same A u o tokens maxWidth lb1 spare1 lb2 spare2 ord1 gs words D2 F2 D3 F3 Hn ls lb1' E Eg El Ew) as [Hw (lb2' & E2)].
  split; [exact Hw|]. subst words.
  assert (plainCall A L u o m punct parts lb2 tokens spare2 maxWidth W ord1) as C3 by (constructor; assumption).
  destruct (C137_sure A L u o m punct parts tokens maxWidth W lb2 spare2 ord1 lb2 spare2 ord2 C3 C2 Ht) as (res & l1 & l2 & G1 & G2).
  rewrite E2 in G1. injection G1 as <- <-. exists l2. exact G2.
Qed.
