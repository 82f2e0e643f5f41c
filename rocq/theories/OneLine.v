(** The runes of the lines. *)
From Verif Require Import Base Arith Unicode Split SpecSplit SplitProofs Ansi SpecAnsi AnsiProofs Attr Hyph KP Nodes Render SpecKP Tokens Align
  Options Call Settings AlignProofs.
Open Scope Z_scope.

Lemma reflow_runes rh t ls : reflow rh t ls -> forall l r, In l ls -> In r l -> In r t \/ (rh = true /\ r = 45).
Proof.
  induction 1 as [t N|t rest ls N _ IH|t rest ls N _ IH|t rest ls E N _ IH]; intros l r [<-|Hl] Hr; try (now left); try contradiction;
    try (apply in_app_or in Hr; destruct Hr as [Hr|[<-|[]]]); try (now right); try (left; apply in_or_app; now left);
    destruct (IH l r Hl Hr) as [H|H]; try (now right); left; apply in_or_app; right; try right; exact H.
Qed.
Lemma join_in sep (ts : list (list rune)) r : In r (joinWith sep ts) -> r = sep \/ exists t, In t ts /\ In r t.
Proof.
  induction ts as [|t ts IH]; [intros []|]. destruct ts as [|t2 ts]; [intros H; right; exists t; split; [now left|exact H]|].
  change (joinWith sep (t :: t2 :: ts)) with (t ++ sep :: joinWith sep (t2 :: ts)). intros H. apply in_app_or in H. destruct H as [H|[<-|H]].
  - right. exists t. split; [now left|exact H].
  - now left.
  - destruct (IH H) as [E|(x & I & J)]; [now left|]. right. exists x. split; [now right|exact J].
Qed.
(** C131 *)
Lemma lines_runes A L u o m punct parts lb tokens spare maxWidth W ord :
  plainCall A L u o m punct parts lb tokens spare maxWidth W ord -> forall ls lb',
  leftAlignUniform A u ord spare lb tokens maxWidth = Ret (Some ls, lb') ->
  forall l r, In l ls -> In r l -> r = 32 \/ (l_renderHyphens o = true /\ r = 45) \/ exists t, In t tokens /\ In r t.
Proof.
  intros K ls lb' E l r Hl Hr. destruct (reflow_runes _ _ _ (align_reflow A L u o m punct parts lb tokens spare maxWidth W ord K ls lb' E) l r Hl Hr) as [H|H]; [|now right; left].
  destruct (join_in 32 tokens r H) as [->|H1]; [now left|right; now right].
Qed.
Lemma lines_text A L u o m punct parts lb text tokens spare maxWidth W ord : tokenizerBreakWord text = Ret tokens ->
  plainCall A L u o m punct parts lb tokens spare maxWidth W ord -> forall ls lb',
  leftAlignUniform A u ord spare lb tokens maxWidth = Ret (Some ls, lb') ->
  forall l r, In l ls -> In r l -> isSpace r = true -> r = 32.
Proof.
  intros Et K ls lb' E l r Hl Hr Hs. destruct (tokenizer_keeps text) as (ts & E1 & H1 & _). rewrite Et in E1. injection E1 as <-.
  destruct (lines_runes A L u o m punct parts lb tokens spare maxWidth W ord K ls lb' E l r Hl Hr) as [H|[[_ ->]|(t & Ht & Hin)]]; [exact H|discriminate|].
  exfalso. rewrite Forall_forall in H1. destruct (H1 t Ht) as [_ H2]. rewrite Forall_forall in H2. rewrite (H2 r Hin) in Hs. discriminate.
Qed.
