(** What a LineBreaker keeps between calls. *)
From Verif Require Import Base Arith Unicode Split SpecSplit SplitProofs Ansi SpecAnsi AnsiProofs Attr Hyph KP Nodes Render SpecKP Tokens Align
  Options Call Settings AlignProofs.

Lemma call_kept A L u o m punct parts lb tokens spare maxWidth W ord : plainCall A L u o m punct parts lb tokens spare maxWidth W ord ->
  forall res lb', leftAlignUniform A u ord spare lb tokens maxWidth = Ret (res, lb') ->
  lb_attrs lb' = lb_attrs lb ++ map (fun f => newAttr (f_text f) [] []) (fragsOf u o punct parts tokens).
Proof.
  intros [S U [Ht1 Ht2] [Hne1 Hne2] Hwidth HmaxW HW Hord] res lb' Ec. destruct (settings_regular A L u o m punct parts S lb U) as (R & Hp & E).
  pose proof (frs_eq A L u o m punct parts S lb U tokens) as Ef.
  assert (Forall (fun t => t <> [] /\ ~ hasCSI t /\ Forall okRune t) tokens) as Htok.
  { rewrite Forall_forall in *. intros t Hin. split; [now apply Hne2|now apply Ht1]. }
  rewrite <- Ef, <- E in Hwidth. rewrite <- E in HmaxW. rewrite <- E in R.
  pose proof (align_spec A L u lb m (m [32]) (hyphenW (lb_opts lb) m) punct parts R Hp tokens spare Hne1 Htok Ht2 Hwidth W HW maxWidth HmaxW ord Hord) as G.
  destruct G as [(H1 & _)|(segs & H1 & _)]; rewrite H1 in Ec; injection Ec as _ <-; unfold after; cbn [lb_attrs]; rewrite Ef; reflexivity.
Qed.

(** [calls lb texts lb']: calls of LeftAlignUniform on the texts, one after the other *)
Inductive calls (A : arith) (L : laws A) (u : unicode) (o : lopts A) (m : list rune -> Z) (punct parts : list rune -> list (list rune)) :
  breaker A -> list (list (list rune)) -> breaker A -> Prop :=
| cs_none : forall lb, calls A L u o m punct parts lb [] lb
| cs_call : forall lb texts lb' tokens spare maxWidth W ord res lb'', calls A L u o m punct parts lb texts lb' ->
    plainCall A L u o m punct parts lb' tokens spare maxWidth W ord ->
    leftAlignUniform A u ord spare lb' tokens maxWidth = Ret (res, lb'') -> calls A L u o m punct parts lb (texts ++ [tokens]) lb''.

Theorem calls_kept A L u o m punct parts lb texts lb' : newBreaker A o = Ret lb -> calls A L u o m punct parts lb texts lb' ->
  lb_attrs lb' = flat_map (fun tokens => map (fun f => newAttr (f_text f) [] []) (fragsOf u o punct parts tokens)) texts.
Proof.
  intros En H. induction H as [lb|lb texts lb' tokens spare maxWidth W ord res lb'' _ IH C E].
  - unfold newBreaker in En. destruct (measure A o [32]); cbn [gbind] in En; [|discriminate].
    destruct (if l_wordBreak o then measure A o [45] else Ret (fZ A 0)); cbn [gbind] in En; [|discriminate]. now injection En as <-.
  - rewrite (call_kept _ _ _ _ _ _ _ _ _ _ _ _ _ C _ _ E), (IH En), flat_map_app. cbn [flat_map]. now rewrite app_nil_r.
Qed.
(** at least one renderer by call *)
Theorem calls_grow A L u o m punct parts lb texts lb' : newBreaker A o = Ret lb -> calls A L u o m punct parts lb texts lb' ->
  zlen texts <= zlen (lb_attrs lb').
Proof.
  intros En H. rewrite (calls_kept _ _ _ _ _ _ _ _ _ _ En H). induction H as [lb|lb texts lb' tokens spare maxWidth W ord res lb'' _ IH C E]; [unfold zlen; cbn; lia|].
  specialize (IH En). rewrite flat_map_app. unfold zlen in *. rewrite !app_length. cbn [flat_map length]. rewrite app_nil_r, map_length.
  destruct (shape _ _ _ _ _ _ _ _ _ _ _ _ _ C) as (ini & f & -> & _). rewrite app_length. cbn [length]. lia.
Qed.
