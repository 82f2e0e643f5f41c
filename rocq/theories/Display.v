(** The lines of LeftAlignUniform in terminal columns. *)
From Verif Require Import Base Arith Unicode Split SpecSplit SplitProofs Width SpecWidth WidthProofs Ansi SpecAnsi AnsiProofs Attr Hyph KP Nodes Render SpecKP Tokens Align
  Options Call Settings AlignProofs Fresh.
Open Scope Z_scope.

(** A measurer that calls runes.Widths with some options; without options, the default one (linebreak/options.go:139) *)
Definition columnMeasurer (A : arith) (wo : list wopt) (v : list rune) : go (F A) := let! w := widths v wo in Ret (fZ A w).

Section Display.
Variable wo : list wopt.
Notation w := (optionsWithDefaults wo).
Hypothesis Hamb : 0 <= defaultAsianAmbiguousWidth w.
Definition colOf (r : rune) : Z := if negb (eastAsian w) && (r =? 0x2e3b) then 0 else rwSpec r w.
Definition colsOf (t : list rune) : Z := zsum (map colOf t).
Lemma colsOf_app a b : colsOf (a ++ b) = colsOf a + colsOf b.
Proof. unfold colsOf. rewrite map_app. apply zsum_app. Qed.
Lemma colOf_bounds r : 0 <= colOf r <= Z.max 4 (defaultAsianAmbiguousWidth w).
Proof. unfold colOf. pose proof (rwSpec_bounds r w Hamb). destruct (_ && _); lia. Qed.
Lemma colsOf_bounds t : 0 <= colsOf t <= Z.max 4 (defaultAsianAmbiguousWidth w) * zlen t.
Proof.
  unfold colsOf, zlen. induction t as [|r t IH]; [cbn; lia|]. cbn [map length]. change (zsum (?a :: ?l)) with (a + zsum l). pose proof (colOf_bounds r). nia.
Qed.
Lemma widths_cols t : Forall okRune t -> widths t wo = Ret (colsOf t).
Proof.
  intros Ht. destruct (eastAsian w) eqn:E.
  - rewrite widths_east by exact E. unfold colsOf. do 2 f_equal. apply map_ext. intros r. unfold colOf. now rewrite E.
  - rewrite widths_default by (exact E || exact Ht). unfold colsOf. do 2 f_equal. apply map_ext. intros r. unfold colOf. rewrite E. cbn [negb andb].
    destruct (r =? 0x2e3b); [reflexivity|]. now apply rwSpec_noneast.
Qed.
Lemma column_measures A L : measures A L (columnMeasurer A wo) colsOf.
Proof.
  split; [intros t; apply colsOf_bounds|]. split; [exact colsOf_app|]. intros t Ht Hw. unfold columnMeasurer. rewrite widths_cols by exact Ht. cbn [gbind].
  eexists. split; [reflexivity|]. apply rep_Z. pose proof (colsOf_bounds t). unfold exactZ. lia.
Qed.
Lemma col_ascii r : r = 32 \/ r = 45 -> colsOf [r] = 1.
Proof.
  clear Hamb. intros H. unfold colsOf. cbn [map]. change (zsum [?a]) with (a + 0). unfold colOf.
  destruct w as [[|] s a]; destruct H as [-> | ->]; vm_compute; reflexivity.
Qed.
Lemma column_ok A L : okOption A L (WithMeasurer (columnMeasurer A wo)).
Proof. exists colsOf. split; [apply column_measures|]. rewrite !col_ascii by auto. split; [reflexivity|]. lia. Qed.
Definition counted (t : list rune) : Prop := eastAsian w = false -> ~ In 0x2e3b t.
Lemma cols_width t : counted t -> exists ws, Forall2 (fun r x => width r wo = Ret x) t ws /\ zsum ws = colsOf t.
Proof.
  intros Ht. exists (map (fun r => rwSpec r w) t). split.
  - clear Ht. induction t as [|r t IH]; constructor; [apply width_eq|exact IH].
  - unfold colsOf. f_equal. apply map_ext_in. intros r Hr. unfold colOf. destruct (eastAsian w) eqn:E; [reflexivity|]. cbn [negb andb].
    destruct (Z.eqb_spec r 0x2e3b) as [->|]; [destruct (Ht E Hr)|reflexivity].
Qed.
End Display.

Lemma reflow_runes rh text ls : reflow rh text ls -> forall l r, In l ls -> In r l -> In r text \/ r = 45.
Proof.
  induction 1 as [t Ht|t rest ls Ht R IH|t rest ls Ht R IH|t rest ls Hrh Ht R IH]; intros l r [<-|Hl] Hr; rewrite ?in_app_iff in *; cbn [In] in *;
    try (destruct Hl; fail); try (destruct (IH _ _ Hl Hr); tauto); try tauto.
  destruct Hr as [Hr|[Hr|[]]]; [left; now left|right; congruence].
Qed.
Lemma join_runes tokens r : In r (joinWith 32 tokens) -> r = 32 \/ exists t, In t tokens /\ In r t.
Proof.
  induction tokens as [|t ts IH]; [intros []|]. destruct ts as [|t' ts].
  - cbn [joinWith]. intros H. right. exists t. split; [now left|exact H].
  - change (joinWith 32 (t :: t' :: ts)) with (t ++ 32 :: joinWith 32 (t' :: ts)). rewrite in_app_iff. cbn [In]. intros [H|[H|H]]; [right|left; congruence|].
    + exists t. auto.
    + destruct (IH H) as [K|(x & K1 & K2)]; [now left|right]. exists x. auto.
Qed.

Section Lines.
Variable A : arith.
Variable L : laws A.
Variable u : unicode.
Variable opts : list (lbOption A).
Variable wo : list wopt.
Notation o := (withOptions A (defaultHyphenator u) (defaultPunctuator u) opts).
Hypothesis Hopts : Forall (okOption A L) opts.
Hypothesis Hmeasure : l_measurer o = columnMeasurer A wo.
Hypothesis Hscale : l_scale o = fZ A 1.
Notation amb := (defaultAsianAmbiguousWidth (optionsWithDefaults wo)).
Hypothesis Hamb : 0 <= amb.
Section Call.
Variable lb : breaker A.
Variable tokens : list (list rune).
Variable spare : nat -> list rune.
Variable maxWidth : F A.
Variable n : Z.
Variable ord : nat -> nat -> list fclass.
Hypothesis U : usable A u o lb.
Hypothesis Ht : plainTokens tokens spare.
Hypothesis Hne : tokens <> [] /\ Forall (fun t => t <> []) tokens.
Hypothesis Hw : Z.max 4 amb * zlen (joinWith 32 tokens) <= 2 ^ 50.
Hypothesis Hn : rep A L maxWidth n.
Hypothesis Hn2 : 0 < n <= 2 ^ 50.
Hypothesis Hord : forall i k c, In c (ord i k).
Lemma display_call : exists pg hg, plainCall A L u o (fun t => 1 * colsOf wo t) pg hg lb tokens spare maxWidth n ord.
Proof.
  destruct (options_reached A L u opts Hopts) as [R1 _ _ (hg & R6) (pg & R7) R8]. exists pg, hg.
  assert (settings A L u o (fun t => 1 * colsOf wo t) pg hg) as S.
  { assert (rep A L (l_scale o) 1) as R by (rewrite Hscale; apply rep_Z; unfold exactZ; lia).
    apply (make_settings A L u opts (fun n => 1 * n) (colsOf wo) pg hg); try assumption.
    - now apply scaling_int.
    - rewrite Hmeasure. now apply column_measures.
    - apply col_ascii. now left.
    - rewrite col_ascii by now right. lia. }
  pose proof (colsOf_bounds wo Hamb (joinWith 32 tokens)) as Hb. apply make_call; try assumption.
  - intros a b. rewrite colsOf_app. lia.
  - lia.
  - replace n with (1 * n) by lia. apply scaled_width; [rewrite Hscale; apply rep_Z; unfold exactZ; lia|lia|exact Hn|lia|lia].
Qed.
Lemma display_core ls lb' : leftAlignUniform A u ord spare lb tokens maxWidth = Ret (Some ls, lb') ->
  (forall l r, In l ls -> In r l -> r = 32 \/ r = 45 \/ exists t, In t tokens /\ In r t) /\ forall l, In l ls -> colsOf wo l <= n.
Proof.
  intros E. destruct display_call as (pg & hg & K).
  pose proof (align_reflow _ _ _ _ _ _ _ _ _ _ _ _ _ K _ _ E) as Rf.
  assert (Forall (fun l => 1 * colsOf wo l <= n) ls) as Hl by (eapply (align_width _ _ _ _ _ _ _ _ _ _ _ _ _ K); [intros a b; cbn beta; rewrite colsOf_app; lia|exact E]).
  rewrite Forall_forall in Hl. split; [|intros l Hin; specialize (Hl l Hin); lia].
  intros l r Hin Hr. destruct (reflow_runes _ _ _ Rf _ _ Hin Hr) as [K1|K1]; [|auto]. destruct (join_runes _ _ K1); auto.
Qed.
Theorem display_width ls lb' : Forall (counted wo) tokens -> leftAlignUniform A u ord spare lb tokens maxWidth = Ret (Some ls, lb') ->
  Forall (fun l => exists ws, Forall2 (fun r x => width r wo = Ret x) l ws /\ zsum ws <= n) ls.
Proof.
  intros Hc E. destruct (display_core _ _ E) as [K1 K2]. rewrite Forall_forall in *. intros l Hin. destruct (cols_width wo l) as (ws & W1 & W2).
  - intros Ee Hr. destruct (K1 _ _ Hin Hr) as [K|[K|(t & K & K')]]; [discriminate|discriminate|]. exact (Hc t K Ee K').
  - exists ws. split; [exact W1|]. rewrite W2. now apply K2.
Qed.
(** when all runes have one column, lines are counted in runes *)
Lemma all_one l : (forall r, In r l -> r = 32 \/ r = 45 \/ width r wo = Ret 1) -> colsOf wo l = zlen l.
Proof.
  intros H. assert (forall r, In r l -> colOf wo r = 1) as K.
  { intros r Hr. destruct (H r Hr) as [->|[->|C]].
    - pose proof (col_ascii wo 32 ltac:(auto)) as C. unfold colsOf in C. cbn [map] in C. change (zsum [?a]) with (a + 0) in C. lia.
    - pose proof (col_ascii wo 45 ltac:(auto)) as C. unfold colsOf in C. cbn [map] in C. change (zsum [?a]) with (a + 0) in C. lia.
    - rewrite width_eq in C. injection C as C. unfold colOf. destruct (Z.eqb_spec r 0x2e3b) as [->|]; [|rewrite Bool.andb_false_r; exact C].
      revert C. destruct (optionsWithDefaults wo) as [[|] s a]; vm_compute; discriminate. }
  clear -K. unfold colsOf, zlen. induction l as [|r l IH]; [reflexivity|]. cbn [map length]. change (zsum (?a :: ?l)) with (a + zsum l). rewrite IH by (intros x Hx; apply K; now right).
  rewrite K by now left. lia.
Qed.
Theorem display_runes : Forall (Forall (fun r => width r wo = Ret 1)) tokens ->
  (forall ls lb', leftAlignUniform A u ord spare lb tokens maxWidth = Ret (Some ls, lb') -> Forall (fun l => zlen l <= n) ls) /\
  (k_tolerance (l_search o) = fTolerance A -> zlen (joinWith 32 tokens) <= n <= 4997 ->
   exists lb', leftAlignUniform A u ord spare lb tokens maxWidth = Ret (Some [joinWith 32 tokens], lb')).
Proof.
  intros H1. assert (forall t r, In t tokens -> In r t -> width r wo = Ret 1) as H by (intros t r Ht1 Hr; rewrite Forall_forall in H1; specialize (H1 t Ht1); rewrite Forall_forall in H1; now apply H1).
  split.
  - intros ls lb' E. destruct (display_core _ _ E) as [K1 K2]. apply Forall_forall. intros l Hin. rewrite <- all_one; [now apply K2|]. intros r Hr.
    destruct (K1 l r Hin Hr) as [K|[K|(t & T1 & T2)]]; [auto|auto|]. right. right. now apply (H t).
  - intros Et Hl. destruct display_call as (pg & hg & K). rewrite <- all_one in Hl.
    + eapply (align_one_line _ _ _ _ _ _ _ _ _ _ _ _ _ K); [lia|]. eapply (fit_ok _ _ _ _ _ _ _ _ _ _ _ _ _ K); [exact Et| |lia|lia]. intros a b. cbn beta. rewrite colsOf_app. lia.
    + intros r Hr. destruct (join_runes _ _ Hr) as [->|(t & T1 & T2)]; [auto|]. right. right. now apply (H t).
Qed.
End Call.
End Lines.
