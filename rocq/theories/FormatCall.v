(** Calls of LeftAlignUniform on formatted tokens. *)
From Verif Require Import Base Arith Unicode Split SpecSplit Ansi SpecAnsi AnsiProofs Attr Hyph KP Nodes Render SpecKP Tokens Align AlignProofs Options Call
  SpecFormat Format SpecLines FormatLines SpecScreen Screen.

(** The fragments of a text and of formatted tokens under some options. *)
Definition textFrags {A} (u : unicode) (o : lopts A) (punct parts : list rune -> list (list rune)) (t : list rune) : list frag :=
  tokenFrags punct (splitAt isHyphenRune) parts (single (punctSplitFunc u)) (single isHyphenRune)
    (fun w => l_wordBreak o && negb (zlen w <=? 4)) t.
Definition formattedFrags {A} (u : unicode) (o : lopts A) (punct parts : list rune -> list (list rune)) (ts : list (list run)) : list frag :=
  formattedParagraph punct (splitAt isHyphenRune) parts (single (punctSplitFunc u)) (single isHyphenRune)
    (fun w => l_wordBreak o && negb (zlen w <=? 4)) ts.
(** what is written around each fragment *)
Definition formattedMarks {A} (u : unicode) (o : lopts A) (punct parts : list rune -> list (list rune)) (ps : list passage) : list mark :=
  docMarks (fun p => length (flat_map (textFrags u o punct parts) (p_texts p))) [] ps.

(** the passage each fragment comes from *)
Definition formattedOrigins {A} (u : unicode) (o : lopts A) (punct parts : list rune -> list (list rune)) (ps : list passage) : list origin :=
  origins (fun p => length (flat_map (textFrags u o punct parts) (p_texts p))) [] ps.

(** The first call on a line breaker made by New, on tokens [ts] made of the plain and formatted passages [ps]. *)
Record formattedCall (A : arith) (L : laws A) (u : unicode) (o : lopts A) (m : list rune -> Z)
  (punct parts : list rune -> list (list rune)) (lb : breaker A) (ts : list (list run)) (ps : list passage) (spare : nat -> list rune)
  (maxWidth : F A) (W : Z) (ord : nat -> nat -> list fclass) : Prop := mkFormattedCall {
  fc_settings : settings A L u o m punct parts;
  fc_new : newBreaker A o = Ret lb;
  fc_tokens : ts <> [] /\ Forall (okToken u) ts;
  fc_passages : Forall (okPassage u) ps /\ concat ts = flat_map runsOf ps;
  fc_runes : Forall (fun t => Forall (fun r => Forall okRune (r_text r)) t) ts;
  fc_cap : forall j t, nth_error ts j = Some t -> zlen (tokenRunes t ++ spare j) < 2 ^ 63;
  fc_paragraph : lineWidth (l_renderHyphens o) m (m [32]) (hyphenW o m) (formattedFrags u o punct parts ts) <= 2 ^ 50;
  fc_width : rep A L (scale A o maxWidth) W;
  fc_bounds : 0 < W <= 2 ^ 50;
  fc_order : forall i k c, In c (ord i k)
}.

Section Call.
Variable A : arith.
Variable L : laws A.
Variable u : unicode.
Variable o : lopts A.
Variable m : list rune -> Z.
Variable punct parts : list rune -> list (list rune).
Variable lb : breaker A.
Variable ts : list (list run).
Variable ps : list passage.
Variable spare : nat -> list rune.
Variable maxWidth : F A.
Variable W : Z.
Variable ord : nat -> nat -> list fclass.
Hypothesis C : formattedCall A L u o m punct parts lb ts ps spare maxWidth W ord.
Notation frs := (formattedFrags u o punct parts ts).
Notation rh := (l_renderHyphens o).
Notation softOn := (negb (feq A (l_hyphenPenalty o) (fZ A 10000))).
Notation linesOk := (linesOk rh m (m [32]) (hyphenW o m) A (k_tolerance (l_search o)) W true).

Theorem formatted_call : exists res lb', leftAlignUniform A u ord spare lb (map tokenRunes ts) maxWidth = Ret (res, lb') /\
  match res with
  | None => ~ exists segs, layout softOn frs segs /\ linesOk segs = true
  | Some ls => exists segs, ls = showDoc rh segs /\ concat segs = combine frs (formattedMarks u o punct parts ps) /\
      layout softOn frs (map (map fst) segs) /\ linesOk (map (map fst) segs) = true /\
      (W <= 4997 -> forall segs', layout softOn frs segs' -> linesOk segs' = true ->
         (length (last segs' []) <= length (last (map (map fst) segs) []))%nat)
  end.
Proof.
  destruct C as [C1 C2 [C3 C4] [C11 C12] C5 C6 C7 C8 C9 C10].
  destruct (settings_regular A L u o m punct parts C1 lb (us_new A u o lb C2)) as (R & Hp & E).
  assert (lb_attrs lb = []) as Hf.
  { destruct (usable_ok A u o lb (us_new A u o lb C2)) as (sp & hy & E1 & _). rewrite C2 in E1. injection E1 as ->. reflexivity. }
  assert (breakable A lb = fun w => l_wordBreak o && negb (zlen w <=? 4)) as Eb.
  { unfold breakable. rewrite E. destruct C1 as [(opts & Eo) _ _ _ _ _ _ _ _ _].
    destruct (options_fixed A (defaultHyphenator u) (defaultPunctuator u) opts) as (_ & _ & _ & F4 & _). rewrite <- Eo in F4. now rewrite F4. }
  pose proof (formatted_spec A L u lb m (m [32]) (hyphenW o m) punct parts R ts spare Hf C3 C4 C5 C6) as G0.
  assert (G := fun H => G0 H ps C11 C12). clear G0.
  unfold cntOf in G. rewrite Eb, E in G.
  destruct (G C7 W C9 maxWidth C8 ord C10) as (lb' & [(H1 & H2)|(segs & H1 & H2 & H3 & H4 & H5)]).
  - exists None, lb'. split; [exact H1|exact H2].
  - eexists (Some _), lb'. split; [exact H1|]. exists segs. auto.
Qed.

Lemma retag {T U} (segs : list (list T)) : forall (ys : list U), length ys = length (concat segs) ->
  exists tsegs, map (map fst) tsegs = segs /\ concat tsegs = combine (concat segs) ys.
Proof.
  induction segs as [|l segs IH]; intros ys E; [exists []; now destruct ys|]. cbn [concat] in *. rewrite app_length in E.
  destruct (IH (skipn (length l) ys)) as (ts' & E1 & E2); [rewrite skipn_length; lia|].
  exists (combine l (firstn (length l) ys) :: ts'). split.
  - cbn [map]. f_equal; [|exact E1]. assert (length l <= length (firstn (length l) ys))%nat as K by (rewrite firstn_length; lia). clear - K.
    revert K. generalize (firstn (length l) ys). induction l as [|x l IH]; intros [|y zs] K; cbn in *; try lia; [reflexivity|reflexivity|]. f_equal. apply IH. lia.
  - cbn [concat]. rewrite E2. rewrite <- (firstn_skipn (length l) ys) at 3. symmetry. apply combine_app. rewrite firstn_length. lia.
Qed.
Lemma run_clean r : okRun u r -> cleanFrags punct (splitAt isHyphenRune) parts (single (punctSplitFunc u)) (single isHyphenRune)
  (fun w => l_wordBreak o && negb (zlen w <=? 4)) (r_text r).
Proof.
  intros Hr. destruct C as [C1 C2 _ _ _ _ _ _ _ _].
  destruct (settings_regular A L u o m punct parts C1 lb (us_new A u o lb C2)) as (R & Hp & E).
  assert (breakable A lb = fun w => l_wordBreak o && negb (zlen w <=? 4)) as Eb.
  { unfold breakable. rewrite E. destruct C1 as [(opts & Eo) _ _ _ _ _ _ _ _ _].
    destruct (options_fixed A (defaultHyphenator u) (defaultPunctuator u) opts) as (_ & _ & _ & F4 & _). rewrite <- Eo in F4. now rewrite F4. }
  rewrite <- Eb. assert (r_text r <> [] /\ ~ In ESC (r_text r)) as [H1 H2] by (destruct Hr; now split). split.
  - apply (tokenFrags_glued A u lb punct parts (Hparts1 A L u lb m _ _ punct parts R) (Hpunct1 A L u lb m _ _ punct parts R)). exact H1.
  - destruct (tokenFrags_ok A L u lb m _ _ punct parts R (r_text r) H1) as [_ Et]. apply Forall_forall. intros f Hf Hin. apply H2. rewrite <- Et.
    unfold textOf. apply in_concat. exists (f_text f). split; [now apply in_map|exact Hin].
Qed.
Theorem formatted_screen : exists res lb', leftAlignUniform A u ord spare lb (map tokenRunes ts) maxWidth = Ret (res, lb') /\
  match res with
  | None => True
  | Some ls => exists lines, concat lines = combine frs (formattedOrigins u o punct parts ps) /\
      layout softOn frs (map (map fst) lines) /\ Forall2 (lineShown u rh) ls lines
  end.
Proof.
  destruct formatted_call as (res & lb' & E & H). exists res, lb'. split; [exact E|]. destruct res as [ls|]; [|exact I].
  destruct H as (segs & -> & Es & Hlay & _). destruct (fc_tokens _ _ _ _ _ _ _ _ _ _ _ _ _ _ C) as [_ Ht].
  destruct (fc_passages _ _ _ _ _ _ _ _ _ _ _ _ _ _ C) as [Hp Hpass].
  destruct (paragraph_blocks u punct (splitAt isHyphenRune) parts (single (punctSplitFunc u)) (single isHyphenRune)
    (fun w => l_wordBreak o && negb (zlen w <=? 4)) ts ps) as (bs & B1 & B2 & B3); [eapply Forall_impl; [|exact Ht]; intros t H; apply H| |exact Hp|exact Hpass|].
  { eapply Forall_impl; [|exact Ht]. intros t (_ & H & _). eapply Forall_impl; [|exact H]. intros r Hr. now apply run_clean. }
  pose proof (doc_chain u (fun p => length (flat_map (textFrags u o punct parts) (p_texts p))) bs [] ltac:(constructor) B1) as Hc.
  rewrite B2, B3 in Hc. change (docMarks _ [] ps) with (formattedMarks u o punct parts ps) in Hc.
  change (origins _ [] ps) with (formattedOrigins u o punct parts ps) in Hc. fold (formattedFrags u o punct parts ts) in Hc.
  destruct (layout_ne _ _ _ Hlay) as [Hne Hcat].
  assert (length (formattedOrigins u o punct parts ps) = length (formattedMarks u o punct parts ps)) as El by apply origins_len.
  assert (length frs = length (concat segs)) as El2 by (transitivity (length (concat (map (map fst) segs))); [now rewrite Hcat|rewrite <- concat_map; apply map_length]).
  assert (length (formattedMarks u o punct parts ps) = length (concat segs)) as El3.
  { unfold formattedMarks. rewrite docMarks_len, <- El2. unfold formattedFrags. rewrite <- B3, <- B2. clear - B1.
    induction B1 as [|b bs Hb _ IH]; [reflexivity|]. cbn [map flat_map concat]. rewrite !app_length, IH, repeat_length. f_equal. apply Hb. }
  destruct (retag segs (formattedOrigins u o punct parts ps)) as (tsegs & T1 & T2); [lia|].
  exists (map (fun l => map (fun t => (fst (fst t), snd t)) l) tsegs). split; [|split].
  - rewrite <- concat_map, T2, Es. clear - El El2 El3. revert El El2 El3. generalize frs (formattedMarks u o punct parts ps) (formattedOrigins u o punct parts ps).
    intros a b c Ec Ea Eb. assert (length a = length b) as E1 by lia. clear Ea Eb. revert b c Ec E1. induction a as [|x a IH]; intros [|y b] [|z c] E1 E2; try discriminate; [reflexivity|].
    cbn. f_equal. apply IH; cbn in *; lia.
  - rewrite map_map. replace (map (fun x => map fst (map (fun t => (fst (fst t), snd t)) x)) tsegs) with (map (map fst) segs); [exact Hlay|].
    rewrite <- T1, map_map. apply map_ext. intros l. rewrite !map_map. reflexivity.
  - rewrite <- Es in Hc. rewrite <- T2 in Hc.
    assert (Forall (fun l => l <> []) tsegs) as Hne2.
    { rewrite <- T1, map_map, Forall_map in Hne. eapply Forall_impl; [|exact Hne]. intros l Hl ->. now apply Hl. }
    unfold showDoc. rewrite <- T1. rewrite <- concat_map. destruct (concat tsegs) as [|t l] eqn:Et; cbn [map].
    + apply (lines_shows u _ tsegs None [] []); [exact Hne2|rewrite Et; exact Hc|apply shows_nil|rewrite Et; reflexivity].
    + assert (exists act, shows u [] (m_resume (snd (fst t))) [] act /\ incl act (groupStarts (snd t))) as (act & A1 & A2).
      { destruct Hc as (_ & Hw & _ & [(_ & _ & _ & -> & _)|(_ & _ & -> & _)]); [exists []; split; [apply shows_nil|apply incl_nil_l]|].
        destruct (shows_opening u _ Hw) as (a & S1 & S2 & _). exists a. now split. }
      apply (lines_shows u _ tsegs None _ act); [exact Hne2|rewrite Et; exact Hc|exact A1|rewrite Et; exact A2].
Qed.
End Call.
