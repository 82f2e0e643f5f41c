(** Line breakers made by New, used any number of times on plain tokens. *)
From Verif Require Import Base Arith Unicode Split SpecSplit SplitProofs Ansi SpecAnsi AnsiProofs Attr Hyph KP Nodes Render SpecKP Tokens Align Options.

(** ** What is asked of the options. [m]: scaled widths as integers. *)
Record settings (A : arith) (L : laws A) (u : unicode) (o : lopts A) (m : list rune -> Z)
  (punct parts : list rune -> list (list rune)) : Prop := mkSettings {
  (* the options of New, in any order and number *)
  se_opts : exists opts, o = withOptions A (defaultHyphenator u) (defaultPunctuator u) opts;
  (* tolerance below 10000, or NaN *)
  se_tol : fle A (fZ A 10000) (k_tolerance (l_search o)) = false;
  (* hyphen penalty between 0 and 2^100; if hyphens are rendered, not the penalty of another kind of break *)
  se_pen : bnd A L 100 (l_hyphenPenalty o);
  se_collide : l_renderHyphens o = true -> feq A (fZ A 0) (l_hyphenPenalty o) = false /\
    feq A (fZ A 200) (l_hyphenPenalty o) = false /\ feq A (fZ A 400) (l_hyphenPenalty o) = false;
  (* the word breakers cut words in non-empty parts *)
  se_punct : forall w, w <> [] -> l_punctuator o w = Ret (punct w) /\ concat (punct w) = w /\ Forall (fun p => p <> []) (punct w);
  se_parts : l_wordBreak o = true -> forall w, w <> [] ->
    l_hyphenator o w = Ret (parts w) /\ concat (parts w) = w /\ Forall (fun p => p <> []) (parts w);
  (* widths are not negative, and exact below 2^50 *)
  se_measure : forall t, 0 <= m t /\
    (Forall okRune t -> m t <= 2 ^ 50 -> exists x, measure A o t = Ret x /\ rep A L x (m t));
  se_space : m [32] <= 2 ^ 50 /\ m [45] <= 2 ^ 50;
  (* the width of a space is rendered as one space *)
  se_zero : forall x, rep A L x 0 -> fint A (downScale A o x) = 0;
  se_one : forall x, rep A L x (m [32]) -> fint A (downScale A o x) = 1
}.

(** The fragments of tokens under some options. *)
Definition fragsOf {A} (u : unicode) (o : lopts A) (punct parts : list rune -> list (list rune)) (tokens : list (list rune)) : list frag :=
  paragraph punct (splitAt isHyphenRune) parts (single (punctSplitFunc u)) (single isHyphenRune)
    (fun w => l_wordBreak o && negb (zlen w <=? 4)) tokens.
Definition hyphenW {A} (o : lopts A) (m : list rune -> Z) : Z := if l_wordBreak o then m [45] else 0.

(** Tokens without escape sequences; a token is a string of runes. *)
Definition plainTokens (tokens : list (list rune)) (spare : nat -> list rune) : Prop :=
  Forall (fun t => ~ hasCSI t /\ Forall okRune t) tokens /\
  forall j t, nth_error tokens j = Some t -> zlen (t ++ spare j) < 2 ^ 63.

(** Line breakers made by New(opts) and used on plain tokens only. *)
Inductive usable (A : arith) (u : unicode) (o : lopts A) : breaker A -> Prop :=
| us_new : forall lb, newBreaker A o = Ret lb -> usable A u o lb
| us_call : forall lb ord tokens spare maxWidth res lb', usable A u o lb -> plainTokens tokens spare ->
    leftAlignUniform A u ord spare lb tokens maxWidth = Ret (res, lb') -> usable A u o lb'.

(** A call of LeftAlignUniform(tokens, maxWidth), [W] being the scaled width; [ord] gives the orders in which the map of
    candidates is iterated: each visits every key. *)
Record plainCall (A : arith) (L : laws A) (u : unicode) (o : lopts A) (m : list rune -> Z)
  (punct parts : list rune -> list (list rune)) (lb : breaker A) (tokens : list (list rune)) (spare : nat -> list rune)
  (maxWidth : F A) (W : Z) (ord : nat -> nat -> list fclass) : Prop := mkCall {
  pc_settings : settings A L u o m punct parts;
  pc_breaker : usable A u o lb;
  pc_tokens : plainTokens tokens spare;
  pc_nonempty : tokens <> [] /\ Forall (fun t => t <> []) tokens;
  pc_paragraph : lineWidth (l_renderHyphens o) m (m [32]) (hyphenW o m) (fragsOf u o punct parts tokens) <= 2 ^ 50;
  pc_width : rep A L (scale A o maxWidth) W;
  pc_bounds : 0 < W <= 2 ^ 50;
  pc_order : forall i k c, In c (ord i k)
}.

(** ** The fixed settings *)
Definition fixedOpts {A} (o : lopts A) : Prop :=
  l_glueStretch o = fZ A 6 /\ l_hardHyphenPenalty o = fZ A 200 /\ l_punctuationPenalty o = fZ A 400 /\ l_minHyphenate o = 4 /\
  k_badness (l_search o) = fZ A 100 /\ k_line (l_search o) = fZ A 10 /\ k_fitness (l_search o) = fZ A 200 /\
  (k_flagged (l_search o) = fZ A 100 \/ k_flagged (l_search o) = l_hyphenPenalty o).
Lemma options_fixed A hf pf opts : fixedOpts (withOptions A hf pf opts).
Proof.
  unfold withOptions. assert (fixedOpts (defaultLopts A hf pf)) as H by (unfold fixedOpts; cbn; tauto).
  revert H. generalize (defaultLopts A hf pf). induction opts as [|opt opts IH]; intros o H; [exact H|]. cbn [fold_left]. apply IH.
  destruct o as [[tol bad li fl fi] ms sc wb rh hp hh pp h p mi gl]. unfold fixedOpts in *.
  destruct opt; cbn in *; tauto.
Qed.

(** ** Keeping the state plain *)
Section Plain.
Variable A : arith.
Variable u : unicode.
Variable lb : breaker A.
Notation o := (lb_opts lb).
Lemma startBox_keeps ts v x : Forall plainAttr (ts_attrs ts) -> startBox A lb [] ts v = Ret x -> Forall plainAttr (ts_attrs (snd x)).
Proof.
  intros H. unfold startBox. destruct (measure A o v); cbn [gbind]; [|discriminate]. intros [= <-]. unfold tsStart. cbn [snd ts_attrs].
  assert ((if ts_started ts then [] else []) = (@nil rune)) as -> by (destruct (ts_started ts); reflexivity).
  rewrite plain_push by exact H. apply Forall_app. split; [exact H|]. constructor; [repeat split|constructor].
Qed.
Ltac box H ts' := match goal with |- gbind (startBox A lb [] ?ts ?v) _ = _ -> _ =>
  let E := fresh in destruct (startBox A lb [] ts v) as [[? ts']|] eqn:E; cbn [gbind]; [|discriminate];
  apply startBox_keeps in E; [|exact H]; cbn [snd] in E end.
Lemma partNodes_keeps ps : forall p ts nodes x, Forall plainAttr (ts_attrs ts) -> partNodes A lb [] ts p ps nodes = Ret x ->
  Forall plainAttr (ts_attrs (snd x)).
Proof.
  induction ps as [|q ps IH]; intros p ts nodes x H; cbn [partNodes]; box H ts'.
  - intros [= <-]. exact H0.
  - intros E. apply (IH _ _ _ _ H0 E).
Qed.
Lemma wordNodes_keeps ws : forall ts nodes x, Forall plainAttr (ts_attrs ts) -> wordNodes A lb [] ts ws nodes = Ret x ->
  Forall plainAttr (ts_attrs (snd x)).
Proof.
  induction ws as [|w ws IH]; intros ts nodes x H; cbn [wordNodes]; [intros [= <-]; exact H|].
  destruct (isHyphen w); [box H ts'; apply IH; exact H0|].
  destruct (l_hyphenator o w) as [hs|]; cbn [gbind]; [|discriminate]. destruct hs as [|p ps]; [discriminate|].
  destruct (partNodes A lb [] ts p ps nodes) as [[n' ts']|] eqn:E; cbn [gbind]; [|discriminate].
  apply partNodes_keeps in E; [|exact H]. now apply IH.
Qed.
Lemma pieceNodes_keeps ps : forall ts nodes x, Forall plainAttr (ts_attrs ts) -> pieceNodes A u lb [] ts ps nodes = Ret x ->
  Forall plainAttr (ts_attrs (snd x)).
Proof.
  induction ps as [|p ps IH]; intros ts nodes x H; cbn [pieceNodes]; [intros [= <-]; exact H|].
  destruct (isPunctuation u p); [box H ts'; apply IH; exact H0|].
  destruct (negb (l_wordBreak o) || (zlen p <=? l_minHyphenate o)); [box H ts'; apply IH; exact H0|].
  destruct (splitWord p) as [ws|]; cbn [gbind]; [|discriminate].
  destruct (wordNodes A lb [] ts ws nodes) as [[n' ts']|] eqn:E; cbn [gbind]; [|discriminate].
  apply wordNodes_keeps in E; [|exact H]. now apply IH.
Qed.
Lemma boxNodes_keeps token spare attrs x : mcap (token ++ spare) -> ~ hasCSI token -> Forall plainAttr attrs ->
  boxNodes A u lb token spare attrs = Ret x -> Forall plainAttr (snd x).
Proof.
  intros Hc Hn H. unfold boxNodes. destruct (strip_plain u token spare Hc Hn) as (st & E & E1 & E2 & E3).
  rewrite E. cbn [gbind strippedNodes]. rewrite E1, E2. cbn [contents].
  destruct (l_punctuator o token) as [ps|]; cbn [gbind]; [|discriminate].
  destruct (pieceNodes A u lb [] (mkTs attrs None false) ps []) as [[n ts]|] eqn:E4; cbn [gbind]; [|discriminate].
  apply pieceNodes_keeps in E4; [|exact H]. intros [= <-]. cbn [snd] in *. rewrite E3. cbn [contents]. unfold tsStop.
  destruct (ts_current ts); exact E4.
Qed.
Lemma alignedLoop_keeps spare tokens : forall token i attrs nodes x,
  (forall j t, nth_error (token :: tokens) j = Some t -> mcap (t ++ spare (i + j)%nat)) -> Forall (fun t => ~ hasCSI t) (token :: tokens) ->
  Forall plainAttr attrs -> alignedLoop A u lb token tokens spare i attrs nodes = Ret x -> Forall plainAttr (snd x).
Proof.
  induction tokens as [|t ts IH]; intros token i attrs nodes x Hc Hn H; cbn [alignedLoop];
    (destruct (boxNodes A u lb token (spare i) attrs) as [[n' a']|] eqn:E; cbn [gbind]; [|discriminate];
     apply boxNodes_keeps in E; [|specialize (Hc 0%nat token eq_refl); now rewrite Nat.add_0_r in Hc|now inversion Hn|exact H]; cbn [snd] in E).
  - intros [= <-]. exact E.
  - apply IH; [|now inversion Hn|exact E]. intros j t' Hj. replace (S i + j)%nat with (i + S j)%nat by lia. now apply Hc.
Qed.
End Plain.

Lemma usable_ok A u o lb : usable A u o lb -> exists sp hy, newBreaker A o = Ret (mkBreaker o sp hy []) /\
  exists attrs, lb = mkBreaker o sp hy attrs /\ Forall plainAttr attrs.
Proof.
  induction 1 as [lb H|lb ord tokens spare maxWidth res lb' _ (sp & hy & E & attrs & -> & Hp) [Ht Hc] H].
  - assert (H0 := H). unfold newBreaker in H. destruct (measure A o [32]) as [sp|]; cbn [gbind] in H; [|discriminate].
    destruct (if l_wordBreak o then measure A o [45] else Ret (fZ A 0)) as [hy|]; cbn [gbind] in H; [|discriminate].
    injection H as <-. exists sp, hy. split; [exact H0|]. exists []. split; [reflexivity|constructor].
  - exists sp, hy. split; [exact E|]. unfold leftAlignUniform, leftAlignedNodes in H. cbn [lb_attrs lb_opts lb_spaceWidth lb_hyphenWidth] in H.
    set (lb := mkBreaker o sp hy attrs) in *.
    assert (forall x, match tokens with [] => Ret ([], attrs) | token :: tokens' => alignedLoop A u lb token tokens' spare 0 attrs [] end = Ret x ->
      Forall plainAttr (snd x)) as K.
    { intros x. destruct tokens as [|t ts]; [intros [= <-]; exact Hp|]. apply alignedLoop_keeps; [exact Hc| |exact Hp].
      eapply Forall_impl; [|exact Ht]. intros t' [Ht' _]. exact Ht'. }
    destruct (match tokens with [] => _ | _ => _ end) as [[ns attrs']|]; cbn [gbind] in H; [|discriminate].
    specialize (K _ eq_refl). cbn [snd] in K.
    destruct (breakPoints A (l_search o) ord ns [scale A o maxWidth]) as [[bs|]|]; cbn [gbind] in H; try discriminate.
    + destruct (render A o attrs' ns bs); cbn [gbind] in H; [|discriminate]. injection H as _ <-. eauto.
    + injection H as _ <-. eauto.
Qed.

(** ** The theorem on calls *)
Section Calls.
Variable A : arith.
Variable L : laws A.
Variable u : unicode.
Variable o : lopts A.
Variable m : list rune -> Z.
Variable punct parts : list rune -> list (list rune).
Hypothesis S : settings A L u o m punct parts.
Variable lb : breaker A.
Hypothesis U : usable A u o lb.
Notation rh := (l_renderHyphens o).
Notation tol := (k_tolerance (l_search o)).
Notation softOn := (negb (feq A (l_hyphenPenalty o) (fZ A 10000))).

Lemma settings_new : exists sp hy, newBreaker A o = Ret (mkBreaker o sp hy []) /\ rep A L sp (m [32]) /\ rep A L hy (hyphenW o m).
Proof.
  destruct S as [S1 S2 S3 S4 S5 S6 S7 [S8 S9] S10 S11].
  destruct (proj2 (S7 [32])) as (sp & E1 & R1); [repeat constructor; lia|exact S8|].
  destruct (proj2 (S7 [45])) as (hy & E2 & R2); [repeat constructor; lia|exact S9|].
  unfold newBreaker, hyphenW. rewrite E1. cbn [gbind]. destruct (l_wordBreak o).
  - rewrite E2. cbn [gbind]. eauto 6.
  - cbn [gbind]. exists sp, (fZ A 0). split; [reflexivity|]. split; [exact R1|]. apply rep_Z. unfold exactZ. lia.
Qed.
Lemma settings_regular : regular A L u lb m (m [32]) (hyphenW o m) punct parts /\ Forall plainAttr (lb_attrs lb) /\ lb_opts lb = o.
Proof.
  destruct (usable_ok _ _ _ _ U) as (sp & hy & E & attrs & -> & Hp).
  destruct settings_new as (sp' & hy' & E' & R1 & R2). rewrite E in E'. injection E' as <- <-.
  split; [|split; [exact Hp|reflexivity]].
  destruct S as [(opts & Eo) S2 S3 S4 S5 S6 S7 [S8 S9] S10 S11].
  destruct (options_fixed A (defaultHyphenator u) (defaultPunctuator u) opts) as (F1 & F2 & F3 & F4 & F5 & F6 & F7 & F8).
  rewrite <- Eo in F1, F2, F3, F4, F5, F6, F7, F8.
  assert (forall n, 0 <= n <= 1000 -> bnd A L 10 (fZ A n)) as B.
  { intros n Hn. apply bnd_rep with n; [apply rep_Z; unfold exactZ; lia|lia|lia]. }
  constructor; cbn [lb_opts lb_spaceWidth lb_hyphenWidth]; try assumption.
  - apply S7.
  - unfold hyphenW. pose proof (proj1 (S7 [45])). destruct (l_wordBreak o); lia.
  - rewrite F5. apply bnd_mono with 10; [apply B; lia|lia].
  - rewrite F6. apply bnd_mono with 10; [apply B; lia|lia].
  - destruct F8 as [->| ->]; [apply bnd_mono with 10; [apply B; lia|lia]|exact S3].
  - rewrite F7. apply bnd_mono with 10; [apply B; lia|lia].
  - intros w Hw. now apply S5.
  - intros w Hw. now apply S5.
Qed.

Variable tokens : list (list rune).
Variable spare : nat -> list rune.
Hypothesis Ht : plainTokens tokens spare.
Hypothesis Hne : tokens <> [] /\ Forall (fun t => t <> []) tokens.
Notation frs := (fragsOf u o punct parts tokens).
Hypothesis Hwidth : lineWidth rh m (m [32]) (hyphenW o m) frs <= 2 ^ 50.
Variable W : Z.
Hypothesis HW : 0 < W <= 2 ^ 50.
Variable maxWidth : F A.
Hypothesis HmaxW : rep A L (scale A o maxWidth) W.
Variable ord : nat -> nat -> list fclass.
Hypothesis Hord : forall i k c, In c (ord i k).
Notation linesOk := (linesOk rh m (m [32]) (hyphenW o m) A tol W true).

Lemma frs_eq : paragraph punct (splitAt isHyphenRune) parts (single (punctSplitFunc u)) (single isHyphenRune) (breakable A lb) tokens = frs.
Proof.
  destruct settings_regular as (_ & _ & E). destruct S as [(opts & Eo) _ _ _ _ _ _ _ _ _].
  destruct (options_fixed A (defaultHyphenator u) (defaultPunctuator u) opts) as (_ & _ & _ & F4 & _).
  rewrite <- Eo in F4. unfold fragsOf, breakable. rewrite E, F4. reflexivity.
Qed.
Theorem call_spec : exists res lb', leftAlignUniform A u ord spare lb tokens maxWidth = Ret (res, lb') /\ usable A u o lb' /\
  match res with
  | None => ~ exists segs, layout softOn frs segs /\ linesOk segs = true
  | Some ls => exists segs, ls = map (lineText rh) segs /\ layout softOn frs segs /\ linesOk segs = true /\
      (W <= 4997 -> forall segs', layout softOn frs segs' -> linesOk segs' = true ->
         (length (last segs' []) <= length (last segs []))%nat)
  end.
Proof.
  destruct settings_regular as (R & Hp & E). pose proof frs_eq as Ef. destruct Ht as [Ht1 Ht2]. destruct Hne as [Hne1 Hne2].
  assert (Forall (fun t => t <> [] /\ ~ hasCSI t /\ Forall okRune t) tokens) as Htok.
  { rewrite Forall_forall in *. intros t Hin. split; [now apply Hne2|now apply Ht1]. }
  rewrite <- Ef, <- E in Hwidth. rewrite <- E in HmaxW.
  pose proof (align_spec A L u lb m (m [32]) (hyphenW (lb_opts lb) m) punct parts) as G. rewrite <- E in R.
  specialize (G R Hp tokens spare Hne1 Htok Ht2 Hwidth W HW maxWidth HmaxW ord Hord). rewrite Ef, E in G.
  destruct G as [(H1 & H2)|(segs & H1 & H2 & H3 & H4)].
  - exists None. eexists. split; [exact H1|]. split; [|exact H2]. eapply us_call; [exact U| |exact H1]. split; assumption.
  - eexists (Some _), _. split; [exact H1|]. split; [eapply us_call; [exact U| |exact H1]; split; assumption|].
    exists segs. auto.
Qed.
(** what is known of the fragments *)
Lemma frs_text : Forall (fun f => f_text f <> []) frs /\ Forall (fun f => f_mark f = true -> f_joint f <> Soft) frs /\
  paraText frs = joinWith 32 tokens.
Proof.
  destruct settings_regular as (R & Hp & E). pose proof frs_eq as Ef. destruct Hne as [Hne1 Hne2].
  destruct (paragraph_ok A L u lb m _ _ punct parts R tokens Hne2) as [H1 H2]. rewrite Ef in *.
  split; [|split; [|exact H2]]; (eapply Forall_impl; [|exact H1]); intros f [G1 G2]; assumption.
Qed.
Lemma frs_shape : exists ini f, frs = ini ++ [f] /\ f_joint f = End_ /\ Forall (fun g => f_joint g <> End_) ini.
Proof.
  destruct settings_regular as (R & Hp & E). destruct Hne as [Hne1 Hne2]. destruct Ht as [Ht1 Ht2].
  rewrite <- frs_eq. apply paragraph_shape; [apply (Hparts1 _ _ _ _ _ _ _ _ _ R)|apply (Hpunct1 _ _ _ _ _ _ _ _ _ R)|exact Hne1|].
  rewrite Forall_forall in *. intros t Hin. split; [now apply Hne2|]. now apply Ht1.
Qed.
End Calls.
