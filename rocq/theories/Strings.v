(** Strings: LeftAlignUniform on the UTF-8 bytes of its tokens, alone and after the tokenizer. *)
From Verif Require Import Base Unicode Utf8 SpecUtf8 Utf8Proofs Split SpecSplit SplitProofs Arith KP Nodes Render SpecKP SpecAnsi Align Call AlignProofs.

(** Models [LeftAlignUniform] (linebreak/linebreaker.go:80-95) on strings: the tokens are decoded by []rune(word)
    ([leftAlignedNodes], linebreaker.go:311-335) and every line is what its strings.Builder received from [writeRunes]
    (linebreaker.go:152-191, terminal/runes/runesio/writer.go:55-71). The pieces of a line are encoded together: the
    encoding of a concatenation is the concatenation of the encodings ([runesBytes_concat]). *)
Definition leftAlignStrings (A : arith) (u : unicode) (ord : nat -> nat -> list fclass) (spare : nat -> list rune)
  (lb : breaker A) (tokens : list (list byte)) (maxWidth : F A) : go (option (list (list byte)) * breaker A) :=
  let! x := leftAlignUniform A u ord spare lb (map runesOf tokens) maxWidth in
  Ret (option_map (map (fun l => runesBytes l [])) (fst x), snd x).

(** Models [Tokenizer.BreakWordString] (wordbreak/tokenizer/tokenizer.go:28-30), each token converted back to a string. *)
Definition tokenizeString (text : list byte) : go (list (list byte)) :=
  let! ts := tokenizerBreakWord (runesOf text) in
  Ret (map (fun t => runesBytes t []) ts).

Notation enc := (fun l => runesBytes l []).

Lemma enc_app a b : enc (a ++ b) = enc a ++ enc b.
Proof. cbn beta. rewrite !runesBytes_concat. cbn [app]. rewrite map_app, concat_app. reflexivity. Qed.
Lemma enc_nil : enc (@nil rune) = [].
Proof. reflexivity. Qed.
Lemma enc_ne (t : list rune) : Forall scalar t -> t <> [] -> enc t <> [].
Proof.
  intros H Ht. destruct t as [|r t]; [congruence|]. inversion H as [|? ? Hr _]; subst. cbn beta. rewrite runesBytes_concat. cbn [app map concat].
  pose proof (utf8_nonempty _ _ (encodeRune_utf8 r Hr)) as Hn. destruct (encodeRune r); [cbn in Hn; lia|discriminate].
Qed.
Lemma enc_utf8s t : Forall scalar t -> utf8s t (enc t).
Proof.
  intros H. cbn beta. rewrite runesBytes_concat. cbn [app]. induction H as [|r t Hr Ht IH]; cbn [map concat]; [constructor|].
  constructor; [now apply encodeRune_utf8|exact IH].
Qed.
Lemma dec_enc t : Forall scalar t -> runesOf (enc t) = t.
Proof. intros H. apply runesOf_utf8s. now apply enc_utf8s. Qed.
Lemma utf8s_scalar rs bs : utf8s rs bs -> Forall scalar rs.
Proof. induction 1; constructor; [eapply utf8_scalar; eauto|assumption]. Qed.

Lemma enc_join ts : enc (joinWith 32 ts) = joinWith 32 (map enc ts).
Proof.
  induction ts as [|t ts IH]; [reflexivity|]. destruct ts as [|t' ts]; [reflexivity|].
  change (joinWith 32 (t :: t' :: ts)) with (t ++ [32] ++ joinWith 32 (t' :: ts)).
  change (joinWith 32 (map enc (t :: t' :: ts))) with (enc t ++ [32] ++ joinWith 32 (map enc (t' :: ts))).
  rewrite enc_app, enc_app, IH. reflexivity.
Qed.

Lemma reflow_scalar rh t ls : reflow rh t ls -> Forall scalar t -> Forall (Forall scalar) ls.
Proof.
  assert (scalar 45) as H45 by (unfold scalar; lia).
  induction 1 as [t Ht|t rest ls Ht Hr IH|t rest ls Ht Hr IH|t rest ls Hrh Ht Hr IH]; intros Hs.
  - repeat constructor; assumption.
  - apply Forall_app in Hs as [H1 H2]. inversion H2; subst. constructor; auto.
  - apply Forall_app in Hs as [H1 H2]. constructor; auto.
  - apply Forall_app in Hs as [H1 H2]. constructor; auto. apply Forall_app. auto.
Qed.
Lemma reflow_enc rh t ls : reflow rh t ls -> Forall scalar t -> reflow rh (enc t) (map enc ls).
Proof.
  induction 1 as [t Ht|t rest ls Ht Hr IH|t rest ls Ht Hr IH|t rest ls Hrh Ht Hr IH]; intros Hs.
  - apply rf_last. now apply enc_ne.
  - apply Forall_app in Hs as [H1 H2]. inversion H2; subst. change (32 :: rest) with ([32] ++ rest). rewrite !enc_app. cbn [map].
    apply rf_space; [now apply enc_ne|auto].
  - apply Forall_app in Hs as [H1 H2]. rewrite enc_app. cbn [map]. apply rf_inside; [now apply enc_ne|auto].
  - apply Forall_app in Hs as [H1 H2]. rewrite enc_app. cbn [map]. rewrite enc_app. apply rf_hyphen; [exact Hrh|now apply enc_ne|auto].
Qed.

Lemma join_scalar ts : Forall (Forall scalar) ts -> Forall scalar (joinWith 32 ts).
Proof.
  assert (scalar 32) as H32 by (unfold scalar; lia).
  induction 1 as [|t ts Ht Hts IH]; [constructor|]. destruct ts; [exact Ht|].
  change (Forall scalar (t ++ 32 :: joinWith 32 (l :: ts))). apply Forall_app. auto.
Qed.
Lemma map_dec rts tokens : Forall2 utf8s rts tokens -> map runesOf tokens = rts.
Proof. induction 1 as [|r t rs ts H _ IH]; [reflexivity|]. cbn [map]. rewrite IH, (runesOf_utf8s _ _ H). reflexivity. Qed.
Lemma map_enc rts tokens : Forall2 utf8s rts tokens -> map enc rts = tokens.
Proof.
  induction 1 as [|r t rs ts H _ IH]; [reflexivity|]. cbn [map]. rewrite IH. f_equal.
  rewrite <- (runesOf_utf8s _ _ H). eapply reencode_written. exact H.
Qed.
Lemma scalar_tokens rts tokens : Forall2 utf8s rts tokens -> Forall (Forall scalar) rts.
Proof. induction 1; constructor; [eapply utf8s_scalar; eauto|assumption]. Qed.

(** the runes of the lines *)
Lemma strings_lines A L u o m punct parts lb tokens spare maxWidth W ord :
  plainCall A L u o m punct parts lb (map runesOf tokens) spare maxWidth W ord -> Forall (Forall isByte) tokens ->
  forall res lb', leftAlignStrings A u ord spare lb tokens maxWidth = Ret (res, lb') ->
  exists rres, leftAlignUniform A u ord spare lb (map runesOf tokens) maxWidth = Ret (rres, lb') /\
  match rres, res with
  | None, None => True
  | Some rls, Some ls => Forall2 utf8s rls ls /\ map enc rls = ls
  | _, _ => False
  end.
Proof.
  intros C Hb res lb' E. unfold leftAlignStrings in E.
  destruct (leftAlignUniform A u ord spare lb (map runesOf tokens) maxWidth) as [[rres lb1]|] eqn:E1; [|discriminate].
  cbn [gbind fst snd] in E. injection E as <- <-. exists rres. split; [reflexivity|]. destruct rres as [rls|]; [|exact I]. cbn [option_map].
  split; [|reflexivity]. pose proof (align_reflow _ _ _ _ _ _ _ _ _ _ _ _ _ C _ _ E1) as R.
  assert (Forall (Forall scalar) (map runesOf tokens)) as Hs.
  { apply Forall_map. eapply Forall_impl; [|exact Hb]. intros t. apply runesOf_scalar. }
  pose proof (reflow_scalar _ _ _ R (join_scalar _ Hs)) as H. clear -H. induction H; cbn [map]; constructor; [now apply enc_utf8s|assumption].
Qed.

Lemma utf8s_bytes rs bs : utf8s rs bs -> Forall isByte bs.
Proof. induction 1; [constructor|]. apply Forall_app. split; [eapply utf8_bytes; eauto|assumption]. Qed.

Lemma strings_reflow A L u o m punct parts lb rtokens tokens spare maxWidth W ord : Forall2 utf8s rtokens tokens ->
  plainCall A L u o m punct parts lb rtokens spare maxWidth W ord -> forall ls lb',
  leftAlignStrings A u ord spare lb tokens maxWidth = Ret (Some ls, lb') ->
  reflow (l_renderHyphens o) (joinWith 32 tokens) ls /\
  exists rls, Forall2 utf8s rls ls /\ leftAlignUniform A u ord spare lb rtokens maxWidth = Ret (Some rls, lb').
Proof.
  intros Ht C ls lb' E. pose proof (map_dec _ _ Ht) as Hd. rewrite <- Hd in C.
  destruct (strings_lines _ _ _ _ _ _ _ _ _ _ _ _ _ C) with (res := Some ls) (lb' := lb') as (rres & E1 & H); [|exact E|].
  { clear -Ht. induction Ht; constructor; [eapply utf8s_bytes; eauto|assumption]. }
  destruct rres as [rls|]; [|contradiction]. destruct H as [H1 H2]. rewrite Hd in *. split.
  - pose proof (align_reflow _ _ _ _ _ _ _ _ _ _ _ _ _ C _ _ E1) as R. apply reflow_enc in R; [|now apply join_scalar, (scalar_tokens _ tokens)].
    rewrite enc_join, H2, (map_enc _ _ Ht) in R. exact R.
  - exists rls. auto.
Qed.
Lemma strings_total A L u o m punct parts lb rtokens tokens spare maxWidth W ord : Forall2 utf8s rtokens tokens ->
  plainCall A L u o m punct parts lb rtokens spare maxWidth W ord ->
  exists res lb', leftAlignStrings A u ord spare lb tokens maxWidth = Ret (res, lb') /\
   (res = None <-> leftAlignUniform A u ord spare lb rtokens maxWidth = Ret (None, lb')).
Proof.
  intros Ht C. unfold leftAlignStrings. rewrite (map_dec _ _ Ht).
  destruct (call _ _ _ _ _ _ _ _ _ _ _ _ _ C) as (res & lb' & E & _). rewrite E. cbn [gbind fst snd]. eexists _, lb'. split; [reflexivity|].
  destruct res; cbn [option_map]; split; intros X; congruence.
Qed.
Lemma strings_valid A L u o m punct parts lb tokens spare maxWidth W ord : Forall (Forall isByte) tokens ->
  plainCall A L u o m punct parts lb (map runesOf tokens) spare maxWidth W ord -> forall ls lb',
  leftAlignStrings A u ord spare lb tokens maxWidth = Ret (Some ls, lb') -> exists rls, Forall2 utf8s rls ls.
Proof.
  intros Hb C ls lb' E. destruct (strings_lines _ _ _ _ _ _ _ _ _ _ _ _ _ C Hb _ _ E) as (rres & _ & H).
  destruct rres as [rls|]; [|contradiction]. exists rls. tauto.
Qed.

(** ** After the tokenizer *)
Lemma reflow_nonblank t ls (keep : rune -> bool) : keep 32 = false -> reflow false t ls -> filter keep (concat ls) = filter keep t.
Proof.
  intros H32. induction 1 as [t Ht|t rest ls Ht Hr IH|t rest ls Ht Hr IH|t rest ls Hrh Ht Hr IH]; [cbn [concat]; now rewrite app_nil_r| | |discriminate]; cbn [concat];
  rewrite !filter_app, IH; [|reflexivity]. cbn [filter]. now rewrite H32.
Qed.
Lemma join_nonblank ts (keep : rune -> bool) : keep 32 = false -> filter keep (joinWith 32 ts) = filter keep (concat ts).
Proof.
  intros H32. induction ts as [|t ts IH]; [reflexivity|]. destruct ts; [cbn [concat joinWith]; now rewrite app_nil_r|].
  change (filter keep (t ++ 32 :: joinWith 32 (l :: ts)) = filter keep (t ++ concat (l :: ts))). rewrite !filter_app. cbn [filter]. rewrite H32. now rewrite IH.
Qed.
Lemma filter_all {T} (f : T -> bool) l : Forall (fun x => f x = true) l -> filter f l = l.
Proof. induction 1 as [|x l H _ IH]; cbn; [reflexivity|]. now rewrite H, IH. Qed.

Lemma pipeline A L u o m punct parts lb text rtext spare maxWidth W ord rtokens : utf8s rtext text -> fields isSpace rtext rtokens ->
  plainCall A L u o m punct parts lb rtokens spare maxWidth W ord ->
  exists tokens, tokenizeString text = Ret tokens /\ Forall2 utf8s rtokens tokens /\
  forall ls lb', leftAlignStrings A u ord spare lb tokens maxWidth = Ret (Some ls, lb') ->
  reflow (l_renderHyphens o) (joinWith 32 tokens) ls /\
  (l_renderHyphens o = false -> exists rls, Forall2 utf8s rls ls /\
    filter (fun r => negb (isSpace r)) (concat rls) = filter (fun r => negb (isSpace r)) rtext).
Proof.
  intros Ht Hf C. unfold tokenizeString. rewrite (runesOf_utf8s _ _ Ht).
  destruct (fieldsFunc_full rtext isSpace) as (ts & E & _ & Hu). specialize (Hu _ Hf). subst ts.
  destruct (tokenizer_keeps rtext) as (ts & E' & Hk & Hc). unfold tokenizerBreakWord in *. rewrite E in E'. injection E' as <-. rewrite E. cbn [gbind].
  assert (Forall (Forall scalar) rtokens) as Hs.
  { pose proof (utf8s_scalar _ _ Ht) as S. assert (Forall scalar (concat rtokens)) as S2.
    { rewrite Hc. apply Forall_forall. intros r Hr. apply filter_In in Hr as [Hr _]. rewrite Forall_forall in S. now apply S. }
    clear -S2. induction rtokens; [constructor|]. cbn [concat] in S2. apply Forall_app in S2 as [? ?]. constructor; auto. }
  assert (Forall2 utf8s rtokens (map enc rtokens)) as H2.
  { clear -Hs. induction Hs; cbn [map]; constructor; [now apply enc_utf8s|assumption]. }
  eexists. split; [reflexivity|]. split; [exact H2|]. intros ls lb' El.
  destruct (strings_reflow _ _ _ _ _ _ _ _ _ _ _ _ _ _ H2 C _ _ El) as (R & rls & H3 & E3). split; [exact R|]. intros Hrh. exists rls. split; [exact H3|].
  pose proof (align_reflow _ _ _ _ _ _ _ _ _ _ _ _ _ C _ _ E3) as R3. rewrite Hrh in R3.
  rewrite (reflow_nonblank _ _ _ eq_refl R3), (join_nonblank _ _ eq_refl), Hc. apply filter_all. apply Forall_forall. intros r Hr. apply filter_In in Hr. tauto.
Qed.
