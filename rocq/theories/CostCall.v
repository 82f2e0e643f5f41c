(** How much work LeftAlignUniform does. *)
From Verif Require Import Base Arith Unicode Split SpecSplit SplitProofs Ansi SpecAnsi AnsiProofs Attr Hyph KP Nodes Render Tokens Options Settings SpecAny AnyNodes AnyCall Cost.

(** The number of nodes of tokens *)
Section Count.
Variable A : arith.
Variable u : unicode.
Variable lb : breaker A.
Notation o := (lb_opts lb).
Notation node := (node A).
Variable g h : list rune -> list (list rune).
Hypothesis Hpunct : cuts (l_punctuator o) g.
Hypothesis Hnil : l_punctuator o [] = Ret [].
Hypothesis Hhyph : l_wordBreak o = true -> cuts (l_hyphenator o) h.
Notation total := (fun ps : list (list rune) => length (concat ps)).
Lemma partNodes_len start ps : forall ts p nodes x, p <> [] -> Forall (fun p => p <> []) ps -> partNodes A lb start ts p ps nodes = Ret x ->
  (length (fst x) <= length nodes + 5 * length (p ++ concat ps))%nat.
Proof.
  induction ps as [|q ps IH]; intros ts p nodes x Hp Hps; cbn [partNodes]; unfold startBox;
    destruct (measure A o p) as [w|]; cbn [gbind]; try discriminate; intros E; destruct p as [|c p]; try congruence.
  - injection E as <-. cbn [fst]. rewrite !app_length. cbn. lia.
  - inversion Hps; subst. apply IH in E; [|assumption|assumption]. cbn [concat]. revert E. rewrite !app_length. cbn [length].
    assert (length (pushHyphen A lb) <= 4)%nat by (unfold pushHyphen; destruct (l_renderHyphens o); cbn; lia). lia.
Qed.
Lemma wordNodes_len start words : l_wordBreak o = true -> Forall (fun p => p <> []) words -> forall ts nodes x, wordNodes A lb start ts words nodes = Ret x ->
  (length (fst x) <= length nodes + 5 * total words)%nat.
Proof.
  intros Hw. induction 1 as [|w words Hne _ IH]; intros ts nodes x; cbn [wordNodes].
  - intros [= <-]. cbn. lia.
  - cbn [concat]. rewrite app_length. destruct (isHyphen w).
    + unfold startBox. destruct (measure A o w) as [z|]; cbn [gbind]; [|discriminate]. intros E. apply IH in E. revert E. rewrite app_length. cbn [length markNodes].
      destruct w; [congruence|]. cbn [length]. lia.
    + destruct (Hhyph Hw w Hne) as (E1 & E2 & E3). rewrite E1. cbn [gbind]. destruct (h w) as [|p ps]; [discriminate|].
      inversion E3; subst. destruct (partNodes A lb start ts p ps nodes) as [[n' t']|] eqn:E; cbn [gbind]; [|discriminate].
      apply partNodes_len in E; [|assumption|assumption]. cbn [fst] in E. intros E'. apply IH in E'. cbn [concat]. lia.
Qed.
Lemma splitWord_parts p : p <> [] -> exists ws, splitWord p = Ret ws /\ concat ws = p /\ Forall (fun w => w <> []) ws.
Proof. intros _. exists (splitAt isHyphenRune p). split; [apply splitWord_is|]. split; [apply splitAt_concat|apply splitAt_nonempty]. Qed.
Lemma pieceNodes_len start pieces : Forall (fun p => p <> []) pieces -> forall ts nodes x, pieceNodes A u lb start ts pieces nodes = Ret x ->
  (length (fst x) <= length nodes + 5 * total pieces)%nat.
Proof.
  induction 1 as [|p pieces Hne _ IH]; intros ts nodes x; cbn [pieceNodes].
  - intros [= <-]. cbn. lia.
  - cbn [concat]. rewrite app_length. assert (1 <= length p)%nat by (destruct p; [congruence|cbn; lia]).
    destruct (isPunctuation u p); [|destruct (negb (l_wordBreak o) || (zlen p <=? l_minHyphenate o)) eqn:Ew].
    + unfold startBox. destruct (measure A o p) as [z|]; cbn [gbind]; [|discriminate]. intros E. apply IH in E. revert E. rewrite app_length. cbn [length markNodes]. lia.
    + unfold startBox. destruct (measure A o p) as [z|]; cbn [gbind]; [|discriminate]. intros E. apply IH in E. revert E. rewrite app_length. cbn [length markNodes]. lia.
    + apply orb_false_iff in Ew as [Ew _]. apply negb_false_iff in Ew. destruct (splitWord_parts p Hne) as (ws & E1 & E2 & E3). rewrite E1. cbn [gbind].
      destruct (wordNodes A lb start ts ws nodes) as [[n' t']|] eqn:E; cbn [gbind]; [|discriminate].
      apply wordNodes_len in E; [|exact Ew|exact E3]. cbn [fst] in E. rewrite E2 in E. intros E'. apply IH in E'. lia.
Qed.
Lemma strippedNodes_len mem parts : forall attrs nodes x, strippedNodes A u lb mem parts attrs nodes = Ret x ->
  (length (fst x) <= length nodes + 5 * total (map (fun p => contents mem (s_text p)) parts))%nat.
Proof.
  induction parts as [|st parts IH]; intros attrs nodes x; cbn [strippedNodes].
  - intros [= <-]. cbn. lia.
  - cbn [map concat]. rewrite app_length. set (t := contents mem (s_text st)).
    assert (exists ps, l_punctuator o t = Ret ps /\ concat ps = t /\ Forall (fun w => w <> []) ps) as (ps & E1 & E2 & E3).
    { destruct t as [|c t]; [exists []; auto|]. destruct (Hpunct (c :: t) ltac:(discriminate)) as (P1 & P2 & P3). eauto. }
    rewrite E1. cbn [gbind]. destruct (pieceNodes A u lb (contents mem (s_start st)) (mkTs attrs None false) ps nodes) as [[n' t']|] eqn:E; cbn [gbind]; [|discriminate].
    apply pieceNodes_len in E; [|exact E3]. cbn [fst] in E. rewrite E2 in E. intros E'. apply IH in E'. lia.
Qed.
Lemma kept_length items : (length (keptText items) <= length (concat (map runesIn items)))%nat.
Proof.
  induction items as [|i items IH]; [cbn; lia|]. unfold keptText in *. cbn [flat_map map concat]. rewrite !app_length. destruct i as [l|[| |] l]; cbn [runesIn length]; lia.
Qed.
Lemma boxNodes_len tok spare items attrs x : mcap (tok ++ spare) -> lexed u tok items -> boxNodes A u lb tok spare attrs = Ret x ->
  (length (fst x) <= 5 * length tok)%nat.
Proof.
  intros Hc Hl. destruct (strip_parts u tok spare items Hc Hl) as (ps & E & Et & _). unfold boxNodes. rewrite E. cbn [gbind]. intros E'.
  apply strippedNodes_len in E'. rewrite Et in E'. pose proof (kept_length items). rewrite (lexed_runes u tok items Hl) in H. cbn [length] in E'. lia.
Qed.
Lemma alignedLoop_len spare tokens : forall tok itemss items i attrs nodes x,
  (forall j t, nth_error (tok :: tokens) j = Some t -> mcap (t ++ spare (i + j)%nat)) -> Forall2 (lexed u) (tok :: tokens) (items :: itemss) ->
  alignedLoop A u lb tok tokens spare i attrs nodes = Ret x -> (length (fst x) <= length nodes + 5 * total (tok :: tokens) + 3 * length (tok :: tokens))%nat.
Proof.
  induction tokens as [|t tokens IH]; intros tok itemss items i attrs nodes x Hc Hl; cbn [alignedLoop]; inversion Hl as [|? ? ? ? Hl1 Hl2]; subst;
    (destruct (boxNodes A u lb tok (spare i) attrs) as [[n' a']|] eqn:E; cbn [gbind]; [|discriminate];
     apply (boxNodes_len _ _ items) in E; [|specialize (Hc 0%nat tok eq_refl); now rewrite Nat.add_0_r in Hc|exact Hl1]; cbn [fst] in E).
  - intros [= <-]. cbn [fst concat]. rewrite !app_length. cbn [length finalNodes]. lia.
  - inversion Hl2 as [|? items' ? itemss' Hl3 Hl4]; subst. intros E'. apply (IH t itemss' items') in E'; [|intros j t' Hj; replace (S i + j)%nat with (i + S j)%nat by lia; now apply Hc|now constructor].
    revert E'. cbn [concat]. rewrite !app_length. cbn [length spaceNodes]. lia.
Qed.

Theorem effort_bound ord spare tokens itemss maxWidth : Forall2 (lexed u) tokens itemss -> (forall j t, nth_error tokens j = Some t -> zlen (t ++ spare j) < 2 ^ 63) ->
  (forall i k, zlen (ord i k) <= 4) ->
  let n := 5 * zlen (concat tokens) + 3 * zlen tokens in effort A u lb ord spare tokens maxWidth <= 2 * n * n + n.
Proof.
  intros Hl Hc Ho n. unfold effort, leftAlignedNodes. destruct tokens as [|tok tokens].
  - pose proof (evaluations_bound A (l_search o) ord [] [scale A o maxWidth] Ho) as H. exact H.
  - inversion Hl as [|? items ? itemss' Hl1 Hl2]; subst.
    destruct (alignedLoop A u lb tok tokens spare 0 (lb_attrs lb) []) as [[ns s]|] eqn:E; [|unfold n, zlen; nia].
    apply (alignedLoop_len spare tokens tok itemss' items) in E; [|exact Hc|exact Hl]. cbn [fst] in E. cbn [length] in E.
    pose proof (evaluations_bound A (l_search o) ord ns [scale A o maxWidth] Ho) as H.
    assert (zlen ns <= n) as Hn by (unfold n, zlen; cbn [length]; lia). assert (0 <= zlen ns) by (unfold zlen; lia). nia.
Qed.
End Count.
(** with the options of New *)
Theorem options_work A L u opts : Forall (okOption A L) opts ->
  let o := withOptions A (defaultHyphenator u) (defaultPunctuator u) opts in
  l_punctuator o [] = Ret [] ->
  forall lb seqs tokens spare itemss maxWidth ord, reached A u o lb seqs -> readable u tokens spare itemss -> (forall i k, zlen (ord i k) <= 4) ->
  let n := 5 * zlen (concat tokens) + 3 * zlen tokens in effort A u lb ord spare tokens maxWidth <= 2 * n * n + n.
Proof.
  intros H o He lb seqs tokens spare itemss maxWidth ord Hre (Hr1 & _ & Hr2) Ho.
  destruct (options_reached A L u opts H) as [_ _ _ (hg & R6) (pg & R7) _]. fold o in R6, R7.
  assert (lb_opts lb = o) as Eo.
  { clear - Hre. induction Hre as [lb E|lb seqs ord tokens itemss spare maxWidth res lb' Hre IH _ E].
    - unfold newBreaker in E. destruct (measure A o [32]) as [x|]; [|discriminate]. cbn [gbind] in E.
      destruct (if l_wordBreak o then measure A o [45] else Ret (fZ A 0)) as [y|]; [|discriminate]. cbn [gbind] in E. now injection E as <-.
    - unfold leftAlignUniform in E. destruct (leftAlignedNodes A u lb tokens spare) as [[nodes attrs]|]; [|discriminate]. cbn [gbind] in E.
      destruct (breakPoints A _ ord nodes _) as [[bs|]|]; cbn [gbind] in E; try discriminate; [|now injection E as _ <-].
      destruct (render A _ attrs nodes bs) as [ls|]; cbn [gbind] in E; [now injection E as _ <-|discriminate]. }
  rewrite <- Eo in *. eapply effort_bound; eauto.
Qed.
