(** LeftAlignUniform on any tokens that can be read. *)
From Verif Require Import Base Arith Unicode Split SpecSplit SplitProofs Ansi SpecAnsi AnsiProofs Attr Hyph KP Nodes Render SpecKP Cost KPProofs Tokens Align Options
  Call Settings SpecFormat Format SpecAny AnyNodes AnyLines AnyShape.

(** ** What is asked of a call *)
(** [itemss] is what the tokens are made of *)
Definition readable (u : unicode) (tokens : list (list rune)) (spare : nat -> list rune) (itemss : list (list SpecAnsi.item)) : Prop :=
  Forall2 (lexed u) tokens itemss /\ Forall (Forall okRune) tokens /\
  forall j t, nth_error tokens j = Some t -> zlen (t ++ spare j) < 2 ^ 63.
(** Line breakers made by New(opts), used on tokens that contain the sequences [seqs]. *)
Inductive reached (A : arith) (u : unicode) (o : lopts A) : breaker A -> list (list rune) -> Prop :=
| re_new : forall lb, newBreaker A o = Ret lb -> reached A u o lb []
| re_call : forall lb seqs ord tokens itemss spare maxWidth res lb', reached A u o lb seqs -> readable u tokens spare itemss ->
    leftAlignUniform A u ord spare lb tokens maxWidth = Ret (res, lb') -> reached A u o lb' (seqs ++ flat_map formatting itemss).
(** the first token has some text *)
Definition firstText (itemss : list (list SpecAnsi.item)) : Prop := match itemss with [] => True | items :: _ => keptText items <> [] end.
(** one of the first three tokens has some text, if there are more *)
Definition soonText (itemss : list (list SpecAnsi.item)) : Prop :=
  (length itemss <= 3)%nat \/ exists j items, (j <= 2)%nat /\ nth_error itemss j = Some items /\ keptText items <> [].

Lemma lexed_runes u tok items : lexed u tok items -> concat (map runesIn items) = tok.
Proof. induction 1; cbn [map concat runesIn] in *; try (rewrite IHlexed); reflexivity. Qed.
Lemma kept_runes P items : Forall P (concat (map runesIn items)) -> Forall P (keptText items).
Proof.
  induction items as [|i items IH]; intros H; [constructor|]. cbn [map concat] in H. apply Forall_app in H as [H1 H2]. unfold keptText in *. cbn [flat_map].
  apply Forall_app. split; [|now apply IH]. destruct i as [l|[| |] l]; try exact H1; constructor.
Qed.

(** ** The state of a line breaker *)
Lemma inSeqs_incl s s' a : incl s s' -> inSeqs s a -> inSeqs s' a.
Proof. intros H [H1 H2]. split; auto. Qed.
Section State.
Variable A : arith.
Variable u : unicode.
Variable lb : breaker A.
Variable seqs : list (list rune).
Lemma boxNodes_kept tok spare items attrs x : mcap (tok ++ spare) -> lexed u tok items -> incl (formatting items) seqs ->
  Forall (inSeqs seqs) attrs -> boxNodes A u lb tok spare attrs = Ret x -> Forall (inSeqs seqs) (snd x).
Proof.
  intros Hc Hl Hi Hk. destruct (strip_parts u tok spare items Hc Hl) as (ps & E & _ & Hp). unfold boxNodes. rewrite E. cbn [gbind].
  apply strippedNodes_kept; [|exact Hk]. eapply Forall_impl; [|exact Hp]. intros p [H1 H2]. eauto using orNone_incl.
Qed.
Lemma alignedLoop_kept spare tokens : forall tok itemss items i attrs nodes x,
  (forall j t, nth_error (tok :: tokens) j = Some t -> mcap (t ++ spare (i + j)%nat)) -> Forall2 (lexed u) (tok :: tokens) (items :: itemss) ->
  incl (flat_map formatting (items :: itemss)) seqs -> Forall (inSeqs seqs) attrs ->
  alignedLoop A u lb tok tokens spare i attrs nodes = Ret x -> Forall (inSeqs seqs) (snd x).
Proof.
  induction tokens as [|t tokens IH]; intros tok itemss items i attrs nodes x Hc Hl Hi Hk; cbn [alignedLoop];
    inversion Hl as [|? ? ? ? Hl1 Hl2]; subst; cbn [flat_map] in Hi;
    (destruct (boxNodes A u lb tok (spare i) attrs) as [[n' a']|] eqn:E; cbn [gbind]; [|discriminate];
     apply (boxNodes_kept _ _ items) in E; [|specialize (Hc 0%nat tok eq_refl); now rewrite Nat.add_0_r in Hc|exact Hl1|intros z Hz; apply Hi, in_or_app; now left|exact Hk]; cbn [snd] in E).
  - intros [= <-]. exact E.
  - inversion Hl2 as [|? items' ? itemss' Hl3 Hl4]; subst. apply (IH t itemss' items'); [|now constructor|intros z Hz; apply Hi, in_or_app; now right|exact E].
    intros j t' Hj. replace (S i + j)%nat with (i + S j)%nat by lia. now apply Hc.
Qed.
End State.
Lemma reached_ok A u o lb seqs : reached A u o lb seqs -> exists sp hy, newBreaker A o = Ret (mkBreaker o sp hy []) /\
  exists attrs, lb = mkBreaker o sp hy attrs /\ Forall (inSeqs seqs) attrs.
Proof.
  induction 1 as [lb H|lb seqs ord tokens itemss spare maxWidth res lb' _ (sp & hy & E & attrs & -> & Hp) (Hl & _ & Hc) H].
  - assert (H0 := H). unfold newBreaker in H. destruct (measure A o [32]) as [sp|]; cbn [gbind] in H; [|discriminate].
    destruct (if l_wordBreak o then measure A o [45] else Ret (fZ A 0)) as [hy|]; cbn [gbind] in H; [|discriminate].
    injection H as <-. exists sp, hy. split; [exact H0|]. exists []. split; [reflexivity|constructor].
  - exists sp, hy. split; [exact E|]. unfold leftAlignUniform, leftAlignedNodes in H. cbn [lb_attrs lb_opts lb_spaceWidth lb_hyphenWidth] in H.
    set (lb := mkBreaker o sp hy attrs) in *. set (seqs' := seqs ++ flat_map formatting itemss).
    assert (Forall (inSeqs seqs') attrs) as Hp'. { eapply Forall_impl; [|exact Hp]. intros a. apply inSeqs_incl. intros z Hz. apply in_or_app. now left. }
    assert (forall x, match tokens with [] => Ret ([], attrs) | token :: tokens' => alignedLoop A u lb token tokens' spare 0 attrs [] end = Ret x ->
      Forall (inSeqs seqs') (snd x)) as K.
    { intros x. destruct tokens as [|t ts]; [intros [= <-]; exact Hp'|]. inversion Hl as [|? items ? its Hl1 Hl2]; subst.
      apply (alignedLoop_kept A u lb seqs' spare ts t its items); [exact Hc|now constructor| |exact Hp']. intros z Hz. apply in_or_app. now right. }
    destruct (match tokens with [] => _ | _ => _ end) as [[ns attrs']|]; cbn [gbind] in H; [|discriminate].
    specialize (K _ eq_refl). cbn [snd] in K.
    destruct (breakPoints A (l_search o) ord ns [scale A o maxWidth]) as [[bs|]|]; cbn [gbind] in H; try discriminate.
    + destruct (render A o attrs' ns bs); cbn [gbind] in H; [|discriminate]. injection H as _ <-. eauto.
    + injection H as _ <-. eauto.
Qed.

(** ** The theorem on calls *)
Lemma zsum_M {T} (M : list rune -> Z) (f : T -> list rune) l : (forall a b, M (a ++ b) = M a + M b) -> l <> [] ->
  zsum (map (fun x => M (f x)) l) + (zlen l - 1) * M [32] = M (joinWith 32 (map f l)).
Proof.
  intros HM. induction l as [|x l IH]; [congruence|]. intros _. destruct l as [|y l]; [cbn; lia|].
  specialize (IH ltac:(discriminate)). change (joinWith 32 (map f (x :: y :: l))) with (f x ++ [32] ++ joinWith 32 (map f (y :: l))).
  rewrite !HM. rewrite <- IH. unfold zlen. cbn [map zsum length]. lia.
Qed.
Theorem any_call A L u o m punct parts (S : settings A L u o m punct parts) M (HM : forall t, m t <= M t) (HMa : forall a b, M (a ++ b) = M a + M b)
  (Hempty : exists ps, l_punctuator o [] = Ret ps /\ concat ps = []) lb seqs tokens spare itemss maxWidth W ord :
  reached A u o lb seqs -> readable u tokens spare itemss -> soonText itemss -> M (joinWith 32 (map keptText itemss)) <= 2 ^ 50 ->
  rep A L (scale A o maxWidth) W -> - 2 ^ 50 <= W <= 2 ^ 50 -> (W <> 0 \/ firstText itemss) -> (forall i k c, In c (ord i k)) ->
  exists res lb', leftAlignUniform A u ord spare lb tokens maxWidth = Ret (res, lb') /\ reached A u o lb' (seqs ++ flat_map formatting itemss) /\
  match res with
  | None => True
  | Some ls => ls <> [] /\ exists ts, Forall2 (decorated (seqs ++ flat_map formatting itemss)) ls ts /\
      ((forall a b, m (a ++ b) = m a + m b) -> Forall (fun t => m t <= W) ts) /\
      decorated (added (l_renderHyphens o)) (concat ts) (concat (map keptText itemss)) /\
      ((forall i k, zlen (ord i k) <= 4) -> zlen ls * (zlen ls + 1) <= 2 * effort A u lb ord spare tokens maxWidth)
  end.
Proof.
  intros Hre Hrd Hst Hw HmaxW HW Hft Hord.
  assert (exists res lb', leftAlignUniform A u ord spare lb tokens maxWidth = Ret (res, lb') /\
    match res with
    | None => True
    | Some ls => ls <> [] /\ exists ts, Forall2 (decorated (seqs ++ flat_map formatting itemss)) ls ts /\
        ((forall a b, m (a ++ b) = m a + m b) -> Forall (fun t => m t <= W) ts) /\
        decorated (added (l_renderHyphens o)) (concat ts) (concat (map keptText itemss)) /\
        ((forall i k, zlen (ord i k) <= 4) -> zlen ls * (zlen ls + 1) <= 2 * effort A u lb ord spare tokens maxWidth)
    end) as (res & lb' & E & H).
  2: { exists res, lb'. split; [exact E|]. split; [|exact H]. eapply re_call; eassumption. }
  destruct (reached_ok _ _ _ _ _ Hre) as (sp & hy & En & attrs & -> & Hkept).
  destruct (settings_new A L u o m punct parts S) as (sp' & hy' & E' & R1 & R2). rewrite En in E'. injection E' as <- <-.
  destruct S as [(opts & Eo) S2 S3 S4 S5 S6 S7 [S8 S9] S10 S11].
  destruct (options_fixed A (defaultHyphenator u) (defaultPunctuator u) opts) as (F1 & F2 & F3 & F4 & F5 & F6 & F7 & F8).
  rewrite <- Eo in F1, F2, F3, F4, F5, F6, F7, F8.
  assert (forall n, 0 <= n <= 1000 -> bnd A L 10 (fZ A n)) as B.
  { intros n Hn. apply bnd_rep with n; [apply rep_Z; unfold exactZ; lia|lia|lia]. }
  destruct Hrd as (Hl & Hok & Hc). unfold effort, leftAlignUniform, leftAlignedNodes. cbn [lb_attrs lb_opts lb_spaceWidth lb_hyphenWidth].
  destruct tokens as [|tok tokens].
  { eexists None, _. split; [|exact I]. cbn [gbind]. replace (breakPoints A (l_search o) ord [] [scale A o maxWidth]) with (@Ret (option (list (bpoint A))) None); [reflexivity|].
    unfold breakPoints. cbn [skipn findStartNode breakLoop gbind]. f_equal. unfold findBestBreak. cbn [fold_left]. match goal with |- context [if ?b then _ else _] => destruct b end; reflexivity. } inversion Hl as [|? items ? its Hl1 Hl2]; subst.
  set (o := withOptions A (defaultHyphenator u) (defaultPunctuator u) opts) in *.
  set (seqs' := seqs ++ flat_map formatting (items :: its)) in *.
  set (lb := mkBreaker o sp hy attrs) in *.
  assert (Forall (inSeqs seqs') attrs) as Hk'. { eapply Forall_impl; [|exact Hkept]. intros a. apply inSeqs_incl. intros z Hz. apply in_or_app. now left. }
  assert (length tokens = length its) as Hlen by (clear - Hl2; induction Hl2; cbn; congruence).
  assert (forall t, 0 <= M t) as M0. { intros t. pose proof (HM t). pose proof (proj1 (S7 t)). lia. }
  assert (forall w, exists ps, l_punctuator (lb_opts lb) w = Ret ps /\ concat ps = w) as Hpu.
  { intros [|c w]; [exact Hempty|]. destruct (S5 (c :: w) ltac:(discriminate)) as (P1 & P2 & _). eauto. }
  assert (l_wordBreak (lb_opts lb) = true -> forall w, w <> [] -> exists p ps, l_hyphenator (lb_opts lb) w = Ret (p :: ps) /\ concat (p :: ps) = w) as Hpa.
  { intros Hwb w Hw'. destruct (S6 Hwb w Hw') as (P1 & P2 & _). destruct (parts w) as [|p ps]; [exfalso; apply Hw'; now rewrite <- P2|]. eauto. }
  assert (0 <= hyphenW o m <= 2 ^ 50) as Hhy. { unfold hyphenW. pose proof (proj1 (S7 [45])). destruct (l_wordBreak o); lia. }
  assert (l_wordBreak (lb_opts lb) = true -> hyphenW o m = m [45]) as Hhw. { unfold hyphenW. cbn [lb lb_opts]. now intros ->. }
  pose proof (zsum_M M keptText (items :: its) HMa ltac:(discriminate)) as Ew.
  assert (forall is, In is (items :: its) -> M (keptText is) <= 2 ^ 50) as Hin.
  { intros is Hin. assert (M (keptText is) <= zsum (map (fun x => M (keptText x)) (items :: its))) as K.
    { revert Hin. generalize (items :: its). clear - M0. induction l as [|x l IH]; intros Hin; [destruct Hin|]; destruct Hin as [->|H]; cbn [map zsum].
      - assert (0 <= zsum (map (fun x => M (keptText x)) l)); [|lia]. clear - M0. induction l as [|y l IH]; cbn [map zsum]; [lia|]. pose proof (M0 (keptText y)). lia.
      - specialize (IH H). pose proof (M0 (keptText x)). lia. }
    pose proof (M0 [32]). assert (0 <= zlen (items :: its) - 1) by (unfold zlen; cbn [length]; lia). nia. }
  destruct (alignedLoop_any A L u lb m M (hyphenW o m) F1 F2 F3 S3 S4 Hpu Hpa S7 HM HMa R1 R2 Hhy Hhw seqs' spare tokens tok its items 0 attrs [])
    as (ns & s' & k & Ea & _ & Hch & Hkc & (rest & Er & Hr) & Hj & Hks); [|exact Hlen|exact Hk'|].
  { intros j t is Ht His. cbn [Nat.add]. assert (lexed u t is) as Hlx.
    { clear - Hl Ht His. revert j Ht His. induction Hl as [|x y l k Hxy _ IH]; intros [|j] Ht His; try discriminate; cbn in *; [congruence|eauto]. }
    split; [now apply Hc|]. split; [exact Hlx|]. pose proof (nth_error_In _ _ His) as Hi2. split; [split|].
    - apply kept_runes. rewrite (lexed_runes u t is Hlx). rewrite Forall_forall in Hok. apply Hok. now apply nth_error_In in Ht.
    - now apply Hin.
    - intros z Hz. apply in_or_app. right. apply in_flat_map. eauto. }
  rewrite Ea. cbn [gbind app].
  assert (readyFor A W ns) as Hready.
  { assert (k <= 2)%nat as Hk2. { destruct Hst as [Hst|(j & is & H1 & H2 & H3)]; [lia|]. specialize (Hj j is H2 H3). lia. }
    assert (W <> 0 \/ (k <= 1)%nat) as Hk1. { destruct Hft as [Hft|Hft]; [now left|right]. specialize (Hj 0%nat items eq_refl Hft). lia. }
    rewrite Er. destruct Hr as [Hr|[-> _]]; [now apply leading_ready|]. rewrite app_nil_r. apply empty_ready; try assumption; lia. }
  assert (zsum (map (fun is => M (keptText is)) (items :: its)) + zlen tokens * m [32] <= 2 ^ 50) as Hw'.
  { pose proof (HM [32]). assert (zlen tokens = zlen (items :: its) - 1) as -> by (unfold zlen; cbn [length]; rewrite Hlen; lia).
    assert (0 <= zlen (items :: its) - 1) by (unfold zlen; cbn [length]; lia). pose proof (proj1 (S7 [32])). nia. }
  assert (bnd A L 20 (k_badness (l_search o))) as B1 by (rewrite F5; apply bnd_mono with 10; [apply B; lia|lia]).
  assert (bnd A L 100 (k_line (l_search o))) as B2 by (rewrite F6; apply bnd_mono with 10; [apply B; lia|lia]).
  assert (bnd A L 100 (k_flagged (l_search o))) as B3 by (destruct F8 as [->| ->]; [apply bnd_mono with 10; [apply B; lia|lia]|exact S3]).
  assert (bnd A L 100 (k_fitness (l_search o))) as B4 by (rewrite F7; apply bnd_mono with 10; [apply B; lia|lia]).
  destruct (lines_any A L lb m seqs' s' S3 S10 S11 Hks W (scale A o maxWidth) HmaxW HW (l_search o) B1 B2 B3 B4 S2 ord Hord ns _ _ Hch Hw' Hready)
    as [E|(bs & ls & ts & E & Ern & Hne & H1 & H2 & H3 & H4)]; rewrite E; cbn [gbind].
  - eexists None, _. split; [reflexivity|exact I].
  - cbn [lb lb_opts] in Ern. rewrite Ern. cbn [gbind]. eexists (Some ls), _. split; [reflexivity|]. cbn beta iota. split; [exact Hne|]. exists ts. auto.
Qed.

(** The same with options of New, in unscaled widths *)
Theorem options_any A L u opts : Forall (okOption A L) opts ->
  let o := withOptions A (defaultHyphenator u) (defaultPunctuator u) opts in
  (exists ps, l_punctuator o [] = Ret ps /\ concat ps = []) ->
  exists mz, measures A L (l_measurer o) mz /\
  forall lb seqs tokens spare itemss maxWidth n ord, reached A u o lb seqs -> readable u tokens spare itemss -> soonText itemss ->
    mz (joinWith 32 (map keptText itemss)) <= 2 ^ 30 -> rep A L maxWidth n -> 0 < n <= 2 ^ 30 -> (forall i k c, In c (ord i k)) ->
    exists res lb', leftAlignUniform A u ord spare lb tokens maxWidth = Ret (res, lb') /\ reached A u o lb' (seqs ++ flat_map formatting itemss) /\
    match res with
    | None => True
    | Some ls => ls <> [] /\ exists ts, Forall2 (decorated (seqs ++ flat_map formatting itemss)) ls ts /\
        decorated (added (l_renderHyphens o)) (concat ts) (concat (map keptText itemss))
    end.
Proof.
  intros H o He. destruct (options_settings A L u opts H) as (sc & mz & punct & parts & R & M & Hs & _ & S). fold o in R, M, S. exists mz. split; [exact M|].
  intros lb seqs tokens spare itemss maxWidth n ord Hre Hrd Hft Hw Hn Hn2 Hord. pose proof M as (M1 & M2 & _).
  destruct R as [C1 C2 C3 C4 C5 C6].
  destruct (any_call A L u o _ punct parts S (fun t => 2 ^ 20 * mz t)) with (lb := lb) (seqs := seqs) (tokens := tokens) (spare := spare) (itemss := itemss)
    (maxWidth := maxWidth) (W := sc n) (ord := ord) as (res & lb' & E & Hr & K); try assumption.
  - intros t. cbn beta. apply C1, M1.
  - intros a b. cbn beta. rewrite M2. lia.
  - lia.
  - unfold scale. apply C4; [lia| |exact Hn]. pose proof (C1 n). lia.
  - pose proof (C1 n). lia.
  - left. pose proof (C2 n). lia.
  - exists res, lb'. split; [exact E|]. split; [exact Hr|]. destruct res as [ls|]; [|exact I]. destruct K as (K1 & ts & K2 & _ & K3 & _). eauto.
Qed.
Theorem options_any_width A L u opts k : Forall (okOption A L) opts ->
  let o := withOptions A (defaultHyphenator u) (defaultPunctuator u) opts in
  1 <= k <= 2 ^ 20 -> rep A L (l_scale o) k -> (exists ps, l_punctuator o [] = Ret ps /\ concat ps = []) ->
  exists mz, measures A L (l_measurer o) mz /\
  forall lb seqs tokens spare itemss maxWidth n ord ls lb', reached A u o lb seqs -> readable u tokens spare itemss -> soonText itemss ->
    mz (joinWith 32 (map keptText itemss)) <= 2 ^ 30 -> rep A L maxWidth n -> 0 < n <= 2 ^ 30 -> (forall i k c, In c (ord i k)) ->
    leftAlignUniform A u ord spare lb tokens maxWidth = Ret (Some ls, lb') ->
    exists ts, Forall2 (decorated (seqs ++ flat_map formatting itemss)) ls ts /\ Forall (fun t => mz t <= n) ts /\
      decorated (added (l_renderHyphens o)) (concat ts) (concat (map keptText itemss)).
Proof.
  intros H o Hk R He. destruct (options_settings_int A L u opts k H Hk R) as (mz & punct & parts & M & S). fold o in M, S. exists mz. split; [exact M|].
  intros lb seqs tokens spare itemss maxWidth n ord ls lb' Hre Hrd Hft Hw Hn Hn2 Hord E. pose proof M as (M1 & M2 & _).
  pose proof (M1 (joinWith 32 (map keptText itemss))) as Hp.
  destruct (any_call A L u o _ punct parts S (fun t => k * mz t)) with (lb := lb) (seqs := seqs) (tokens := tokens) (spare := spare) (itemss := itemss)
    (maxWidth := maxWidth) (W := k * n) (ord := ord) as (res & lb2 & E2 & _ & K); try assumption.
  - intros t. lia.
  - intros a b. cbn beta. rewrite M2. lia.
  - nia.
  - apply scaled_width; try assumption; nia.
  - nia.
  - left. nia.
  - rewrite E in E2. injection E2 as <- _. destruct K as (_ & ts & K2 & K3 & K4 & _). exists ts. split; [exact K2|]. split; [|exact K4].
    eapply Forall_impl; [|apply K3]; cbn beta; [intros t Ht; nia|]. intros a b. rewrite M2. lia.
Qed.

(** A width of zero or less *)
Lemma scaled_any A L (o : lopts A) k n x : rep A L (l_scale o) k -> rep A L x n -> - 2 ^ 50 <= k * n <= 2 ^ 50 -> rep A L (scale A o x) (k * n).
Proof. intros Hk Hx Hb. unfold scale. apply rep_round. rewrite Z.mul_comm. apply rep_mul; [exact Hx|exact Hk|]. unfold exactZ. lia. Qed.
Lemma decorated_le m seqs s t : (forall a b, m (a ++ b) = m a + m b) -> (forall a, 0 <= m a) -> decorated seqs s t -> m t <= m s.
Proof.
  intros Ha H0. induction 1 as [|c s t _ IH|q s t _ _ IH]; [lia| |].
  - change (c :: s) with ([c] ++ s). change (c :: t) with ([c] ++ t). rewrite !Ha. lia.
  - rewrite Ha. pose proof (H0 q). lia.
Qed.
Theorem no_width A L u opts k : Forall (okOption A L) opts ->
  let o := withOptions A (defaultHyphenator u) (defaultPunctuator u) opts in
  1 <= k <= 2 ^ 20 -> rep A L (l_scale o) k -> (exists ps, l_punctuator o [] = Ret ps /\ concat ps = []) ->
  exists mz, measures A L (l_measurer o) mz /\
  forall lb seqs tokens spare itemss maxWidth n ord, reached A u o lb seqs -> readable u tokens spare itemss -> 
    mz (joinWith 32 (map keptText itemss)) <= 2 ^ 30 -> rep A L maxWidth n -> - 2 ^ 30 <= n <= 0 -> (forall i k c, In c (ord i k)) ->
    (n < 0 /\ soonText itemss) \/ (firstText itemss /\ 0 < mz (concat (map keptText itemss))) ->
    exists lb', leftAlignUniform A u ord spare lb tokens maxWidth = Ret (None, lb') /\ reached A u o lb' (seqs ++ flat_map formatting itemss).
Proof.
  intros H o Hk R He. destruct (options_settings_int A L u opts k H Hk R) as (mz & punct & parts & M & S). fold o in M, S. exists mz. split; [exact M|].
  intros lb seqs tokens spare itemss maxWidth n ord Hre Hrd Hw Hn Hn2 Hord Hc. pose proof M as (M1 & M2 & _).
  pose proof (M1 (joinWith 32 (map keptText itemss))) as Hp.
  destruct (any_call A L u o _ punct parts S (fun t => k * mz t)) with (lb := lb) (seqs := seqs) (tokens := tokens) (spare := spare) (itemss := itemss)
    (maxWidth := maxWidth) (W := k * n) (ord := ord) as (res & lb2 & E2 & Hl & K); try assumption.
  - intros t. lia.
  - intros a b. cbn beta. rewrite M2. lia.
  - destruct Hc as [[_ Hc]|[Hc _]]; [exact Hc|]. destruct itemss as [|is its]; [left; cbn; lia|]. right. exists 0%nat, is. split; [lia|]. split; [reflexivity|exact Hc].
  - nia.
  - apply scaled_any; try assumption; nia.
  - nia.
  - destruct Hc as [[Hc _]|[Hc _]]; [left; nia|now right].
  - destruct res as [ls|]; [exfalso|eauto]. destruct K as (K1 & ts & K2 & K3 & K4 & _).
    assert (Forall (fun t => mz t <= n) ts) as K5. { eapply Forall_impl; [|apply K3]; cbn beta; [intros t Ht; nia|]. intros a b. rewrite M2. lia. }
    destruct Hc as [[Hc _]|[_ Hc]].
    + destruct K2 as [|l t ls ts _ _]; [congruence|]. inversion K5 as [|? ? K6 _]; subst. pose proof (M1 t). lia.
    + apply (decorated_le mz) in K4; [|exact M2|exact M1]. assert (mz (concat ts) <= 0); [|lia]. clear - K5 M2 Hn2.
      assert (mz [] = 0) as E0 by (pose proof (M2 [] []) as E; cbn in E; lia). induction K5 as [|t ts Ht _ IH]; cbn [concat]; [lia|]. rewrite M2. lia.
Qed.

(** How much work is done *)
Theorem options_effort A L u opts : Forall (okOption A L) opts ->
  let o := withOptions A (defaultHyphenator u) (defaultPunctuator u) opts in
  (exists ps, l_punctuator o [] = Ret ps /\ concat ps = []) ->
  exists mz, measures A L (l_measurer o) mz /\
  forall lb seqs tokens spare itemss maxWidth n ord ls lb', reached A u o lb seqs -> readable u tokens spare itemss -> soonText itemss ->
    mz (joinWith 32 (map keptText itemss)) <= 2 ^ 30 -> rep A L maxWidth n -> 0 < n <= 2 ^ 30 ->
    (forall i k c, In c (ord i k)) -> (forall i k, zlen (ord i k) <= 4) ->
    leftAlignUniform A u ord spare lb tokens maxWidth = Ret (Some ls, lb') ->
    zlen ls * (zlen ls + 1) <= 2 * effort A u lb ord spare tokens maxWidth.
Proof.
  intros H o He. destruct (options_settings A L u opts H) as (sc & mz & punct & parts & R & M & Hs & _ & S). fold o in R, M, S. exists mz. split; [exact M|].
  intros lb seqs tokens spare itemss maxWidth n ord ls lb' Hre Hrd Hft Hw Hn Hn2 Hord Ho E. pose proof M as (M1 & M2 & _).
  destruct R as [C1 C2 C3 C4 C5 C6].
  destruct (any_call A L u o _ punct parts S (fun t => 2 ^ 20 * mz t)) with (lb := lb) (seqs := seqs) (tokens := tokens) (spare := spare) (itemss := itemss)
    (maxWidth := maxWidth) (W := sc n) (ord := ord) as (res & lb2 & E2 & _ & K); try assumption.
  - intros t. cbn beta. apply C1, M1.
  - intros a b. cbn beta. rewrite M2. lia.
  - lia.
  - unfold scale. apply C4; [lia| |exact Hn]. pose proof (C1 n). lia.
  - pose proof (C1 n). lia.
  - left. pose proof (C2 n). lia.
  - rewrite E in E2. injection E2 as <- _. destruct K as (_ & ts & _ & _ & _ & K). now apply K.
Qed.
