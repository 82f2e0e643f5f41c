(** The lines LeftAlignUniform makes of formatted tokens. *)
From Verif Require Import Base Arith Unicode Split SpecSplit Ansi SpecAnsi AnsiProofs Attr SpecAttr AttrProofs SpecBlocks Blocks SpecFormat KP Nodes Render
  SpecKP KPProofs Frags Show Para Tokens Align Reuse Format SpecLines.

(** ** Segments of passages *)
Definition segsOf (r : passage) (vs : list (list rune)) : list SpecAttr.seg :=
  if isPlain r then map Plain vs else match vs with [] => [] | v :: vs' => [Ctx (p_start r) v vs' (p_stop r)] end.
Definition docSegs (rs : list passage) (vss : list (list (list rune))) : list SpecAttr.seg :=
  flat_map (fun x => segsOf (fst x) (snd x)) (combine rs vss).
Section Segs.
Variable u : unicode.
Lemma okPassage_plain r : okPassage u r -> isPlain r = true -> p_start r = [] /\ p_stop r = [].
Proof.
  intros (_ & _ & [H|[Hs _]]); [intros _; exact H|]. unfold isPlain. destruct (sequence_ne u _ _ Hs) as (c & x & ->). discriminate.
Qed.
Lemma okPassage_seqs r : okPassage u r -> isPlain r = false -> sequence u Start (p_start r) /\ sequence u Stop (p_stop r).
Proof. intros (_ & _ & [[H _]|H]); [unfold isPlain; rewrite H; discriminate|]. intros _. exact H. Qed.
Lemma okPassage_fmt r : okPassage u r -> isPlain r = false -> p_start r <> [] /\ p_stop r <> [].
Proof.
  intros Hr E. destruct (okPassage_seqs r Hr E) as [Hs He].
  destruct (sequence_ne u _ _ Hs) as (c & x & ->), (sequence_ne u _ _ He) as (c' & x' & ->). split; discriminate.
Qed.
Lemma plain_words vs : flat_map segWords (map Plain vs) = map (fun v => (v, [], [])) vs.
Proof. induction vs as [|v vs IH]; [reflexivity|]. cbn [map flat_map segWords app]. now rewrite IH. Qed.
Lemma segs_words r vs : okPassage u r -> docWords (segsOf r vs) = runWords (p_start r) vs (p_stop r).
Proof.
  intros Hr. unfold segsOf. destruct (isPlain r) eqn:Ep.
  - destruct (okPassage_plain r Hr Ep) as [-> ->]. rewrite runWords_open, boxWords_nil. apply plain_words.
  - destruct vs as [|v vs]; [reflexivity|]. unfold docWords. cbn [flat_map segWords runWords]. now rewrite app_nil_r.
Qed.
Lemma doc_words rs : forall vss, Forall (okPassage u) rs ->
  docWords (docSegs rs vss) = flat_map (fun x => runWords (p_start (fst x)) (snd x) (p_stop (fst x))) (combine rs vss).
Proof.
  unfold docSegs. induction rs as [|r rs IH]; intros vss Hr; [reflexivity|]. destruct vss as [|vs vss]; [reflexivity|]. inversion Hr; subst.
  cbn [combine flat_map fst snd]. rewrite docWords_app, segs_words, IH by assumption. reflexivity.
Qed.
Lemma doc_words_len rs vss : Forall (okPassage u) rs -> length vss = length rs -> length (docWords (docSegs rs vss)) = length (concat vss).
Proof.
  intros Hr. rewrite doc_words by exact Hr. clear Hr. revert vss. induction rs as [|r rs IH]; intros [|vs vss] E; try discriminate; [reflexivity|].
  cbn [combine flat_map concat fst snd]. rewrite !app_length, runWords_len, IH by (now injection E). reflexivity.
Qed.
(** the words of a passage are those of its runs *)
Lemma runWords_app st a b e : a <> [] -> b <> [] -> runWords st (a ++ b) e = runWords st a [] ++ runWords [] b e.
Proof.
  intros Ha Hb. destruct (exists_last Hb) as (b' & x & ->). rewrite app_assoc, !runWords_snoc, runWords_open.
  destruct a as [|y a]; [congruence|]. cbn [app boxWords]. unfold bareWords. rewrite map_app, <- app_assoc. f_equal. f_equal.
  destruct b' as [|z b']; [reflexivity|]. destruct a; reflexivity.
Qed.
Lemma span_words (cut : list rune -> list (list rune)) ts : forall st e, Forall (fun t => cut t <> []) ts ->
  docOf (spanRuns st ts e) (map (fun r => cut (r_text r)) (spanRuns st ts e)) = runWords st (concat (map cut ts)) e.
Proof.
  unfold docOf. induction ts as [|t ts IH]; intros st e H; [reflexivity|]. inversion H as [|? ? H1 H2]; subst. destruct ts as [|t2 ts].
  - cbn [spanRuns map combine flat_map fst snd r_start r_text r_stop concat]. now rewrite !app_nil_r.
  - change (spanRuns st (t :: t2 :: ts) e) with (mkRun st t [] :: spanRuns [] (t2 :: ts) e). cbn [map combine flat_map fst snd r_start r_text r_stop].
    rewrite IH by exact H2. change (concat (cut t :: cut t2 :: map cut ts)) with (cut t ++ concat (map cut (t2 :: ts))).
    rewrite runWords_app; [reflexivity|exact H1|]. inversion H2; subst. cbn [map concat]. destruct (cut t2); [congruence|discriminate].
Qed.
Lemma doc_runs (cut : list rune -> list (list rune)) ps : Forall (okPassage u) ps -> (forall t, t <> [] -> cut t <> []) ->
  docWords (docSegs ps (map (fun p => concat (map cut (p_texts p))) ps)) =
  docOf (flat_map runsOf ps) (map (fun r => cut (r_text r)) (flat_map runsOf ps)).
Proof.
  intros Hp Hc. rewrite doc_words by exact Hp. induction Hp as [|p ps H _ IH]; [reflexivity|]. cbn [map combine flat_map fst snd].
  rewrite map_app, docOf_app by apply map_length. rewrite IH. f_equal. unfold runsOf. rewrite span_words; [reflexivity|].
  destruct H as (_ & H & _). eapply Forall_impl; [|exact H]. intros t [Ht _]. now apply Hc.
Qed.
Lemma segs_ok r vs : okPassage u r -> Forall okSeg (segsOf r vs).
Proof.
  intros Hr. unfold segsOf. destruct (isPlain r) eqn:Ep; [induction vs; constructor; [exact I|assumption]|].
  destruct vs; constructor; [|constructor]. now apply okPassage_fmt.
Qed.
Lemma doc_ok rs : forall vss, Forall (okPassage u) rs -> Forall okSeg (docSegs rs vss).
Proof.
  unfold docSegs. induction rs as [|r rs IH]; intros vss Hr; [constructor|]. destruct vss as [|vs vss]; [constructor|]. inversion Hr; subst.
  cbn [combine flat_map fst snd]. apply Forall_app. split; [now apply segs_ok|now apply IH].
Qed.
Lemma docSegs_app a va b vb : length va = length a -> docSegs (a ++ b) (va ++ vb) = docSegs a va ++ docSegs b vb.
Proof.
  unfold docSegs. revert va. induction a as [|r a IH]; intros [|v va] E; try discriminate; [reflexivity|].
  cbn [app combine flat_map]. rewrite IH by (now injection E). now rewrite app_assoc.
Qed.
(** groups of runs *)
Lemma leading_runs rs : forall vss, length vss = length rs -> Forall (fun vs => vs <> []) vss ->
  map startOf (leading (docSegs rs vss)) = map p_start (leadingPassages rs) /\ map stopOf (leading (docSegs rs vss)) = map p_stop (leadingPassages rs).
Proof.
  unfold docSegs. induction rs as [|r rs IH]; intros [|vs vss] E Hv; try discriminate; [split; reflexivity|]. inversion Hv as [|? ? Hvs Hv']; subst.
  cbn [combine flat_map fst snd leadingPassages]. unfold segsOf at 1 3. destruct vs as [|v vs]; [congruence|]. destruct (isPlain r); [split; reflexivity|].
  cbn [app leading isCtx map startOf stopOf]. destruct (IH vss ltac:(now injection E) Hv') as [-> ->]. split; reflexivity.
Qed.
Lemma map_plain_rev vs : rev (map Plain vs) = map Plain (rev vs). Proof. symmetry. apply map_rev. Qed.
Lemma leading_app_plain vs l : vs <> [] -> leading (map Plain vs ++ l) = []. Proof. destruct vs; [congruence|reflexivity]. Qed.
Lemma trailing_runs rs : forall vss, length vss = length rs -> Forall (fun vs => vs <> []) vss ->
  map startOf (trailing (docSegs rs vss)) = map p_start (trailingPassages rs) /\ map stopOf (trailing (docSegs rs vss)) = map p_stop (trailingPassages rs).
Proof.
  induction rs as [|r rs IH] using rev_ind; intros vss E Hv.
  - destruct vss; [split; reflexivity|discriminate].
  - destruct vss as [|vs vss _] using rev_ind; [rewrite app_length in E; cbn in E; lia|].
    rewrite !app_length in E. cbn [length] in E. apply Forall_app in Hv. destruct Hv as [Hv Hvs]. inversion Hvs as [|? ? Hvs' _]; subst.
    rewrite docSegs_app by lia. destruct (IH vss ltac:(lia) Hv) as [I1 I2]. unfold trailing, trailingPassages in *.
    rewrite !rev_app_distr. cbn [rev app leadingPassages]. unfold docSegs at 1 3. cbn [combine flat_map fst snd]. rewrite app_nil_r. unfold segsOf. destruct (isPlain r).
    + rewrite map_plain_rev. rewrite leading_app_plain by (intros E'; apply Hvs'; rewrite <- (rev_involutive vs), E'; reflexivity). split; reflexivity.
    + destruct vs as [|v vs]; [congruence|]. cbn [rev app leading isCtx]. cbn [rev]. rewrite !map_app, I1, I2. split; reflexivity.
Qed.
Lemma concat_flat {T} (f : T -> list rune) l : concat (map f l) = flat_map f l. Proof. symmetry. apply flat_map_concat_map. Qed.

(** the [k]-th fragment of a run *)
Definition seenAs (s : state) (n : nat) (v : list rune) (m : mark) : Prop :=
  (exists a, nth_error s n = Some a /\ concat (attrRender a) = m_before m ++ v ++ m_after m) /\
  forall i, i_cur i = Some n -> concat (startOfLine s i) = m_resume m /\ concat (endOfLine s i) = m_suspend m.
Lemma render_lv l t s e : concat (attrRender (lv l (t, s, e))) = s ++ t ++ e.
Proof.
  assert (forall x : list rune, concat (if 0 <? zlen x then [x] else []) = x) as K.
  { intros [|c x]; [reflexivity|]. rewrite zlen_pos by discriminate. cbn. now rewrite app_nil_r. }
  unfold attrRender, attrStart, attrStop, hasStart, hasStop. cbn [lv setLevel ofWord newAttr a_text a_start a_stop]. now rewrite !concat_app, !K.
Qed.
Lemma marks_tail vs : forall v st e re su k x, nth_error (v :: vs) k = Some x ->
  exists m, nth_error (marksFrom st e re su (length (v :: vs))) k = Some m /\
    (exists w, nth_error (tailWords v vs st e) k = Some w /\ w = (x, m_before m, m_after m)) /\
    m_resume m = (if (k <? length vs)%nat then re else []) /\ m_suspend m = (if (k <? length vs)%nat then su else []).
Proof.
  induction vs as [|v' vs IH]; intros v st e re su k x H.
  - destruct k as [|k]; [|destruct k; discriminate H]. injection H as <-. exists (mkMark st e [] []). cbn. repeat split. eauto.
  - destruct k as [|k].
    + injection H as <-. exists (mkMark st [] re su). cbn. repeat split. eauto.
    + destruct (IH v' [] e re su k x H) as (m & H1 & H2 & H3 & H4). exists m. split; [exact H1|]. split; [exact H2|].
      rewrite H3, H4. cbn [length]. split; reflexivity.
Qed.
Lemma marks_plain n k : (k < n)%nat -> nth_error (marksFrom [] [] [] [] n) k = Some (mkMark [] [] [] []).
Proof.
  revert k. induction n as [|n IH]; intros k Hk; [lia|]. cbn [marksFrom]. destruct n as [|n].
  - destruct k; [reflexivity|lia].
  - destruct k as [|k]; [reflexivity|]. apply IH. lia.
Qed.
Lemma state_nth gs n w : Forall okSeg gs -> nth_error (docWords gs) n = Some w -> exists l, nth_error (docState gs) n = Some (lv l w).
Proof.
  intros Hok H. rewrite (docState_eq gs Hok). clear Hok. revert n H. induction gs as [|g gs IH]; intros n H; [destruct n; discriminate H|].
  unfold docWords, docLv in *. cbn [flat_map] in *. destruct (Nat.lt_ge_cases n (length (segWords g))) as [Hn|Hn].
  - rewrite nth_error_app1 in H by exact Hn. rewrite nth_error_app1 by (unfold segLv; now rewrite map_length). unfold segLv. rewrite nth_lv, H. cbn. eauto.
  - rewrite nth_error_app2 in H by exact Hn. rewrite nth_error_app2 by (unfold segLv; now rewrite map_length).
    destruct (IH _ H) as [l E]. exists l. unfold segLv at 2. now rewrite map_length.
Qed.
Variable cnt : passage -> nat.
Lemma seen_run pre r post vpre vs vpost k v : Forall (okPassage u) (pre ++ r :: post) ->
  length vpre = length pre -> length vpost = length post -> Forall (fun vs => vs <> []) (vpre ++ vs :: vpost) ->
  cnt r = length vs -> nth_error vs k = Some v ->
  exists m, nth_error (passageMarks cnt pre r post) k = Some m /\
    seenAs (docState (docSegs (pre ++ r :: post) (vpre ++ vs :: vpost))) (length (concat vpre) + k) v m.
Proof.
  intros Hok Lp Lq Hv Hc Hk.
  assert (okPassage u r) as Hr by (apply Forall_app in Hok; destruct Hok as [_ Hok]; now inversion Hok).
  assert (Forall okSeg (docSegs (pre ++ r :: post) (vpre ++ vs :: vpost))) as Hseg by now apply doc_ok.
  apply Forall_app in Hv. destruct Hv as [Hv1 Hv2]. inversion Hv2 as [|? ? Hvs Hv3]; subst.
  assert (length (docWords (docSegs pre vpre)) = length (concat vpre)) as Elen.
  { apply doc_words_len; [apply Forall_app in Hok; tauto|exact Lp]. }
  assert (docSegs (r :: post) (vs :: vpost) = segsOf r vs ++ docSegs post vpost) as Er by reflexivity.
  assert (k < length vs)%nat as Hkl by (apply nth_error_Some; congruence).
  rewrite docSegs_app, Er in * by exact Lp. unfold passageMarks. unfold segsOf in *. destruct (isPlain r) eqn:Ep.
  - exists (mkMark [] [] [] []). split; [apply marks_plain; lia|].
    destruct (nth_error_split vs k Hk) as (v1 & v2 & -> & Lk).
    set (P := docSegs pre vpre ++ map Plain v1).
    assert (docSegs pre vpre ++ map Plain (v1 ++ v :: v2) ++ docSegs post vpost = P ++ Plain v :: (map Plain v2 ++ docSegs post vpost)) as Eg.
    { unfold P. rewrite map_app. cbn [map]. rewrite <- !app_assoc. reflexivity. }
    rewrite Eg in *.
    assert (length (concat vpre) + k = length (docWords P) + 0)%nat as En.
    { unfold P. rewrite docWords_app, app_length, Elen. unfold docWords at 1. rewrite plain_words, map_length. lia. }
    split.
    + destruct (state_nth _ (length (concat vpre) + k) (v, [], []) Hseg) as [l El].
      { rewrite En, docWords_app, nth_error_app2, Nat.add_0_r, Nat.sub_diag by lia. reflexivity. }
      exists (lv l (v, [], [])). split; [exact El|]. rewrite render_lv. reflexivity.
    + intros i Hi. rewrite En in Hi. pose proof (break_any P (Plain v) _ 0 Hseg ltac:(cbn; lia) i Hi) as [-> ->]. split; reflexivity.
  - destruct vs as [|v0 vs]; [congruence|]. rewrite Hc.
    destruct (marks_tail vs v0 (p_start r) (p_stop r) (flat_map p_start (trailingPassages pre ++ [r])) (flat_map p_stop (trailingPassages pre ++ r :: leadingPassages post)) k v Hk)
      as (m & Hm & (w & Hw & Ew) & Hre & Hsu).
    exists m. split; [exact Hm|]. cbn [app] in *. set (g := Ctx (p_start r) v0 vs (p_stop r)) in *. set (P := docSegs pre vpre) in *. set (Q := docSegs post vpost) in *.
    split.
    + destruct (state_nth _ (length (concat vpre) + k) w Hseg) as [l El].
      { rewrite docWords_app, nth_error_app2 by lia. replace (length (concat vpre) + k - length (docWords P))%nat with k by lia.
        unfold docWords. cbn [flat_map]. rewrite nth_error_app1; [exact Hw|]. cbn [g segWords]. rewrite tail_nth_last. exact Hkl. }
      exists (lv l w). split; [exact El|]. rewrite Ew. apply render_lv.
    + intros i Hi. rewrite <- Elen in Hi.
      pose proof (break_any P g Q k Hseg) as B. cbn [segWords g] in B. rewrite tail_nth_last in B. destruct (B Hkl i Hi) as [-> ->].
      cbn [openAfter g]. rewrite Hre, Hsu. destruct (k <? length vs)%nat; [|split; reflexivity].
      destruct (trailing_runs pre vpre Lp Hv1) as [T1 T2]. destruct (leading_runs post vpost Lq Hv3) as [_ T3]. fold P in T1, T2. fold Q in T3.
      rewrite !map_app. cbn [map]. rewrite T1, T2, T3. rewrite !concat_app, !flat_map_app. cbn [concat flat_map]. rewrite !concat_flat. split; reflexivity.
Qed.
Lemma passageMarks_len pre r post : length (passageMarks cnt pre r post) = cnt r.
Proof.
  assert (forall k a b c d, length (marksFrom a b c d k) = k) as K.
  { induction k as [|k IH]; intros a b c d; [reflexivity|]. cbn [marksFrom]. destruct k; [reflexivity|]. cbn [length] in *. now rewrite IH. }
  unfold passageMarks. destruct (isPlain r); apply K.
Qed.
Lemma seen_doc rs vss : forall pre vpre, Forall (okPassage u) (pre ++ rs) -> length vpre = length pre ->
  Forall2 (fun r vs => vs <> [] /\ cnt r = length vs) rs vss -> Forall (fun vs => vs <> []) vpre ->
  forall n v, nth_error (concat vss) n = Some v ->
  exists m, nth_error (docMarks cnt pre rs) n = Some m /\
    seenAs (docState (docSegs (pre ++ rs) (vpre ++ vss))) (length (concat vpre) + n) v m.
Proof.
  intros pre vpre Hok Lp H. revert pre vpre Hok Lp. induction H as [|r vs rs vss [H1 H2] H IH]; intros pre vpre Hok Lp Hv n v Hn; [destruct n; discriminate Hn|].
  cbn [concat docMarks] in *. destruct (Nat.lt_ge_cases n (length vs)) as [Hl|Hl].
  - rewrite nth_error_app1 in Hn by exact Hl. rewrite nth_error_app1 by (rewrite passageMarks_len; lia).
    assert (Forall (fun vs => vs <> []) vss) as Hvss by (clear - H; induction H as [|? ? ? ? [? _]]; constructor; auto).
    apply seen_run; try assumption; [clear - H; induction H; cbn; congruence|]. apply Forall_app. split; [exact Hv|now constructor].
  - rewrite nth_error_app2 in Hn by exact Hl. rewrite nth_error_app2 by (rewrite passageMarks_len; lia). rewrite passageMarks_len, H2.
    destruct (IH (pre ++ [r]) (vpre ++ [vs])) with (n := (n - length vs)%nat) (v := v) as (m & M1 & M2); try assumption.
    + rewrite <- app_assoc. exact Hok.
    + rewrite !app_length. cbn. lia.
    + apply Forall_app. split; [exact Hv|]. constructor; [exact H1|constructor].
    + exists m. split; [exact M1|]. rewrite <- !app_assoc in M2. cbn [app] in M2. rewrite concat_app, app_length in M2. cbn [concat] in M2.
      rewrite app_nil_r in M2. replace (length (concat vpre) + n)%nat with (length (concat vpre) + length vs + (n - length vs))%nat by lia. exact M2.
Qed.
Lemma docMarks_len rs : forall pre, length (docMarks cnt pre rs) = length (flat_map (fun r => repeat tt (cnt r)) rs).
Proof. induction rs as [|r rs IH]; intros pre; [reflexivity|]. cbn [docMarks flat_map]. now rewrite !app_length, passageMarks_len, IH, repeat_length. Qed.
End Segs.

(** ** Rendering *)
Section Marked.
Variable A : arith.
Variable lb : breaker A.
Variable attrs : state.
Notation rh := (l_renderHyphens (lb_opts lb)).
Notation piece := (frag * mark)%type.
Definition shownAs (a : atom A) (p : piece) : Prop := at_f A a = fst p /\ boxShow A attrs a = pieceText p.
(** the iterator after [n] steps *)
Definition posAt (n : nat) : iter := match n with O => iterator attrs | S m => mkIter false (Some m) end.
Lemma next_posAt n : (n < length attrs)%nat -> fst (next attrs (posAt n)) = posAt (S n).
Proof.
  intros H. destruct n as [|n].
  - cbn. unfold front. destruct attrs; [cbn in H; lia|reflexivity].
  - cbn. unfold eltNext. destruct (Nat.ltb_spec (S n) (length attrs)); [reflexivity|lia].
Qed.
Lemma nexts_itAt k : forall n, (n + k <= length attrs)%nat -> nexts attrs k (posAt n) = posAt (n + k).
Proof.
  induction k as [|k IH]; intros n Hn; [now rewrite Nat.add_0_r|]. rewrite nexts_S, next_posAt by lia. rewrite IH by lia. f_equal. lia.
Qed.
Lemma line_marked l ps : Forall2 shownAs l ps -> forall e p ini, ps = ini ++ [p] -> e = m_suspend (snd p) -> lineShow A lb attrs l ++ e = lineBody rh ps.
Proof.
  induction 1 as [|a q l ps [H1 H2] H IH]; intros e p ini E He; [now destruct ini|]. cbn [lineShow lineBody]. destruct H as [|a2 q2 l ps Hq H].
  - destruct ini as [|x ini]; [|destruct ini; discriminate E]. injection E as ->. rewrite H2. unfold hyphShow. rewrite H1, He. now rewrite <- app_assoc.
  - destruct ini as [|x ini]; [discriminate E|]. injection E as -> E. rewrite H2. unfold spaceShow. rewrite H1, <- !app_assoc. do 2 f_equal.
    now apply (IH e p ini).
Qed.
Lemma lines_marked lines : forall n full, Forall2 shownAs (concat lines) full -> Forall (fun l => l <> []) lines ->
  (forall i p, nth_error full i = Some p -> forall it, i_cur it = Some (n + i)%nat ->
     concat (startOfLine attrs it) = m_resume (snd p) /\ concat (endOfLine attrs it) = m_suspend (snd p)) ->
  (n + length full <= length attrs)%nat ->
  exists segs, concat segs = full /\ map (map fst) segs = map (map (at_f A)) lines /\
    showLines A lb attrs (posAt n) lines = markedLines rh (concat (startOfLine attrs (posAt n))) segs.
Proof.
  induction lines as [|l lines IH]; intros n full H Hne Hm Hn.
  - inversion H; subst. exists []. repeat split.
  - cbn [concat] in H. apply Forall2_app_inv_l in H. destruct H as (p1 & p2 & H1 & H2 & ->). inversion Hne as [|? ? Hl Hne']; subst.
    assert (length l = length p1) as El by (clear - H1; induction H1; cbn; congruence).
    destruct p1 as [|p ini _] using rev_ind; [destruct l; [congruence|discriminate El]|].
    rewrite app_length in Hn. destruct (IH (n + length l)%nat p2 H2 Hne') as (segs & S1 & S2 & S3).
    + intros i q Hi it Hc. apply (Hm (length l + i)%nat q).
      * rewrite nth_error_app2 by lia. now replace (length l + i - length (ini ++ [p]))%nat with i by lia.
      * rewrite Hc. f_equal. lia.
    + lia.
    + exists ((ini ++ [p]) :: segs). cbn [concat map markedLines showLines]. rewrite S1, S2. split; [reflexivity|]. split.
      * f_equal. clear - H1. induction H1 as [|a q l ps [E _] _ IH]; [reflexivity|]. cbn [map]. now rewrite E, IH.
      * rewrite nexts_itAt by lia. rewrite S3. rewrite app_length in El. cbn [length] in El.
        assert (i_cur (posAt (n + length l)) = Some (n + length ini)%nat) as Ec.
        { replace (n + length l)%nat with (S (n + length ini)) by lia. reflexivity. }
        destruct (Hm (length ini) p) with (it := posAt (n + length l)) as [M1 M2]; [|exact Ec|].
        { rewrite nth_error_app1 by (rewrite app_length; cbn; lia). rewrite nth_error_app2, Nat.sub_diag by lia. reflexivity. }
        f_equal; [f_equal; now apply (line_marked _ _ H1 _ p ini)|]. rewrite M1. f_equal. unfold nextOpening. now rewrite rev_app_distr.
Qed.
End Marked.

(** ** The nodes of formatted tokens *)
Section Align.
Variable A : arith.
Variable L : laws A.
Variable u : unicode.
Variable lb : breaker A.
Variable m : list rune -> Z.
Variable sp hy : Z.
Variable punct parts : list rune -> list (list rune).
Hypothesis R : regular A L u lb m sp hy punct parts.
Notation o := (lb_opts lb).
Notation rh := (l_renderHyphens (lb_opts lb)).
Notation tol := (k_tolerance (l_search (lb_opts lb))).
Notation softOn := (negb (feq A (l_hyphenPenalty (lb_opts lb)) (infinity A))).
Notation isMark := (punctSplitFunc u).
Notation tokenFrags := (tokenFrags punct (splitAt isHyphenRune) parts (single isMark) (single isHyphenRune) (breakable A lb)).
Notation runsFrags := (runsFrags punct (splitAt isHyphenRune) parts (single isMark) (single isHyphenRune) (breakable A lb)).
Notation paragraph := (formattedParagraph punct (splitAt isHyphenRune) parts (single isMark) (single isHyphenRune) (breakable A lb)).
Notation pieceFrags := (pieceFrags (splitAt isHyphenRune) parts (single isMark) (single isHyphenRune) (breakable A lb)).
Definition runCut (r : run) : list (list rune) := map f_text (tokenFrags (r_text r)).
Lemma text_ne r : okRun u r -> r_text r <> []. Proof. intros [s t e _ _ H _]; exact H. Qed.
Let Hparts := Hparts1 A L u lb m sp hy punct parts R.
Let Hpunct1' := Hpunct1 A L u lb m sp hy punct parts R.
Lemma punctAll_is rs : Forall (okRun u) rs -> punctAll A o (map r_text rs) = Ret (flat_map (fun r => punct (r_text r)) rs).
Proof.
  induction 1 as [|r rs Hr _ IH]; [reflexivity|]. cbn [map punctAll flat_map]. rewrite (rg_punct _ _ _ _ _ _ _ _ _ R) by (now apply text_ne).
  cbn [gbind]. rewrite IH. reflexivity.
Qed.
Lemma flat_flat {T U V} (f : U -> list V) (g : T -> list U) l : flat_map f (flat_map g l) = flat_map (fun x => flat_map f (g x)) l.
Proof. induction l as [|x l IH]; [reflexivity|]. cbn [flat_map]. now rewrite flat_map_app, IH. Qed.
Lemma measured_flat rs r : In r rs -> measuredAll A lb (runsFrags rs) -> measuredAll A lb (tokenFrags (r_text r)).
Proof. intros Hin H. unfold measuredAll in *. rewrite Forall_forall in *. intros f Hf. apply H. apply in_flat_map. eauto. Qed.
Lemma newAttr_inj a b : map (fun v => newAttr v [] []) a = map (fun v => newAttr v [] []) b -> a = b.
Proof. revert b. induction a as [|x a IH]; intros [|y b] E; try discriminate; [reflexivity|]. injection E as -> E. f_equal. now apply IH. Qed.
Lemma fBoxNodes t spare b1 : okToken u t -> mcap (tokenRunes t ++ spare) -> measuredAll A lb (runsFrags t) ->
  boxNodes A u lb (tokenRunes t) spare b1 =
  Ret (nodesOf A lb (atomsFrom A u lb (length b1) (runsFrags t)), pushWords b1 (docOf t (map runCut t))).
Proof.
  intros Ht Hc Hm. rewrite boxNodes_runs by assumption. destruct Ht as (_ & Ht & _).
  set (b2 := repeat (newAttr [] [] []) (length b1)).
  assert (length b1 = length b2) as Hl by (unfold b2; now rewrite repeat_length).
  assert (Forall plainAttr b2) as Hpl by (apply Forall_forall; intros a Ha; apply repeat_spec in Ha; subst a; repeat split).
  pose proof (runsNodes_tsim A u o (lb_spaceWidth lb) (lb_hyphenWidth lb) (lb_attrs lb) (lb_attrs lb) t b1 b2 [] (mkTs b2 None false) Hl eq_refl Hpl) as K.
  rewrite (punctAll_is t Ht) in K. cbn [gbind] in K.
  assert (mkBreaker o (lb_spaceWidth lb) (lb_hyphenWidth lb) (lb_attrs lb) = lb) as Elb by (destruct lb; reflexivity). rewrite Elb in K.
  destruct (pieceNodes_plain A u lb parts Hparts (flat_map (fun r => punct (r_text r)) t) (mkTs b2 None false) []) as (ts' & G & E); [exact Hpl|rewrite flat_flat; exact Hm|].
  rewrite E in K. destruct (runsNodes A u lb t b1 []) as [[n1 a1]|]; [|now destruct K]. destruct K as (-> & vss & new & Hv & _ & _ & -> & _).
  rewrite flat_flat. cbn [app ts_attrs]. rewrite <- Hl.
  assert (vss = map runCut t) as ->; [|reflexivity].
  assert (forall r, In r t -> okRun u r /\ measuredAll A lb (tokenFrags (r_text r))) as Hall.
  { intros r Hr. split; [rewrite Forall_forall in Ht; now apply Ht|now apply (measured_flat t)]. }
  clear - Hv Hall Elb R Hparts. induction Hv as [|r vs rs vss H Hv IH]; [reflexivity|]. cbn [map]. f_equal; [|apply IH; intros x Hx; apply Hall; now right].
  destruct H as (ps & t & n & t' & n' & H1 & H2 & H3 & H4). rewrite Elb in H2. destruct (Hall r (or_introl eq_refl)) as [Hr Hm].
  rewrite (rg_punct _ _ _ _ _ _ _ _ _ R) in H1 by (now apply text_ne). injection H1 as <-.
  destruct (pieceNodes_plain A u lb parts Hparts (punct (r_text r)) t n H3 Hm) as (t2 & G & E). rewrite E in H2. injection H2 as _ <-.
  unfold grown in G. rewrite G in H4. destruct (pushBare_plain vs _ H3) as [E2 _]. rewrite E2 in H4. apply app_inv_head in H4.
  unfold attrsOf in H4. rewrite <- (map_map f_text (fun v => newAttr v [] [])) in H4. symmetry. now apply newAttr_inj.
Qed.
Lemma runsFrags_glued t : okToken u t -> lastGlued (runsFrags t).
Proof.
  intros (H1 & H2 & _). apply glued_flat; [exact H1|]. eapply Forall_impl; [|exact H2]. intros r Hr.
  apply (tokenFrags_glued A u lb punct parts Hparts Hpunct1'). now apply text_ne.
Qed.
Lemma runCut_len t : length (concat (map runCut t)) = length (runsFrags t).
Proof. induction t as [|r t IH]; [reflexivity|]. unfold SpecLines.runsFrags in *. cbn [map concat flat_map]. rewrite !app_length, IH. f_equal. apply map_length. Qed.
Lemma fLoop spare ts : forall t i b1 n0, Forall (okToken u) (t :: ts) ->
  (forall j x, nth_error (t :: ts) j = Some x -> mcap (tokenRunes x ++ spare (i + j)%nat)) -> measuredAll A lb (paragraph (t :: ts)) ->
  alignedLoop A u lb (tokenRunes t) (map tokenRunes ts) spare i b1 n0 =
  Ret (n0 ++ nodesOf A lb (atomsFrom A u lb (length b1) (paragraph (t :: ts))), pushWords b1 (docOf (concat (t :: ts)) (map runCut (concat (t :: ts))))).
Proof.
  induction ts as [|t2 ts IH]; intros t i b1 n0 Ht Hc Hm; inversion Ht as [|? ? Ht1 Ht']; subst; pose proof (Hc 0%nat t eq_refl) as Hc0; rewrite Nat.add_0_r in Hc0.
  - cbn [map alignedLoop SpecLines.formattedParagraph concat] in *. rewrite app_nil_r.
    rewrite fBoxNodes; [|assumption..|revert Hm; apply measured_text, endWith_text]. cbn [gbind]. now rewrite (endWith_nodes A u lb End_) by now apply runsFrags_glued.
  - change (paragraph (t :: t2 :: ts)) with (endWith Space (runsFrags t) ++ paragraph (t2 :: ts)) in *.
    change (concat (t :: t2 :: ts)) with (t ++ concat (t2 :: ts)).
    apply Forall_app in Hm. destruct Hm as [Hm1 Hm2]. cbn [map alignedLoop].
    rewrite fBoxNodes; [|assumption..|revert Hm1; apply measured_text, endWith_text]. cbn [gbind].
    change (map tokenRunes (t2 :: ts)) with (tokenRunes t2 :: map tokenRunes ts) in *. rewrite IH.
    + rewrite map_app, docOf_app, pushWords_app by apply map_length. rewrite atomsFrom_app, nodesOf_app, endWith_len.
      rewrite (endWith_nodes A u lb Space) by now apply runsFrags_glued. rewrite <- !app_assoc. cbn [joinNodes].
      rewrite pushWords_len, docOf_len, runCut_len by apply map_length. reflexivity.
    + exact Ht'.
    + intros j x Hj. replace (S i + j)%nat with (i + S j)%nat by lia. now apply Hc.
    + exact Hm2.
Qed.

(** ** The paragraph *)
Lemma runsFrags_ok t : Forall (okRun u) t -> Forall fragOk (runsFrags t).
Proof.
  induction 1 as [|r t Hr _ IH]; [constructor|]. unfold SpecLines.runsFrags in *. cbn [flat_map]. apply Forall_app. split; [|exact IH].
  apply (tokenFrags_ok A L u lb m sp hy punct parts R). now apply text_ne.
Qed.
Lemma endWith_fine j fs : j <> Soft -> Forall fragOk fs -> lastGlued fs -> Forall fragOk (endWith j fs).
Proof.
  intros Hj H (ini & f & E & _). rewrite E in *. rewrite endWith_snoc. cbn [f_text f_mark]. apply Forall_app in H. destruct H as [H1 H2].
  apply Forall_app. split; [exact H1|]. inversion H2 as [|? ? [H3 H4] _]; subst. constructor; [|constructor]. split; [exact H3|]. intros _. exact Hj.
Qed.
Lemma fparagraph_ok ts : Forall (okToken u) ts -> Forall fragOk (paragraph ts).
Proof.
  induction 1 as [|t ts Ht _ IH]; [constructor|].
  assert (forall j, j <> Soft -> Forall fragOk (endWith j (runsFrags t))) as K.
  { intros j Hj. apply endWith_fine; [exact Hj|apply runsFrags_ok, Ht|now apply runsFrags_glued]. }
  destruct ts as [|t2 ts]; [apply K; discriminate|]. change (paragraph (t :: t2 :: ts)) with (endWith Space (runsFrags t) ++ paragraph (t2 :: ts)).
  apply Forall_app. split; [apply K; discriminate|exact IH].
Qed.
Lemma fparagraph_text ts : map f_text (paragraph ts) = concat (map runCut (concat ts)).
Proof.
  assert (forall t, map f_text (runsFrags t) = concat (map runCut t)) as K.
  { induction t as [|r t IH]; [reflexivity|]. unfold SpecLines.runsFrags in *. cbn [flat_map map concat]. now rewrite map_app, IH. }
  induction ts as [|t ts IH]; [reflexivity|]. destruct ts as [|t2 ts].
  - cbn [SpecLines.formattedParagraph concat]. now rewrite endWith_text, K, app_nil_r.
  - change (paragraph (t :: t2 :: ts)) with (endWith Space (runsFrags t) ++ paragraph (t2 :: ts)).
    change (concat (t :: t2 :: ts)) with (t ++ concat (t2 :: ts)). rewrite map_app, IH, endWith_text, K, map_app, concat_app. reflexivity.
Qed.
Lemma fparagraph_shape ts : ts <> [] -> Forall (okToken u) ts ->
  exists ini f, paragraph ts = ini ++ [f] /\ f_joint f = End_ /\ Forall (fun g => f_joint g <> End_) ini.
Proof.
  intros Hne H. induction H as [|t ts Ht _ IH]; [congruence|]. destruct (runsFrags_glued t Ht) as (ini & f & E & Hi).
  assert (Forall (fun g => f_joint g <> End_) ini) as Hi' by (eapply Forall_impl; [|exact Hi]; intros g [Hg _]; exact Hg).
  destruct ts as [|t2 ts].
  - cbn [SpecLines.formattedParagraph]. rewrite E, endWith_snoc. eexists ini, _. split; [reflexivity|]. now split.
  - change (paragraph (t :: t2 :: ts)) with (endWith Space (runsFrags t) ++ paragraph (t2 :: ts)).
    destruct IH as (ini2 & f2 & E2 & Hf2 & Hi2); [discriminate|]. rewrite E2, E, endWith_snoc, app_assoc. eexists _, f2. split; [reflexivity|].
    split; [exact Hf2|]. apply Forall_app. split; [|exact Hi2]. apply Forall_app. split; [exact Hi'|]. constructor; [discriminate|constructor].
Qed.
Lemma runCut_runes (P : rune -> Prop) ts : Forall (okToken u) ts -> Forall (fun t => Forall (fun r => Forall P (r_text r)) t) ts ->
  Forall (fun f => Forall P (f_text f)) (paragraph ts).
Proof.
  intros Ht Hp. apply (Forall_map f_text (Forall P)). rewrite fparagraph_text. apply Forall_concat. rewrite Forall_map, Forall_concat.
  rewrite Forall_forall in Ht. rewrite Forall_forall in *. intros t Hin. specialize (Hp t Hin). destruct (Ht t Hin) as (_ & Hr & _).
  rewrite Forall_forall in *. intros r Hi. specialize (Hp r Hi). unfold runCut. rewrite Forall_map.
  destruct (tokenFrags_ok A L u lb m sp hy punct parts R (r_text r) (text_ne r (Hr r Hi))) as [_ E].
  rewrite <- E in Hp. unfold textOf in Hp. rewrite Forall_concat, Forall_map in Hp. exact Hp.
Qed.

Variable ts : list (list run).
Variable spare : nat -> list rune.
Hypothesis Hfresh : lb_attrs lb = [].
Hypothesis Hne : ts <> [].
Hypothesis Htok : Forall (okToken u) ts.
Hypothesis Hrunes : Forall (fun t => Forall (fun r => Forall okRune (r_text r)) t) ts.
Hypothesis Hcap : forall j t, nth_error ts j = Some t -> mcap (tokenRunes t ++ spare j).
Notation frs := (paragraph ts).
Notation lineWidth := (lineWidth rh m sp hy).
Hypothesis Hwidth : lineWidth frs <= 2 ^ 50.
Notation atoms := (atomsFrom A u lb 0 frs).
Notation rs := (concat ts).
(** the passages of the tokens *)
Variable ps : list passage.
Hypothesis Hps : Forall (okPassage u) ps.
Hypothesis Hpass : rs = flat_map runsOf ps.
Definition cut (t : list rune) : list (list rune) := map f_text (tokenFrags t).
Definition passCut (p : passage) : list (list rune) := concat (map cut (p_texts p)).
Notation gs := (docSegs ps (map passCut ps)).
Notation attrs := (docState gs).
Definition cntOf (p : passage) : nat := length (flat_map tokenFrags (p_texts p)).
Notation marks := (docMarks cntOf [] ps).

Lemma fmeasured : Forall (fun f => measured A lb (f_text f) /\ rep A L (widthOf A lb (f_text f)) (m (f_text f))) frs.
Proof.
  pose proof (runCut_runes okRune ts Htok Hrunes) as Hr. apply Forall_forall. intros f Hf. rewrite Forall_forall in Hr.
  destruct (rg_measure _ _ _ _ _ _ _ _ _ R (f_text f)) as [_ H].
  destruct (H (Hr f Hf)) as (x & E & Hx); [pose proof (lineWidth_frag A L u lb m sp hy punct parts R _ _ Hf); lia|].
  split; [exists x; exact E|]. unfold widthOf. now rewrite E.
Qed.
Lemma fatoms_good : Forall (goodAtom A L m) atoms.
Proof.
  apply Forall_forall. intros a Ha. destruct (toAtom_in _ _ _ _ _ _ Ha) as (i & f & Hf & ->). apply nth_error_In in Hf.
  pose proof fmeasured as Hm. rewrite Forall_forall in Hm. destruct (Hm f Hf) as [_ Hw].
  pose proof (fparagraph_ok ts Htok) as Hok. rewrite Forall_forall in Hok. destruct (Hok f Hf) as [_ Hs].
  constructor; unfold toAtom; cbn [at_f at_w at_pen].
  - exact Hw.
  - apply (rg_measure _ _ _ _ _ _ _ _ _ R).
  - intros _. unfold penOf. rewrite (rg_hard _ _ _ _ _ _ _ _ _ R), (rg_punctPen _ _ _ _ _ _ _ _ _ R). destruct (isPunctuation u (f_text f)); auto.
  - exact Hs.
Qed.
Lemma rs_ok : Forall (okRun u) rs.
Proof. rewrite Forall_concat. eapply Forall_impl; [|exact Htok]. intros t (_ & H & _). exact H. Qed.
Lemma cut_ne t : t <> [] -> cut t <> [].
Proof.
  intros Ht. destruct (tokenFrags_glued A u lb punct parts Hparts Hpunct1' t Ht) as (ini & f & E & _). unfold cut. rewrite E, map_app. now destruct ini.
Qed.
Lemma passCut_len p : length (passCut p) = cntOf p.
Proof.
  unfold passCut, cntOf. induction (p_texts p) as [|t l IH]; [reflexivity|]. cbn [map concat flat_map]. rewrite !app_length, IH. f_equal. apply map_length.
Qed.
Lemma cuts_ok : Forall2 (fun p vs => vs <> [] /\ cntOf p = length vs) ps (map passCut ps).
Proof.
  pose proof Hps as H. clear Hpass Hps. induction H as [|p l Hp _ IH]; [constructor|]. cbn [map]. constructor; [|exact IH]. split; [|symmetry; apply passCut_len].
  destruct Hp as (H1 & H2 & _). unfold passCut. destruct (p_texts p) as [|t l']; [congruence|]. inversion H2 as [|? ? [Ht _] _]; subst. cbn [map concat].
  pose proof (cut_ne t Ht) as K. destruct (cut t); [congruence|discriminate].
Qed.
Lemma doc_eq : docWords gs = docOf rs (map runCut rs).
Proof. rewrite Hpass. apply (doc_runs u cut ps Hps cut_ne). Qed.
Lemma pass_text : concat (map passCut ps) = concat (map runCut rs).
Proof.
  assert (forall st ts e, concat (map cut ts) = concat (map runCut (spanRuns st ts e))) as K.
  { intros st l e. revert st. induction l as [|t l IH]; intros st; [reflexivity|]. destruct l as [|t2 l]; [reflexivity|].
    change (spanRuns st (t :: t2 :: l) e) with (mkRun st t [] :: spanRuns [] (t2 :: l) e). cbn [map concat] in *. now rewrite <- IH. }
  rewrite Hpass. clear Hpass Hps. induction ps as [|p l IH]; [reflexivity|]. cbn [map concat flat_map]. rewrite map_app, concat_app, IH. f_equal. apply K.
Qed.
Lemma fseen n f : nth_error frs n = Some f -> exists mk, nth_error marks n = Some mk /\ seenAs attrs n (f_text f) mk.
Proof.
  intros H. assert (nth_error (concat (map passCut ps)) n = Some (f_text f)) as Hn by (rewrite pass_text, <- fparagraph_text, nth_error_map, H; reflexivity).
  apply (seen_doc u cntOf ps (map passCut ps) [] [] Hps eq_refl cuts_ok ltac:(constructor) n _ Hn).
Qed.
Lemma attrs_len : length attrs = length frs.
Proof.
  rewrite docState_eq by (apply (doc_ok u), Hps). rewrite docLv_len, doc_eq. rewrite docOf_len by apply map_length.
  rewrite <- fparagraph_text. apply map_length.
Qed.
Lemma marks_len : length marks = length frs.
Proof.
  rewrite docMarks_len. rewrite <- (map_length f_text frs), fparagraph_text, <- pass_text. clear. induction ps as [|p l IH]; [reflexivity|].
  cbn [flat_map map concat]. rewrite !app_length, IH, repeat_length. f_equal. symmetry. apply passCut_len.
Qed.
Lemma combine_nth {T U} (a : list T) : forall (b : list U) n x y, nth_error a n = Some x -> nth_error b n = Some y -> nth_error (combine a b) n = Some (x, y).
Proof. induction a as [|p a IH]; intros [|q b] [|n] x y H1 H2; try discriminate; cbn in *; [congruence|now apply IH]. Qed.
Lemma combine_nth_inv {T U} (a : list T) : forall (b : list U) n p, nth_error (combine a b) n = Some p -> nth_error a n = Some (fst p) /\ nth_error b n = Some (snd p).
Proof. induction a as [|x a IH]; intros [|y b] [|n] p H; try discriminate; cbn in *; [injection H as <-; auto|now apply IH]. Qed.
Lemma forall2_nth {T U} (P : T -> U -> Prop) a : forall b, length a = length b -> (forall n x y, nth_error a n = Some x -> nth_error b n = Some y -> P x y) -> Forall2 P a b.
Proof.
  induction a as [|x a IH]; intros [|y b] E H; try discriminate; constructor; [apply (H 0%nat); reflexivity|]. apply IH; [now injection E|].
  intros n p q Hp Hq. now apply (H (S n)).
Qed.
Lemma atomsFrom_nth k fs n a : nth_error (atomsFrom A u lb k fs) n = Some a -> exists f, nth_error fs n = Some f /\ a = toAtom A u lb (k + n) f.
Proof.
  revert k n. induction fs as [|f fs IH]; intros k n H; [destruct n; discriminate H|]. destruct n as [|n]; cbn [atomsFrom nth_error] in *.
  - injection H as <-. exists f. split; [reflexivity|]. f_equal. lia.
  - destruct (IH _ _ H) as (g & H1 & ->). exists g. split; [exact H1|]. f_equal. lia.
Qed.
Lemma atoms_shown : Forall2 (shownAs A attrs) atoms (combine frs marks).
Proof.
  apply forall2_nth.
  - rewrite combine_length, marks_len, Nat.min_id. rewrite <- (map_length (at_f A)). now rewrite atomsFrom_f.
  - intros n a p Ha Hp. destruct (atomsFrom_nth _ _ _ _ Ha) as (f & Hf & ->). destruct (combine_nth_inv _ _ _ _ Hp) as [H1 H2].
    rewrite Hf in H1. injection H1 as E. destruct (fseen n f Hf) as (mk & M1 & (x & X1 & X2) & _). rewrite M1 in H2. injection H2 as E2.
    split; [exact E|]. unfold boxShow, attrText, toAtom. cbn [at_attr Nat.add]. rewrite X1, X2. unfold pieceText. now rewrite <- E, <- E2.
Qed.

Variable W : Z.
Hypothesis HW : 0 < W <= 2 ^ 50.
Variable maxWidth : F A.
Hypothesis HmaxW : rep A L (scale A o maxWidth) W.
Variable ord : nat -> nat -> list fclass.
Hypothesis Hord : forall i k c, In c (ord i k).
Notation linesOk := (linesOk rh m sp hy A tol W).

Theorem formatted_spec : exists lb',
  (leftAlignUniform A u ord spare lb (map tokenRunes ts) maxWidth = Ret (None, lb') /\
    ~ exists segs, layout softOn frs segs /\ linesOk true segs = true) \/
  (exists segs, leftAlignUniform A u ord spare lb (map tokenRunes ts) maxWidth = Ret (Some (showDoc rh segs), lb') /\
    concat segs = combine frs marks /\
    layout softOn frs (map (map fst) segs) /\ linesOk true (map (map fst) segs) = true /\
    (W <= 4997 -> forall segs', layout softOn frs segs' -> linesOk true segs' = true ->
       (length (last segs' []) <= length (last (map (map fst) segs) []))%nat)).
Proof.
  destruct (fparagraph_shape ts Hne Htok) as (ini & f & Efrs & Hf & Hi).
  set (inia := atomsFrom A u lb 0 ini). set (za := toAtom A u lb (0 + length ini) f).
  assert (atoms = inia ++ [za]) as Ea by (rewrite Efrs, atomsFrom_app; reflexivity).
  assert (map (at_f A) (inia ++ [za]) = frs) as Emap by (rewrite <- Ea; apply atomsFrom_f).
  assert (Forall (goodAtom A L m) (inia ++ [za])) as Hg by (rewrite <- Ea; apply fatoms_good).
  assert (Forall (fun a => isEnd A a = false) inia) as Hini.
  { apply Forall_forall. intros a Ha. destruct (toAtom_in _ _ _ _ _ _ Ha) as (i & g & Hgi & ->). apply nth_error_In in Hgi.
    rewrite Forall_forall in Hi. specialize (Hi g Hgi). unfold isEnd, toAtom. cbn [at_f]. destruct (f_joint g); congruence. }
  assert (isEnd A za = true) as Hz by (unfold isEnd, za, toAtom; cbn [at_f]; now rewrite Hf).
  assert (BW A m sp (inia ++ [za]) <= 2 ^ 50) as HBW.
  { rewrite BW_app. rewrite <- Emap, lineWidth_snoc in Hwidth. unfold BW at 2. cbn [map zsum]. unfold blockW.
    assert (hyphW A lb hy za = 0) as E by (unfold hyphW, isSoft, za, toAtom; cbn [at_f]; now rewrite Hf, andb_false_r).
    assert (isSpaced (at_f A za) = false) as -> by (unfold isSpaced, za, toAtom; cbn [at_f]; now rewrite Hf). lia. }
  assert (Forall (atomOk A attrs) (inia ++ [za])) as Hat.
  { rewrite <- Ea. apply Forall_forall. intros a Ha. destruct (toAtom_in _ _ _ _ _ _ Ha) as (i & g & Hgi & ->).
    destruct (fseen i g Hgi) as (mk & _ & (x & X1 & _) & _). exists i, x. split; [reflexivity|exact X1]. }
  assert (measuredAll A lb frs) as Hms by (eapply Forall_impl; [|apply fmeasured]; intros f0 Hf0; apply Hf0).
  assert (leftAlignedNodes A u lb (map tokenRunes ts) spare = Ret (nodesOf A lb (inia ++ [za]), attrs)) as En.
  { rewrite <- Ea. unfold docState, stateOf. rewrite doc_eq. clear - Hne Htok Hcap Hms Hfresh R Hparts Hpunct1'. destruct ts as [|t ts']; [congruence|].
    unfold leftAlignedNodes. cbn [map]. rewrite (fLoop spare ts' t 0 (lb_attrs lb) [] Htok Hcap Hms). rewrite Hfresh. cbn [length app]. reflexivity. }
  unfold leftAlignUniform. rewrite En. cbn [gbind]. eexists.
  pose proof R as R'. destruct R' as [R1 R2 R3 R4 R5 R6 R7 R8 R9 R10 R11 R12 R13 R14 R15 R16 R17 R18 R19 R20].
  destruct (render_spec A L lb m sp hy R1 R2 R3 R4 R5 R6 R7 R8 R9 R10 inia za Hg Hini Hz HBW W HW R11
    (scale A o maxWidth) HmaxW ord Hord R18 R19 R20 attrs Hat) as [(E & Hno)|(bs & lines & E & Er & Hc & Hl & Hlay & Hok)].
  - left. rewrite E. cbn [gbind]. split; [reflexivity|]. now rewrite Emap in Hno.
  - right. rewrite Emap in Hlay. destruct (layout_last _ _ _ Hlay) as (_ & _ & Hle).
    assert (Forall (fun l => l <> []) lines) as Hln.
    { rewrite Forall_map in Hle. eapply Forall_impl; [|exact Hle]. intros l Hl' ->. now apply Hl'. }
    destruct (lines_marked A lb attrs lines 0 (combine frs marks)) as (segs & S1 & S2 & S3).
    { rewrite Hc, <- Ea. apply atoms_shown. }
    { exact Hln. }
    { intros i p Hp it Hit. destruct (combine_nth_inv _ _ _ _ Hp) as [H1 H2]. destruct (fseen i _ H1) as (mk & M1 & _ & M2).
      rewrite M1 in H2. injection H2 as ->. now apply M2. }
    { rewrite combine_length, marks_len, attrs_len. lia. }
    exists segs. rewrite E. cbn [gbind]. rewrite Er. cbn [gbind]. split.
    + f_equal. f_equal. f_equal. change (iterator attrs) with (posAt attrs 0). rewrite S3. unfold showDoc. rewrite S1.
      destruct (combine frs marks) as [|p l] eqn:Ec.
      * exfalso. assert (length (combine frs marks) = length frs) as El by (rewrite combine_length, marks_len; lia).
        rewrite Ec, Efrs, app_length in El. cbn in El. lia.
      * f_equal. destruct (combine_nth_inv frs marks 0 p) as [H1 H2]; [now rewrite Ec|]. destruct (fseen 0 _ H1) as (mk & M1 & _ & M2).
        rewrite M1 in H2. injection H2 as ->. refine (proj1 (M2 (posAt attrs 0) _)). cbn [posAt iterator i_cur]. unfold front.
        pose proof attrs_len as El. rewrite Efrs, app_length in El. cbn [length] in El. destruct attrs; [cbn in El; lia|reflexivity].
    + split; [exact S1|]. rewrite S2. split; [exact Hlay|]. split; [exact Hok|]. intros HW' segs' Hlay' Hok'.
      pose proof (laid_longest A L lb m sp hy R1 R2 R3 R4 R5 R6 inia za Hg Hini Hz W R11 None 0%nat _ _ Hl ltac:(lia)
        segs') as Hlong. rewrite Emap in Hlong. specialize (Hlong Hlay' Hok').
      assert (forall l : list (list (atom A)), length (last (map (map (at_f A)) l) []) = length (last l [])) as Elen.
      { clear. induction l as [|x l IH]; [reflexivity|]. destruct l; [apply map_length|]. cbn [map last] in *. exact IH. }
      now rewrite Elen.
Qed.
End Align.
