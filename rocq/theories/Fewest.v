(** C91: for some iteration order of the map, no more lines than any layout of the text. *)
From Verif Require Import Base Arith Unicode Split SpecSplit SplitProofs Ansi SpecAnsi AnsiProofs Attr Hyph KP Nodes Render SpecKP SpecGreedy
  KPProofs Frags Para Tokens Align Options Call Settings AlignProofs Fresh Succeed Compare Greedy.

(** ** Lines *)
Section Lines.
Variable A : arith.
Variable L : laws A.
Variable rh softOn : bool.
Variable m : list rune -> Z.
Variable sp hy : Z.
Variable tol : F A.
Variable W : Z.
Variable fs : list frag.
Hypothesis Hm : forall t, 0 <= m t.
Hypothesis Hsp : 0 <= sp.
Hypothesis Hhy : 0 <= hy.
Hypothesis HW : W <= 2 ^ 50.
Hypothesis Htol : fle A (fZ A 10000) tol = false.
Hypothesis Htol0 : fle A (fZ A 0) tol = true.
Hypothesis Hmarks : marksGlued softOn fs.
Notation lineWidth := (lineWidth rh m sp hy).
Notation fits := (SpecGreedy.fits rh m sp hy A tol W fs).
Notation piece := (piece fs).
Notation isLast := (isLast fs).
Notation endsAt := (endsAt softOn fs).
Notation starts := (starts rh softOn m sp hy A tol W fs).
Notation line := (line rh softOn m sp hy A tol W fs).
Notation chosen := (chosen rh softOn m sp hy A tol W fs).
Notation greedy := (greedy rh softOn m sp hy A tol W fs).
Notation slack := (slack rh m sp hy W fs).
Notation rank := (rank rh m sp hy W fs).

Lemma width_tail a b : lineWidth b <= lineWidth (a ++ b).
Proof.
  induction a as [|f a IH]; [cbn [app]; lia|]. pose proof (Hm (f_text f)). destruct b as [|g b].
  { pose proof (lineWidth_pos rh m sp hy Hm Hsp Hhy ((f :: a) ++ [])). cbn [SpecKP.lineWidth] in *. lia. }
  assert (exists h t, a ++ g :: b = h :: t) as (h & t & E) by (destruct a; cbn; eauto). cbn [app]. rewrite E in *.
  change (lineWidth (f :: h :: t)) with (m (f_text f) + (if isSpaced f then sp else 0) + lineWidth (h :: t)). destruct (isSpaced f); lia.
Qed.
Lemma width_head a g b : (rh = true -> hy <= m (f_text g)) -> lineWidth a <= lineWidth (a ++ g :: b).
Proof.
  intros Hg. induction a as [|f a IH].
  { pose proof (lineWidth_pos rh m sp hy Hm Hsp Hhy ([] ++ g :: b)). cbn [SpecKP.lineWidth app] in *. lia. }
  destruct a as [|f' a].
  - change (lineWidth ([f] ++ g :: b)) with (m (f_text f) + (if isSpaced f then sp else 0) + lineWidth (g :: b)).
    assert (m (f_text g) <= lineWidth (g :: b)).
    { cbn [SpecKP.lineWidth]. destruct b; [destruct (rh && isSoft g); lia|]. pose proof (lineWidth_pos rh m sp hy Hm Hsp Hhy (f0 :: b)). destruct (isSpaced g); lia. }
    change (lineWidth [f]) with (m (f_text f) + (if rh && isSoft f then hy else 0)). pose proof (Hm (f_text g)).
    destruct rh; cbn [andb]; [specialize (Hg eq_refl)|]; destruct (isSpaced f), (isSoft f); lia.
  - change (lineWidth ((f :: f' :: a) ++ g :: b)) with (m (f_text f) + (if isSpaced f then sp else 0) + lineWidth ((f' :: a) ++ g :: b)).
    change (lineWidth (f :: f' :: a)) with (m (f_text f) + (if isSpaced f then sp else 0) + lineWidth (f' :: a)). lia.
Qed.
Lemma piece_tail k1 k2 j : (k1 <= k2)%nat -> exists a, piece k1 j = a ++ piece k2 j.
Proof.
  intros H. unfold piece. exists (firstn (k2 - k1) (skipn k1 (firstn (S j) fs))).
  replace (skipn k2 (firstn (S j) fs)) with (skipn (k2 - k1) (skipn k1 (firstn (S j) fs))); [now rewrite firstn_skipn|].
  rewrite skipn_skipn'. f_equal. lia.
Qed.
Lemma piece_head k j1 j2 : (k <= S j1)%nat -> (j1 <= j2)%nat -> exists b, piece k j2 = piece k j1 ++ b.
Proof.
  intros Hk H. unfold piece. assert (firstn (S j1) fs = firstn (S j1) (firstn (S j2) fs)) as E by (rewrite firstn_firstn; f_equal; lia).
  exists (skipn (S j1) (firstn (S j2) fs)). rewrite E. set (l := firstn (S j2) fs).
  destruct (Nat.le_gt_cases k (length (firstn (S j1) l))) as [Hl|Hl].
  - rewrite <- (firstn_skipn (S j1) l) at 1. rewrite skipn_app. f_equal.
    replace (k - length (firstn (S j1) l))%nat with 0%nat by lia. reflexivity.
  - rewrite (skipn_all2 (firstn (S j1) l)) by lia. rewrite firstn_length in Hl.
    rewrite (skipn_all2 l) by lia. rewrite skipn_all2 by lia. reflexivity.
Qed.
Lemma piece_in k j f : In f (piece k j) -> In f fs.
Proof.
  unfold piece. intros H. rewrite <- (firstn_skipn (S j) fs). apply in_or_app. left.
  rewrite <- (firstn_skipn k (firstn (S j) fs)). apply in_or_app. now right.
Qed.
Lemma fits_width k j : fits k j = true -> lineWidth (piece k j) <= W.
Proof. apply (lineOk_width A rh m sp hy tol W Htol). Qed.
Lemma starts_free k j : starts k -> (k =? 0)%nat = true \/ startsWithMark (piece k j) = false.
Proof.
  intros H. destruct H as [|k' i _ _ (f & Hf & Hc) Hl _]; [now left|right]. rewrite Hl in Hc. destruct Hc as [Hc|Hc]; [discriminate|].
  destruct (piece (S i) j) as [|g r] eqn:E; [reflexivity|]. cbn [startsWithMark].
  destruct (nth_error_split fs i Hf) as (pre & post & Efs & Hlen).
  assert (exists post', post = g :: post') as (post' & ->).
  { revert E. unfold SpecGreedy.piece. rewrite Efs, <- Hlen. intros E. replace (S j) with (length pre + (S j - length pre))%nat in E by
      (destruct (Nat.le_gt_cases (length pre) (S j)); [lia|]; rewrite skipn_all2 in E by (rewrite firstn_length; lia); discriminate).
    rewrite firstn_app_2, skipn_app, skipn_all2 in E by lia. replace (S (length pre) - length pre)%nat with 1%nat in E by lia.
    destruct (S j - length pre)%nat as [|d]; [discriminate|]. cbn [app firstn skipn] in E. destruct post as [|g' post']; [destruct d; discriminate|].
    destruct d as [|d]; [discriminate|]. cbn [firstn] in E. injection E as -> _. eauto. }
  apply (Hmarks pre f g post' Efs Hc).
Qed.

(** a longer line that is not too wide can be kept too *)
Lemma fits_more k k0 j2 : starts k -> starts k0 -> (k <= k0)%nat -> (k0 <= j2)%nat -> (S j2 < length fs)%nat ->
  lineWidth (piece k j2) <= W -> fits k0 j2 = true -> fits k j2 = true.
Proof.
  intros Sk Sk0 H1 H2 Hj Hu Hk0. destruct (piece_tail k k0 j2 H1) as (a & Ea).
  pose proof (width_tail a (piece k0 j2)) as Hl. rewrite <- Ea in Hl.
  assert (isLast j2 = false) as Hlast by (unfold SpecGreedy.isLast; apply Nat.eqb_neq; lia).
  assert (piece k0 j2 <> []) as Hfull.
  { unfold SpecGreedy.piece. intros E. apply (f_equal (@length frag)) in E. rewrite skipn_length, firstn_length in E. cbn [length] in E. lia. }
  assert (lastSoft (piece k j2) = lastSoft (piece k0 j2)) as Hsoft by (rewrite Ea; now apply lastSoft_app).
  set (st := if lastSoft (piece k0 j2) && negb rh then 0 else 6).
  assert (forall x, starts x -> lastSoft (piece x j2) = lastSoft (piece k0 j2) -> lineStretch rh (x =? 0)%nat (isLast j2) (piece x j2) = st) as Hst.
  { intros x Hx Ex. unfold lineStretch, st. rewrite Hlast, Ex. destruct (starts_free x j2 Hx) as [->| ->]; rewrite ?andb_false_r; cbn [negb andb]; lia. }
  pose proof (lineWidth_pos rh m sp hy Hm Hsp Hhy (piece k0 j2)) as P0.
  revert Hk0. unfold SpecGreedy.fits, lineOk. rewrite (Hst k Sk Hsoft), (Hst k0 Sk0 eq_refl). unfold lineRatio.
  set (w := lineWidth (piece k j2)) in *. set (w0 := lineWidth (piece k0 j2)) in *.
  assert (st = 0 \/ st = 6) as Es by (unfold st; destruct (_ && _); tauto).
  destruct (Z.ltb_spec w W) as [Hw|Hw].
  - destruct (Z.ltb_spec w0 W) as [Hw0|]; [|lia]. unfold within. intros G. apply andb_prop in G. destruct G as [_ G].
    destruct Es as [Es|Es]; rewrite Es in *; [change (0 <? 0) with false in G; congruence|]. change (0 <? 6) with true in *. cbv iota in *.
    destruct (quo_low A L (W - w) 6) as [_ ->]; [lia|lia|]. cbn [andb]. apply (le_trans A L _ _ _) with (2 := G).
    apply (quo_mono A L); lia.
  - destruct (Z.ltb_spec W w) as [|_]; [lia|]. intros _. unfold within. rewrite Htol0, andb_true_r.
    rewrite (rep_le A L _ _ (-1) 0); [reflexivity| |]; apply rep_Z; unfold exactZ; lia.
Qed.
(** a line that ends earlier can be kept if a later start can *)
Lemma shorter k k0 j j2 : (rh = true -> forall f, In f fs -> hy <= m (f_text f)) ->
  starts k -> starts k0 -> (k <= k0)%nat -> (k0 <= j2)%nat -> (j2 <= j)%nat -> (j < length fs)%nat ->
  fits k j = true -> fits k0 j2 = true -> fits k j2 = true.
Proof.
  intros Hthin Sk Sk0 H1 H2 H3 Hj Hkj Hk0.
  destruct (Nat.eq_dec j2 j) as [->|Hne]; [exact Hkj|].
  destruct (piece_head k j2 j ltac:(lia) ltac:(lia)) as (b & Eb).
  apply (fits_more k k0 j2); try assumption; [lia|].
  apply fits_width in Hkj. destruct b as [|g b].
  - rewrite app_nil_r in Eb. now rewrite <- Eb.
  - rewrite Eb in Hkj. pose proof (width_head (piece k j2) g b). assert (rh = true -> hy <= m (f_text g)); [|lia].
    intros Hrh. apply (Hthin Hrh). apply (piece_in k j). rewrite Eb. apply in_or_app. right. now left.
Qed.

(** ** The longest line *)
Lemma starts_dec k : {starts k} + {~ starts k}.
Proof.
  induction k as [k IH] using (well_founded_induction lt_wf). destruct k as [|j]; [left; constructor|].
  assert ({endsAt j} + {~ endsAt j}) as [He|He].
  { unfold SpecGreedy.endsAt. destruct (nth_error fs j) as [f|]; [|right; intros (f & E & _); discriminate].
    destruct (isLast j) eqn:El; [left; eauto|]. destruct (cuttable softOn f) eqn:Ec; [left; eauto|right].
    intros (g & E & [H|H]); [discriminate|congruence]. }
  2: { right. intros H. inversion H; subst. tauto. }
  destruct (isLast j) eqn:El; [right; intros H; inversion H; subst; congruence|].
  assert (forall n, (n <= S j)%nat -> {exists k, (k < n)%nat /\ starts k /\ fits k j = true} + {~ exists k, (k < n)%nat /\ starts k /\ fits k j = true}) as D.
  { induction n as [|n IHn]; intros Hn; [right; intros (k & Hk & _); lia|]. destruct IHn as [H|H]; [lia|left; destruct H as (k & Hk & H); exists k; split; [lia|exact H]|].
    destruct (fits n j) eqn:Ef; [|right; intros (k & Hk & Hs & Hf); destruct (Nat.eq_dec k n); [subst; congruence|apply H; exists k; repeat split; [lia|tauto|tauto]]].
    destruct (IH n ltac:(lia)) as [Hs|Hs].
    - left. exists n. repeat split; [lia|exact Hs|exact Ef].
    - right. intros (k & Hk & Hk2 & Hk3). destruct (Nat.eq_dec k n) as [->|]; [tauto|]. apply H. exists k. repeat split; [lia|tauto|tauto]. }
  destruct (D (S j) ltac:(lia)) as [H|H].
  - left. destruct H as (k & Hk & Hs & Hf). apply (st_next _ _ _ _ _ _ _ _ _ k j Hs); [lia|exact He|exact El|exact Hf].
  - right. intros H'. inversion H' as [|k j' Hs Hk _ _ Hf]; subst. apply H. exists k. repeat split; [lia|exact Hs|exact Hf].
Qed.
Lemma longest k j : line k j -> exists k0, line k0 j /\ forall k', line k' j -> (k0 <= k')%nat.
Proof.
  induction k as [k IH] using (well_founded_induction lt_wf). intros Hl.
  assert (forall n, {exists k', (k' < n)%nat /\ starts k' /\ fits k' j = true} + {~ exists k', (k' < n)%nat /\ starts k' /\ fits k' j = true}) as D.
  { induction n as [|n [H|H]]; [right; intros (x & Hx & _); lia|left; destruct H as (x & Hx & H); exists x; split; [lia|exact H]|].
    destruct (fits n j) eqn:Ef, (starts_dec n) as [Hs|Hs].
    1: { left. exists n. repeat split; [lia|exact Hs|exact Ef]. }
    all: right; intros (x & Hx & Hx2 & Hx3); destruct (Nat.eq_dec x n) as [->|]; [first [tauto|congruence]|apply H; exists x; repeat split; [lia|tauto|tauto]]. }
  pose proof Hl as (_ & Hkj & He & _). destruct (D k) as [(k' & Hk' & Hs & Hf)|Hno].
  - apply (IH k' Hk'). split; [exact Hs|]. split; [lia|]. split; [exact He|exact Hf].
  - exists k. split; [exact Hl|]. intros k' (Hs & _ & _ & Hf). destruct (Nat.le_gt_cases k k'); [assumption|]. exfalso. apply Hno. eauto.
Qed.
Lemma longest_chosen k0 j : line k0 j -> (forall k', line k' j -> (k0 <= k')%nat) -> chosen k0 j.
Proof.
  intros Hl Hmin. split; [exact Hl|]. split; [intros k' Hk' _; now apply Hmin|]. intros (k' & Hk' & Hr).
  pose proof (Hmin k' Hk') as Hle. destruct (piece_tail k0 k' j Hle) as (a & Ea). pose proof (width_tail a (piece k' j)) as Hw. rewrite <- Ea in Hw.
  destruct Hl as (_ & _ & _ & Hf). apply fits_width in Hf. unfold SpecGreedy.rank in *. destruct (afterWord fs j); cbn [andb] in *.
  - destruct (Z.eqb_spec (slack k' j) 0) as [E|E]; [|exfalso; revert Hr; unfold tightness; destruct (_ || _); [discriminate|]; now destruct (_ <=? _)].
    unfold SpecGreedy.slack in *. destruct (Z.eqb_spec (W - lineWidth (piece k0 j)) 0) as [_|H]; [reflexivity|lia].
  - exfalso. revert Hr. unfold tightness. destruct (_ || _); [discriminate|]. now destruct (_ <=? _).
Qed.

(** ** Counting lines *)
(** no part of a word narrower than the hyphen *)
Hypothesis Hthin : rh = true -> forall f, In f fs -> hy <= m (f_text f).
(** [upto n k]: the fragments before k can be laid out on n lines; [best n k]: with lines that are kept. *)
Inductive upto : nat -> nat -> Prop :=
| up_first : upto 0 0
| up_next : forall n k j, upto n k -> (k <= j)%nat -> endsAt j -> isLast j = false -> fits k j = true -> upto (S n) (S j).
Inductive best : nat -> nat -> Prop :=
| be_first : best 0 0
| be_next : forall n k j, best n k -> chosen k j -> isLast j = false -> best (S n) (S j).
Lemma upto_starts n k : upto n k -> starts k.
Proof. induction 1 as [|n k j _ IH Hk He Hl Hf]; [constructor|]. now apply (st_next _ _ _ _ _ _ _ _ _ k j). Qed.
Lemma ends_in j : endsAt j -> (j < length fs)%nat.
Proof. intros (f & H & _). apply nth_error_Some. congruence. Qed.
(** the last line: from k or an earlier place *)
Lemma earlier n k : upto n k -> forall k2, (k2 <= k)%nat -> starts k2 -> exists n2, (n2 <= n)%nat /\ best n2 k2.
Proof.
  induction 1 as [|n k j Hu IH Hk He Hl Hf]; intros k2 Hk2 Hs.
  - replace k2 with 0%nat by lia. exists 0%nat. split; [lia|constructor].
  - destruct Hs as [|k1 j2 Hs1 Hk1 He2 Hl2 Hf2]; [exists 0%nat; split; [lia|constructor]|].
    destruct (longest k1 j2) as (k0 & Hk0 & Hmin); [repeat split; assumption|].
    pose proof (longest_chosen k0 j2 Hk0 Hmin) as Hch.
    assert (k0 <= k)%nat as Hle.
    { destruct (Nat.le_gt_cases k0 k) as [|Hgt]; [assumption|]. apply Hmin. destruct Hk0 as (Hs0 & Hk02 & _ & Hf0).
      split; [now apply (upto_starts n)|]. split; [lia|]. split; [exact He2|].
      apply (shorter k k0 j j2 Hthin); try assumption; [now apply (upto_starts n)|lia|lia|now apply ends_in]. }
    destruct (IH k0 Hle (proj1 Hk0)) as (n2 & Hn2 & Hb). exists (S n2). split; [lia|]. now apply (be_next n2 k0 j2).
Qed.
Lemma best_greedy n k : best n k -> forall ls, greedy k ls -> exists ls', length ls' = (n + length ls)%nat /\ greedy 0 ls'.
Proof.
  induction 1 as [|n k j Hb IH Hc Hl]; intros ls Hg; [exists ls; split; [reflexivity|exact Hg]|].
  destruct (IH (piece k j :: ls)) as (ls' & E & G); [now apply gr_cut|]. exists ls'. split; [|exact G]. rewrite E. cbn [length]. lia.
Qed.
(** the last line *)
Lemma last_line n k j : upto n k -> (k <= j)%nat -> endsAt j -> isLast j = true -> fits k j = true ->
  exists segs, greedy 0 segs /\ (length segs <= S n)%nat.
Proof.
  intros Hu Hk He Hl Hf. assert (starts k) as Sk by now apply (upto_starts n).
  destruct (longest k j) as (k0 & Hk0 & Hmin); [repeat split; assumption|].
  assert (k0 <= k)%nat as Hle by (apply Hmin; repeat split; assumption).
  destruct (earlier n k Hu k0 Hle (proj1 Hk0)) as (n2 & Hn2 & Hb).
  destruct (best_greedy n2 k0 Hb [piece k0 j]) as (segs & E & G); [apply gr_last; [now apply longest_chosen|exact Hl]|].
  exists segs. split; [exact G|]. rewrite E. cbn [length]. lia.
Qed.
(** a layout *)
Lemma layout_lines rest segs : layout softOn rest segs -> forall pre n, fs = pre ++ rest -> upto n (length pre) ->
  linesOk rh m sp hy A tol W (length pre =? 0)%nat segs = true ->
  exists n' k j, (S n' = n + length segs)%nat /\ upto n' k /\ (k <= j)%nat /\ endsAt j /\ isLast j = true /\ fits k j = true.
Proof.
  induction 1 as [seg Hs|seg f rest lines Hc Hlay IH]; intros pre n E Hu Hok.
  - exists n, (length pre), (length pre + length seg - 1)%nat. assert (0 < length seg)%nat by (destruct seg; [congruence|cbn; lia]).
    assert (isLast (length pre + length seg - 1) = true) as Hl by (unfold SpecGreedy.isLast; rewrite E, app_length; apply Nat.eqb_eq; lia).
    split; [cbn [length]; lia|]. split; [exact Hu|]. split; [lia|]. split; [|split; [exact Hl|]].
    + destruct (nth_error fs (length pre + length seg - 1)) as [g|] eqn:En; [exists g; rewrite Hl; tauto|].
      apply nth_error_None in En. rewrite E, app_length in En. lia.
    + unfold SpecGreedy.fits. rewrite Hl. cbn [linesOk] in Hok.
      replace (piece (length pre) (length pre + length seg - 1)) with seg; [exact Hok|].
      unfold SpecGreedy.piece. rewrite firstn_all2 by (rewrite E, app_length; lia). rewrite E, skipn_app, skipn_all, Nat.sub_diag. reflexivity.
  - assert (lines <> []) as Hne by (intros ->; inversion Hlay). destruct lines as [|l2 lines]; [congruence|].
    change (lineOk rh m sp hy A tol W (length pre =? 0)%nat false (seg ++ [f]) && linesOk rh m sp hy A tol W false (l2 :: lines) = true) in Hok.
    apply andb_prop in Hok. destruct Hok as [Hok1 Hok2].
    assert (rest <> []) as Hr by (intros ->; inversion Hlay as [|s0 f0 r0 l0 _ _ E0]; subst; [congruence|destruct s0; discriminate]).
    set (j := (length pre + length seg)%nat).
    assert (isLast j = false) as Hl.
    { unfold SpecGreedy.isLast, j. rewrite E, !app_length. apply Nat.eqb_neq. cbn [length]. destruct rest; [congruence|cbn [length]; lia]. }
    assert (piece (length pre) j = seg ++ [f]) as Hp.
    { unfold SpecGreedy.piece, j. rewrite E. replace (S (length pre + length seg)) with (length pre + S (length seg))%nat by lia.
      rewrite firstn_app_2, skipn_app, skipn_all, Nat.sub_diag. cbn [app skipn]. replace (S (length seg)) with (length (seg ++ [f]) + 0)%nat by (rewrite app_length; cbn; lia).
      rewrite firstn_app_2. cbn [firstn]. now rewrite app_nil_r. }
    assert (upto (S n) (S j)) as Hu'.
    { apply (up_next n (length pre) j Hu); [unfold j; lia| |exact Hl|].
      - exists f. split; [|now right]. unfold j. rewrite E, <- app_assoc, app_assoc, nth_error_app2 by (rewrite app_length; lia).
        rewrite app_length, Nat.sub_diag. reflexivity.
      - unfold SpecGreedy.fits. now rewrite Hp, Hl. }
    destruct (IH (pre ++ seg ++ [f]) (S n)) as (n' & k & j' & E1 & H).
    + now rewrite E, <- !app_assoc.
    + rewrite !app_length. cbn [length]. replace (length pre + (length seg + 1))%nat with (S j) by (unfold j; lia). exact Hu'.
    + replace (length (pre ++ seg ++ [f]) =? 0)%nat with false; [exact Hok2|]. symmetry. apply Nat.eqb_neq. rewrite !app_length. cbn [length]. lia.
    + exists n', k, j'. split; [|exact H]. cbn [length] in *. lia.
Qed.
Theorem fewest segs : layout softOn fs segs -> linesOk rh m sp hy A tol W true segs = true ->
  exists best, greedy 0 best /\ (length best <= length segs)%nat.
Proof.
  intros Hl Hok. destruct (layout_lines fs segs Hl [] 0 eq_refl up_first Hok) as (n & k & j & E & Hu & Hk & He & Hlast & Hf).
  destruct (last_line n k j Hu Hk He Hlast Hf) as (b & G & Hb). exists b. split; [exact G|lia].
Qed.
End Lines.

(** ** LeftAlignUniform *)
Theorem align_fewest A L u o m punct parts lb tokens spare maxWidth W ord :
  plainCall A L u o m punct parts lb tokens spare maxWidth W ord ->
  fle A (fZ A 0) (k_tolerance (l_search o)) = true ->
  marksGlued (negb (feq A (l_hyphenPenalty o) (fZ A 10000))) (fragsOf u o punct parts tokens) ->
  (l_renderHyphens o = true -> Forall (fun f => hyphenW o m <= m (f_text f)) (fragsOf u o punct parts tokens)) ->
  forall segs, layout (negb (feq A (l_hyphenPenalty o) (fZ A 10000))) (fragsOf u o punct parts tokens) segs ->
  linesOk (l_renderHyphens o) m (m [32]) (hyphenW o m) A (k_tolerance (l_search o)) W true segs = true ->
  exists ls ord' lb', (forall i k, Permutation.Permutation (ord' i k) [C0; C1; C2; C3]) /\
    leftAlignUniform A u ord' spare lb tokens maxWidth = Ret (Some ls, lb') /\ (length ls <= length segs)%nat.
Proof.
  intros C Ht Hg Hth segs Hl Hok.
  assert (forall t, 0 <= m t) as Hm by (intros t; apply (se_measure _ _ _ _ _ _ _ (pc_settings _ _ _ _ _ _ _ _ _ _ _ _ _ C))).
  assert (0 <= hyphenW o m) as Hhy by (unfold hyphenW; destruct (l_wordBreak o); [apply Hm|lia]).
  assert (l_renderHyphens o = true -> forall f, In f (fragsOf u o punct parts tokens) -> hyphenW o m <= m (f_text f)) as Hth'
    by (intros Hr; specialize (Hth Hr); now rewrite Forall_forall in Hth).
  destruct (fewest A L (l_renderHyphens o) (negb (feq A (l_hyphenPenalty o) (fZ A 10000))) m (m [32]) (hyphenW o m) (k_tolerance (l_search o)) W
    (fragsOf u o punct parts tokens) Hm (Hm _) Hhy (proj2 (pc_bounds _ _ _ _ _ _ _ _ _ _ _ _ _ C)) (tol_no _ _ _ _ _ _ _ _ _ _ _ _ _ C) Ht Hg Hth'
    segs Hl Hok) as (b & G & Hb).
  destruct (proj1 (greedy_exact A L u o m punct parts lb tokens spare maxWidth W ord C (map (lineText (l_renderHyphens o)) b)))
    as (ord' & lb' & Ho & E); [eauto|].
  exists (map (lineText (l_renderHyphens o)) b), ord', lb'. split; [exact Ho|]. split; [exact E|]. now rewrite map_length.
Qed.

(** ** All the layouts *)
Definition join1 (f : frag) (l : list (list frag)) : list (list frag) := match l with s :: ls => (f :: s) :: ls | [] => [] end.
Fixpoint layouts (softOn : bool) (fs : list frag) : list (list (list frag)) :=
  match fs with
  | [] => []
  | f :: r => match r with
              | [] => [[[f]]]
              | _ => (if cuttable softOn f then map (cons [f]) (layouts softOn r) else []) ++ map (join1 f) (layouts softOn r)
              end
  end.
Lemma layouts_all softOn fs segs : layout softOn fs segs -> In segs (layouts softOn fs).
Proof.
  induction 1 as [seg Hs|seg f rest lines Hc Hl IH].
  - induction seg as [|f seg IH]; [congruence|]. destruct seg as [|g seg]; [now left|].
    change (layouts softOn (f :: g :: seg)) with
      ((if cuttable softOn f then map (cons [f]) (layouts softOn (g :: seg)) else []) ++ map (join1 f) (layouts softOn (g :: seg))).
    apply in_or_app. right. change [f :: g :: seg] with (join1 f [g :: seg]). apply in_map. apply IH. discriminate.
  - assert (rest <> []) as Hr by (intros ->; now destruct IH). induction seg as [|g seg IH2].
    + cbn [app]. destruct rest as [|x rest]; [congruence|].
      change (layouts softOn (f :: x :: rest)) with
        ((if cuttable softOn f then map (cons [f]) (layouts softOn (x :: rest)) else []) ++ map (join1 f) (layouts softOn (x :: rest))).
      rewrite Hc. apply in_or_app. left. now apply in_map.
    + assert (exists h t, (seg ++ [f]) ++ rest = h :: t) as (h & t & E) by (destruct seg; cbn; eauto).
      change (((g :: seg) ++ [f]) ++ rest) with (g :: (seg ++ [f]) ++ rest). rewrite E in *.
      change (layouts softOn (g :: h :: t)) with
        ((if cuttable softOn g then map (cons [g]) (layouts softOn (h :: t)) else []) ++ map (join1 g) (layouts softOn (h :: t))).
      apply in_or_app. right. change (((g :: seg) ++ [f]) :: lines) with (join1 g ((seg ++ [f]) :: lines)). now apply in_map.
Qed.

(** ** A greater width *)
Theorem wider_count A L u o m punct parts tokens w1 w2 W1 W2 lb1 spare1 ord1 lb2 spare2 ord2 :
  plainCall A L u o m punct parts lb1 tokens spare1 w1 W1 ord1 ->
  plainCall A L u o m punct parts lb2 tokens spare2 w2 W2 ord2 ->
  k_tolerance (l_search o) = fTolerance A -> l_renderHyphens o = true \/ l_wordBreak o = false ->
  marksGlued (negb (feq A (l_hyphenPenalty o) (fZ A 10000))) (fragsOf u o punct parts tokens) ->
  (l_renderHyphens o = true -> Forall (fun f => hyphenW o m <= m (f_text f)) (fragsOf u o punct parts tokens)) ->
  W1 + m [32] <= 52 -> W1 <= W2 <= 85948 ->
  forall ls lb1', leftAlignUniform A u ord1 spare1 lb1 tokens w1 = Ret (Some ls, lb1') ->
  exists ls2 ord lb2', (forall i k, Permutation.Permutation (ord i k) [C0; C1; C2; C3]) /\
    leftAlignUniform A u ord spare2 lb2 tokens w2 = Ret (Some ls2, lb2') /\ (length ls2 <= length ls)%nat.
Proof.
  intros C1 C2 Htol Hrh Hg Hth H1 H2 ls lb1' E1. destruct (align_sound _ _ _ _ _ _ _ _ _ _ _ _ _ C1 _ _ E1) as (segs & -> & Hl & Hok).
  assert (fle A (fZ A 10000) (k_tolerance (l_search o)) = false) as Ht by (rewrite Htol; apply (tol_inf A L)).
  apply (linesOk_width _ _ _ _ _ _ _ Ht) in Hok.
  assert (forall t, 0 <= m t) as Hm by (intros t; apply (se_measure _ _ _ _ _ _ _ (pc_settings _ _ _ _ _ _ _ _ _ _ _ _ _ C1))).
  assert (0 <= hyphenW o m) as Hhy by (unfold hyphenW; destruct (l_wordBreak o); [apply Hm|lia]).
  destruct (fill_count A L (l_renderHyphens o) (negb (feq A (l_hyphenPenalty o) (fZ A 10000))) m (m [32]) (hyphenW o m) Hm (Hm _) Hhy W2
    (pc_bounds _ _ _ _ _ _ _ _ _ _ _ _ _ C2) (proj2 H2) (fragsOf u o punct parts tokens) segs Hl) as (segs2 & L1 & L2 & L3).
  - eapply Forall_impl; [|exact Hok]. intros s Hs. cbv beta in *. unfold Succeed.fits. lia.
  - now apply (layout_starts _ _ _ Hl).
  - apply Forall_forall. intros s Hs. destruct Hrh as [Hrh|Hw]; [now left|]. right.
    pose proof (frs_nosoft A u o punct parts tokens Hw) as N. rewrite Forall_forall in N.
    unfold lastSoft. destruct (rev s) as [|f s'] eqn:Er; [reflexivity|]. apply N. eapply layout_in; [exact Hl|exact Hs|].
    apply in_rev. rewrite Er. now left.
  - destruct (align_fewest A L u o m punct parts lb2 tokens spare2 w2 W2 ord2 C2) with (segs := segs2) as (ls2 & ord & lb2' & Ho & E2 & Hlen); try assumption.
    + rewrite Htol. apply (tol_zero A L).
    + now rewrite Htol.
    + exists ls2, ord, lb2'. split; [exact Ho|]. split; [exact E2|]. rewrite map_length. lia.
Qed.
