(** C124: lines are filled from the end, for every iteration order of the map. *)
From Coq Require Import Permutation.
From Verif Require Import Base Arith Unicode Split SpecSplit SplitProofs Ansi SpecAnsi AnsiProofs Attr Hyph KP Nodes Render SpecKP SpecGreedy
  KPProofs Frags Para Tokens Align Options Call Settings AlignProofs Fresh Succeed Compare Greedy Fewest Count Again.
Open Scope Z_scope.

Section Lines.
Variable A : arith.
Variable L : laws A.
Variable rh softOn : bool.
Variable m : list rune -> Z.
Variable sp hy : Z.
Variable tol : F A.
Variable W : Z.
Variable fs : list frag.
Hypothesis Hm : forall t, 0 <= m t.
Hypothesis Hsp : 0 <= sp.
Hypothesis Hhy : 0 <= hy.
Hypothesis HW : W <= 2 ^ 50.
Hypothesis Htol : fle A (fZ A 10000) tol = false.
Hypothesis Htol0 : fle A (fZ A 0) tol = true.
Hypothesis Hmarks : marksGlued softOn fs.
Notation lineWidth := (lineWidth rh m sp hy).
Notation lineOk := (lineOk rh m sp hy A tol W).
Notation fits := (SpecGreedy.fits rh m sp hy A tol W fs).
Notation piece := (piece fs).
Notation isLast := (isLast fs).
Notation endsAt := (endsAt softOn fs).
Notation starts := (starts rh softOn m sp hy A tol W fs).
Notation line := (line rh softOn m sp hy A tol W fs).
Notation chosen := (chosen rh softOn m sp hy A tol W fs).
Notation greedy := (greedy rh softOn m sp hy A tol W fs).

(** two lines that follow one another *)
Lemma greedy_two k segs : greedy k segs -> forall pre s1 s2 post, segs = pre ++ s1 :: s2 :: post ->
  exists k1 j1 j2, line k1 j1 /\ isLast j1 = false /\ s1 = piece k1 j1 /\ chosen (S j1) j2 /\ s2 = piece (S j1) j2 /\
    (post <> [] -> isLast j2 = false) /\ (pre = [] -> k1 = k) /\ (pre <> [] -> k1 <> 0%nat).
Proof.
  induction 1 as [k j Hc Hl|k j lines Hc Hl Hg IH]; intros pre s1 s2 post E.
  - apply (f_equal (@length (list frag))) in E. rewrite app_length in E. cbn [length] in E. lia.
  - destruct pre as [|s0 pre]; cbn [app] in E; injection E as <- E.
    + inversion Hg as [k2 j2 Hc2 Hl2 E2 E3|k2 j2 l2 Hc2 Hl2 Hg2 E2 E3]; subst.
      * injection E3 as <- <-. exists k, j, j2. split; [exact (proj1 Hc)|]. split; [exact Hl|]. split; [reflexivity|]. split; [exact Hc2|].
        split; [reflexivity|]. split; [congruence|]. split; congruence.
      * injection E3 as <- <-. exists k, j, j2. split; [exact (proj1 Hc)|]. split; [exact Hl|]. split; [reflexivity|]. split; [exact Hc2|].
        split; [reflexivity|]. split; [intros _; exact Hl2|]. split; congruence.
    + destruct (IH pre s1 s2 post E) as (k1 & j1 & j2 & H1 & H2 & H3 & H4 & H5 & H6 & H7 & H8). exists k1, j1, j2.
      split; [exact H1|]. split; [exact H2|]. split; [exact H3|]. split; [exact H4|]. split; [exact H5|]. split; [exact H6|].
      split; [congruence|]. intros _. destruct pre as [|x pre]; [rewrite H7; [discriminate|reflexivity]|apply H8; discriminate].
Qed.
Lemma piece_join k1 j1 j2 : (k1 <= S j1)%nat -> (j1 <= j2)%nat -> (j1 < length fs)%nat -> piece k1 j1 ++ piece (S j1) j2 = piece k1 j2.
Proof.
  intros H1 H2 H3. unfold SpecGreedy.piece. rewrite <- (firstn_skipn (S j1) (firstn (S j2) fs)) at 2.
  rewrite firstn_firstn, Nat.min_l by lia. rewrite skipn_app. f_equal. rewrite firstn_length, Nat.min_l by lia.
  replace (k1 - S j1)%nat with 0%nat by lia. reflexivity.
Qed.
Lemma piece_rest k j : (k <= S j)%nat -> skipn k fs = piece k j ++ skipn (S j) fs.
Proof.
  intros H. unfold SpecGreedy.piece. rewrite <- (firstn_skipn (S j) fs) at 1. rewrite skipn_app. f_equal.
  rewrite firstn_length. destruct (Nat.le_gt_cases (S j) (length fs)) as [Hj|Hj].
  - replace (k - Nat.min (S j) (length fs))%nat with 0%nat by lia. reflexivity.
  - rewrite (skipn_all2 fs) by lia. apply skipn_nil.
Qed.
Lemma piece_snoc k j f : (k <= j)%nat -> nth_error fs j = Some f -> exists l, piece k j = l ++ [f].
Proof.
  intros Hk Hf. destruct (nth_error_split fs j Hf) as (a & b & E & Hl). exists (skipn k a). unfold SpecGreedy.piece.
  rewrite E, <- Hl. replace (S (length a)) with (length (a ++ [f]) + 0)%nat by (rewrite app_length; cbn; lia).
  replace (a ++ f :: b) with ((a ++ [f]) ++ b) by (now rewrite <- app_assoc). rewrite firstn_app_2. cbn [firstn]. rewrite app_nil_r, skipn_app.
  f_equal. replace (k - length a)%nat with 0%nat by lia. reflexivity.
Qed.
Lemma greedy_layout k segs : greedy k segs -> layout softOn (skipn k fs) segs.
Proof.
  induction 1 as [k j ((_ & Hk & (f & Hf & _) & _) & _) Hl|k j lines ((_ & Hk & (f & Hf & Hc) & _) & _) Hl _ IH].
  - unfold SpecGreedy.isLast in Hl. apply Nat.eqb_eq in Hl. rewrite (piece_rest k j), (skipn_all2 fs), app_nil_r by lia.
    apply lay_last. destruct (piece_snoc k j f Hk Hf) as (l & ->). now destruct l.
  - destruct Hc as [Hc|Hc]; [congruence|]. rewrite (piece_rest k j) by lia. destruct (piece_snoc k j f Hk Hf) as (l & ->). now apply lay_cut.
Qed.
Lemma rank_far k j : isLast j = false -> 6 < W - lineWidth (piece k j) -> SpecGreedy.rank rh m sp hy W fs k j = 3.
Proof.
  intros Hl Hs. unfold SpecGreedy.rank, SpecGreedy.tightness, SpecGreedy.slack, SpecGreedy.stretch. rewrite Hl.
  set (w := lineWidth (piece k j)) in *.
  assert (lineStretch rh (k =? 0)%nat false (piece k j) <= 6) as Hst.
  { unfold lineStretch. destruct (lastSoft _ && _), (negb _ && _); lia. }
  set (st := lineStretch rh (k =? 0)%nat false (piece k j)) in *.
  destruct (Z.eqb_spec (W - w) 0) as [|_]; [lia|]. rewrite andb_false_r. cbn [orb].
  destruct (Z.leb_spec (2 * (W - w)) st) as [|_]; [lia|]. destruct (Z.leb_spec (W - w) st) as [|_]; [lia|]. reflexivity.
Qed.
Theorem filled segs pre s1 s2 post a c : greedy 0 segs -> segs = pre ++ s1 :: s2 :: post -> post <> [] -> s1 = a ++ c -> c <> [] ->
  a = [] \/ (exists a0 f, a = a0 ++ [f] /\ cuttable softOn f = true) /\ lineOk (match pre with [] => true | _ => false end) false a = true ->
  W < lineWidth (c ++ s2) \/ W - lineWidth (c ++ s2) <= 6.
Proof.
  intros G E Hpost Es Hc Ha. destruct (greedy_two 0 segs G pre s1 s2 post E) as (k1 & j1 & j2 & (S1 & K1 & En1 & F1) & L1 & P1 & Hch & P2 & L2 & Z1 & Z2).
  specialize (L2 Hpost). pose proof Hch as ((S2 & K2 & En2 & F2) & Hmin & _).
  assert (forall j, endsAt j -> (j < length fs)%nat) as Hin by (intros j (f & H & _); apply nth_error_Some; congruence).
  assert (length s1 = (S j1 - k1)%nat) as Hlen1.
  { rewrite P1. unfold SpecGreedy.piece. rewrite skipn_length, firstn_length. pose proof (Hin _ En1). lia. }
  assert (length a + length c = S j1 - k1)%nat as Hlen by (rewrite <- Hlen1, Es, app_length; reflexivity).
  assert (0 < length c)%nat by (destruct c; [congruence|cbn; lia]).
  set (k' := (k1 + length a)%nat).
  assert (piece k' j1 = c) as Hc'.
  { unfold k', SpecGreedy.piece. replace (skipn (k1 + length a) (firstn (S j1) fs)) with (skipn (length a) (piece k1 j1)).
    - rewrite <- P1, Es, skipn_app, skipn_all, Nat.sub_diag. reflexivity.
    - unfold SpecGreedy.piece. rewrite skipn_skipn'. f_equal. }
  assert (piece k' j2 = c ++ s2) as Hcs by (rewrite <- Hc', P2; symmetry; apply piece_join; [unfold k'; lia|lia|now apply Hin]).
  assert (starts k') as S'.
  { destruct Ha as [->|((a0 & f & -> & Hcut) & Hok)]; [unfold k'; cbn [length]; rewrite Nat.add_0_r; exact S1|].
    assert (piece k1 (k1 + length a0) = a0 ++ [f]) as Hp.
    { assert (piece k1 (k1 + length a0) = firstn (S (length a0)) (piece k1 j1)) as ->.
      { unfold SpecGreedy.piece.
        replace (firstn (S (k1 + length a0)) fs) with (firstn (k1 + S (length a0)) (firstn (S j1) fs)).
        - rewrite firstn_skipn_comm. reflexivity.
        - rewrite firstn_firstn. f_equal. rewrite app_length in Hlen. cbn [length] in Hlen. lia. }
      rewrite <- P1, Es. replace (S (length a0)) with (length (a0 ++ [f]) + 0)%nat by (rewrite app_length; cbn; lia).
      rewrite firstn_app_2. cbn [firstn]. apply app_nil_r. }
    assert (nth_error fs (k1 + length a0) = Some f) as Hnth.
    { assert (fs = firstn k1 fs ++ s1 ++ skipn (S j1) fs) as Efs.
      { rewrite P1. unfold SpecGreedy.piece. rewrite <- (firstn_skipn (S j1) fs) at 1. rewrite app_assoc. f_equal.
        rewrite <- (firstn_skipn k1 (firstn (S j1) fs)) at 1. rewrite firstn_firstn, Nat.min_l by lia. reflexivity. }
      assert (length (firstn k1 fs) = k1) as Hk by (rewrite firstn_length; pose proof (Hin _ En1); lia).
      rewrite Efs, Es, nth_error_app2 by lia. rewrite Hk. replace (k1 + length a0 - k1)%nat with (length a0) by lia.
      rewrite <- !app_assoc, nth_error_app2 by lia. rewrite Nat.sub_diag. reflexivity. }
    assert (isLast (k1 + length a0) = false) as Hl'.
    { unfold SpecGreedy.isLast. apply Nat.eqb_neq. rewrite app_length in Hlen. cbn [length] in Hlen. pose proof (Hin _ En1). lia. }
    unfold k'. rewrite app_length. cbn [length]. replace (k1 + (length a0 + 1))%nat with (S (k1 + length a0)) by lia.
    apply (st_next _ _ _ _ _ _ _ _ _ k1); [exact S1|lia|exists f; tauto|exact Hl'|].
    unfold SpecGreedy.fits. rewrite Hl', Hp. destruct pre as [|x pre].
    - rewrite (Z1 eq_refl). exact Hok.
    - replace (k1 =? 0)%nat with false; [exact Hok|]. symmetry. apply Nat.eqb_neq. apply Z2. discriminate. }
  destruct (Z.ltb_spec W (lineWidth (c ++ s2))) as [Hw|Hw]; [now left|right].
  destruct (Z.leb_spec (W - lineWidth (c ++ s2)) 6) as [|Hs]; [assumption|exfalso].
  assert (isLast j2 = false -> (S j2 < length fs)%nat) as Hj2.
  { unfold SpecGreedy.isLast. intros H0%Nat.eqb_neq. pose proof (Hin _ En2). lia. }
  rewrite <- Hcs in Hw, Hs.
  assert (line k' j2) as Hl'.
  { split; [exact S'|]. split; [unfold k'; lia|]. split; [exact En2|].
    apply (fits_more A L rh softOn m sp hy tol W fs Hm Hsp Hhy HW Htol Htol0 Hmarks k' (S j1) j2 S' S2); [unfold k'; lia|exact K2|now apply Hj2|exact Hw|exact F2]. }
  assert (6 < W - lineWidth (piece (S j1) j2)) as Hs2.
  { pose proof (width_tail A rh m sp hy tol Hm Hsp Hhy c s2) as Ht. rewrite <- Hcs in Ht. rewrite <- P2. lia. }
  assert (S j1 <= k')%nat; [|unfold k' in *; lia].
  apply Hmin; [exact Hl'|]. rewrite !rank_far; [reflexivity|exact L2|exact Hs2|exact L2|exact Hs].
Qed.

(** ** The default tolerance *)
Hypothesis Hdef : tol = fTolerance A.
Hypothesis Hnarrow : 0 < W <= 51.
Hypothesis Hrh : rh = true \/ forall f, In f fs -> isSoft f = false.
Hypothesis Hthin : rh = true -> forall f, In f fs -> hy <= m (f_text f).
Theorem filled_default segs pre s1 s2 post a c : greedy 0 segs -> segs = pre ++ s1 :: s2 :: post -> post <> [] -> s1 = a ++ c -> c <> [] ->
  a = [] \/ (exists a0 f, a = a0 ++ [f] /\ cuttable softOn f = true) -> W < lineWidth (c ++ s2) \/ W - lineWidth (c ++ s2) <= 6.
Proof.
  intros G E Hpost Es Hc Ha. apply (filled segs pre s1 s2 post a c G E Hpost Es Hc).
  destruct Ha as [Ha|Ha]; [now left|right]. split; [exact Ha|].
  destruct (greedy_two 0 segs G pre s1 s2 post E) as (k1 & j1 & j2 & (S1 & K1 & En1 & F1) & L1 & P1 & _ & _ & _ & Z1 & Z2).
  assert (a <> []) as Hne by (destruct Ha as (a0 & f & -> & _); now destruct a0).
  rewrite Hdef. apply (inner_ok A L rh m sp hy Hm Hsp Hhy W); try lia.
  - destruct c as [|g c]; [congruence|]. pose proof (width_head A rh m sp hy tol Hm Hsp Hhy a g c) as Hw.
    apply (fits_width A rh m sp hy tol W fs Htol) in F1. rewrite <- P1, Es in F1.
    assert (lineWidth a <= lineWidth (a ++ g :: c)); [|lia]. apply Hw. intros Hr. apply (Hthin Hr). apply (piece_in fs k1 j1).
    rewrite <- P1, Es. apply in_or_app. right. now left.
  - pose proof (lineWidth_pos rh m sp hy Hm Hsp Hhy a). lia.
  - destruct pre as [|x pre]; [now left|right].
    destruct (starts_free A rh softOn m sp hy tol W fs Hmarks k1 j1 S1) as [H0|H0].
    + apply Nat.eqb_eq in H0. exfalso. apply Z2; [discriminate|exact H0].
    + rewrite <- P1, Es, startsWithMark_app in H0 by exact Hne. exact H0.
  - destruct Hrh as [Hr|Hr]; [now left|right]. unfold lastSoft. destruct Ha as (a0 & f & -> & _). rewrite rev_app_distr. cbn [rev app].
    apply Hr. apply (piece_in fs k1 j1). rewrite <- P1, Es. apply in_or_app. left. apply in_or_app. right. now left.
Qed.
End Lines.

(** ** The end of a word *)
Section Words.
Variable punct dashes parts : list rune -> list (list rune).
Variable isMark isDash : list rune -> bool.
Variable breakable : list rune -> bool.
Notation tokenFrags := (tokenFrags punct dashes parts isMark isDash breakable).
Notation paragraph := (paragraph punct dashes parts isMark isDash breakable).
Lemma endWith_snoc2 j l f : endWith j (l ++ [f]) = l ++ [mkFrag (f_text f) (f_mark f) j].
Proof. induction l as [|x l IH]; [reflexivity|]. cbn [app]. rewrite <- IH. destruct l; reflexivity. Qed.
Lemma run_in tokens : Forall (fun t => tokenFrags t <> [] /\ textOf (tokenFrags t) = t) tokens -> forall x c f y, paragraph tokens = x ++ (c ++ [f]) ++ y ->
  Forall (fun g => isSpaced g = false) c -> exists t a b, In t tokens /\ t = a ++ textOf (c ++ [f]) ++ b.
Proof.
  assert (forall j t x z y, textOf (tokenFrags t) = t -> endWith j (tokenFrags t) = x ++ z ++ y -> exists a b, t = a ++ textOf z ++ b) as One.
  { intros j t x z y Ht E. exists (textOf x), (textOf y). rewrite <- Ht. unfold textOf. rewrite <- (endWith_text j (tokenFrags t)), E.
    now rewrite !map_app, !concat_app. }
  induction 1 as [|t ts [Hn Ht] Hts IH]; intros x c f y E Hc; [destruct x as [|? ?]; [destruct c|]; discriminate|].
  destruct ts as [|t2 ts].
  - destruct (One End_ t x (c ++ [f]) y Ht E) as (a & b & H). exists t, a, b. split; [now left|exact H].
  - change (endWith Space (tokenFrags t) ++ paragraph (t2 :: ts) = x ++ (c ++ [f]) ++ y) in E.
    apply app_eq_app in E. destruct E as (l & [[E1 E2]|[E1 E2]]).
    + apply app_eq_app in E2. destruct E2 as (l2 & [[E3 E4]|[E3 E4]]).
      * destruct l2 as [|g l2].
        { rewrite app_nil_r in E3. subst l. destruct (One Space t x (c ++ [f]) []) as (a & b & H); [exact Ht|now rewrite app_nil_r|].
          exists t, a, b. split; [now left|exact H]. }
        destruct l as [|h l _] using rev_ind.
        { cbn [app] in E3. destruct (IH [] c f y) as (t0 & a & b & H1 & H2); [cbn [app]; rewrite E3; exact E4|exact Hc|].
          exists t0, a, b. split; [now right|exact H2]. }
        exfalso. destruct (exists_last Hn) as (i & k & Ek). rewrite Ek, endWith_snoc2, app_assoc in E1. apply app_inj_tail in E1. destruct E1 as [_ E1].
        assert (In h c) as Hin.
        { assert (exists l3, h :: g :: l2 = h :: l3 ++ [f]) as (l3 & E5).
          { destruct (exists_last (l := g :: l2)) as (l3 & q & Eq); [discriminate|]. rewrite Eq in E3. rewrite <- !app_assoc in E3.
            change (l ++ [h] ++ l3 ++ [q]) with (l ++ (h :: l3) ++ [q]) in E3. rewrite app_assoc in E3. apply app_inj_tail in E3.
            destruct E3 as [_ <-]. exists l3. now rewrite Eq. }
          injection E5 as E5. rewrite E5 in E3. rewrite <- app_assoc in E3. change (c ++ [f] = l ++ (h :: l3) ++ [f]) in E3.
          rewrite app_assoc in E3. apply app_inj_tail in E3. destruct E3 as [-> _]. apply in_or_app. right. now left. }
        rewrite Forall_forall in Hc. specialize (Hc h Hin). rewrite <- E1 in Hc. discriminate.
      * destruct (One Space t x (c ++ [f]) l2) as (a & b & H); [exact Ht|now rewrite E1, E3|]. exists t, a, b. split; [now left|exact H].
    + destruct (IH l c f y E2 Hc) as (t0 & a & b & H1 & H2). exists t0, a, b. split; [now right|exact H2].
Qed.
End Words.

(** ** LeftAlignUniform *)
Section Call.
Variables (A : arith) (L : laws A) (u : unicode) (o : lopts A) (m : list rune -> Z) (punct parts : list rune -> list (list rune)).
Variables (lb : breaker A) (tokens : list (list rune)) (spare : nat -> list rune) (maxWidth : F A) (W : Z) (ord : nat -> nat -> list fclass).
Hypothesis C : plainCall A L u o m punct parts lb tokens spare maxWidth W ord.
Notation rh := (l_renderHyphens o).
Notation softOn := (negb (feq A (l_hyphenPenalty o) (fZ A 10000))).
Notation frs := (fragsOf u o punct parts tokens).
Notation tol := (k_tolerance (l_search o)).
Notation lineWidth := (lineWidth rh m (m [32]) (hyphenW o m)).
Let m_pos : forall t, 0 <= m t.
Proof. intros t. exact (proj1 (se_measure _ _ _ _ _ _ _ (pc_settings _ _ _ _ _ _ _ _ _ _ _ _ _ C) t)). Qed.
Let hy_pos : 0 <= hyphenW o m.
Proof. unfold hyphenW. destruct (l_wordBreak o); [apply m_pos|lia]. Qed.
Variables (ls : list (list rune)) (lb' : breaker A).
Hypothesis E : leftAlignUniform A u ord spare lb tokens maxWidth = Ret (Some ls, lb').
Hypothesis Hmarks : marksGlued softOn frs.

Lemma align_filled_greedy : exists segs, SpecGreedy.greedy rh softOn m (m [32]) (hyphenW o m) A tol W frs 0 segs /\ ls = map (lineText rh) segs.
Proof. apply (call_greedy A L u o m punct parts lb tokens spare maxWidth W ord C ord ls lb'); [apply C|exact E]. Qed.
Theorem align_filled : fle A (fZ A 0) tol = true ->
  exists segs, ls = map (lineText rh) segs /\ layout softOn frs segs /\
  forall pre s1 s2 post a c, segs = pre ++ s1 :: s2 :: post -> post <> [] -> s1 = a ++ c -> c <> [] ->
    a = [] \/ (exists a0 f, a = a0 ++ [f] /\ cuttable softOn f = true) /\
      lineOk rh m (m [32]) (hyphenW o m) A tol W (match pre with [] => true | _ => false end) false a = true ->
    W < lineWidth (c ++ s2) \/ W - lineWidth (c ++ s2) <= 6.
Proof.
  intros Ht. destruct align_filled_greedy as (segs & G & El). exists segs. split; [exact El|]. split; [exact (greedy_layout _ _ _ _ _ _ _ _ _ _ _ G)|].
  intros pre s1 s2 post a c. apply (filled A L rh softOn m (m [32]) (hyphenW o m) tol W frs m_pos (m_pos _) hy_pos
    (proj2 (pc_bounds _ _ _ _ _ _ _ _ _ _ _ _ _ C)) (tol_no _ _ _ _ _ _ _ _ _ _ _ _ _ C) Ht Hmarks segs pre s1 s2 post a c G).
Qed.

(** the default tolerance *)
Hypothesis Hdef : tol = fTolerance A.
Hypothesis Hnarrow : W <= 51.
Hypothesis Hrh : rh = true \/ l_wordBreak o = false.
Hypothesis Hthin : rh = true -> Forall (fun f => hyphenW o m <= m (f_text f)) frs.
Theorem align_filled_default : exists segs, ls = map (lineText rh) segs /\ layout softOn frs segs /\
  forall pre s1 s2 post a c, segs = pre ++ s1 :: s2 :: post -> post <> [] -> s1 = a ++ c -> c <> [] ->
    a = [] \/ (exists a0 f, a = a0 ++ [f] /\ cuttable softOn f = true) -> W < lineWidth (c ++ s2) \/ W - lineWidth (c ++ s2) <= 6.
Proof.
  destruct align_filled_greedy as (segs & G & El). exists segs. split; [exact El|]. split; [exact (greedy_layout _ _ _ _ _ _ _ _ _ _ _ G)|].
  intros pre s1 s2 post a c. pose proof (pc_bounds _ _ _ _ _ _ _ _ _ _ _ _ _ C) as HW.
  apply (filled_default A L rh softOn m (m [32]) (hyphenW o m) tol W frs m_pos (m_pos _) hy_pos (proj2 HW) (tol_no _ _ _ _ _ _ _ _ _ _ _ _ _ C)); try assumption.
  - rewrite Hdef. apply (tol_zero A L).
  - lia.
  - destruct Hrh as [H|H]; [now left|right]. pose proof (frs_nosoft A u o punct parts tokens H) as N. now rewrite Forall_forall in N.
  - intros H. specialize (Hthin H). now rewrite Forall_forall in Hthin.
Qed.

(** words *)
Hypothesis Hadd : forall a b, m (a ++ b) = m a + m b.
Variable M : Z.
Hypothesis HM : Forall (fun t => m t <= M) tokens.
Let m_nil : m [] = 0.
Proof. pose proof (Hadd [] []) as H. cbn [app] in H. lia. Qed.
Lemma run_width x c f y : frs = x ++ (c ++ [f]) ++ y -> Forall (fun g => isSpaced g = false) c -> m (textOf (c ++ [f])) <= M.
Proof.
  intros Ef Hc. destruct (run_in punct (splitAt isHyphenRune) parts (single (punctSplitFunc u)) (single isHyphenRune)
    (fun w => l_wordBreak o && negb (zlen w <=? 4)) tokens) with (x := x) (c := c) (f := f) (y := y) as (t & a & b & Hin & Et); [|exact Ef|exact Hc|].
  - pose proof (proj2 (pc_nonempty _ _ _ _ _ _ _ _ _ _ _ _ _ C)) as Hne. eapply Forall_impl; [|exact Hne]. intros t Ht.
    pose proof (pc_settings _ _ _ _ _ _ _ _ _ _ _ _ _ C) as S.
    destruct (settings_regular A L u o m punct parts S lb (pc_breaker _ _ _ _ _ _ _ _ _ _ _ _ _ C)) as (R & _ & Eo).
    destruct (tokenFrags_ok A L u lb m _ _ punct parts R t Ht) as [_ H]. unfold breakable in H. rewrite Eo in H.
    replace (l_minHyphenate o) with 4 in H; [split; [intros N; rewrite N in H; now subst t|exact H]|]. symmetry. destruct (se_opts _ _ _ _ _ _ _ S) as (opts & ->). apply options_fixed.
  - rewrite Forall_forall in HM. specialize (HM t Hin). rewrite Et, !Hadd in HM. pose proof (m_pos a). pose proof (m_pos b). lia.
Qed.
(** the last word of a line *)
Lemma last_word s : exists a c, s = a ++ c /\ Forall (fun g => isSpaced g = false) c /\ (a = [] \/ exists a0 g, a = a0 ++ [g] /\ isSpaced g = true).
Proof.
  induction s as [|g s IH] using rev_ind; [exists [], []; split; [reflexivity|split; [constructor|now left]]|].
  destruct (isSpaced g) eqn:Eg; [exists (s ++ [g]), []; split; [now rewrite app_nil_r|split; [constructor|right; eauto]]|].
  destruct IH as (a & c & -> & Hc & Ha). exists a, (c ++ [g]). split; [now rewrite app_assoc|]. split; [|exact Ha].
  apply Forall_app. split; [exact Hc|]. now constructor.
Qed.
Lemma width_run c f s : s <> [] -> Forall (fun g => isSpaced g = false) c -> lineWidth ((c ++ [f]) ++ s) <= m (textOf (c ++ [f])) + m [32] + lineWidth s.
Proof.
  intros Hs. pose proof (m_pos [32]). destruct s as [|h s]; [congruence|]. induction 1 as [|g c Hg _ IH].
  - unfold textOf. cbn [app map concat]. rewrite Hadd, m_nil. change (lineWidth (f :: h :: s)) with (m (f_text f) + (if isSpaced f then m [32] else 0) + lineWidth (h :: s)).
    destruct (isSpaced f); lia.
  - assert (exists q r, (c ++ [f]) ++ h :: s = q :: r) as (q & r & Eq) by (destruct c; cbn; eauto).
    change (lineWidth (((g :: c) ++ [f]) ++ h :: s)) with (lineWidth (g :: (c ++ [f]) ++ h :: s)).
    rewrite Eq in *. change (lineWidth (g :: q :: r)) with (m (f_text g) + (if isSpaced g then m [32] else 0) + lineWidth (q :: r)). rewrite Hg.
    change (textOf ((g :: c) ++ [f])) with (f_text g ++ textOf (c ++ [f])). rewrite Hadd. lia.
Qed.
Theorem align_filled_words pre l post : ls = pre ++ l :: post -> pre <> [] -> post <> [] -> W <= m l + 6 + m [32] + M.
Proof.
  intros El Hpre Hpost. destruct align_filled_default as (segs & Es & Hl & H). pose proof (layout_ne _ _ _ Hl) as [Hne Hcat].
  rewrite Es in El. destruct (map_eq_app _ _ _ _ El) as (p1 & p2 & Ep & Ep1 & Ep2). destruct p2 as [|s2 p2]; [discriminate|]. cbn [map] in Ep2. injection Ep2 as E2 E3.
  destruct p1 as [|s1 p1 _] using rev_ind; [cbn in Ep1; congruence|].
  rewrite <- app_assoc in Ep. cbn [app] in Ep.
  assert (s1 <> [] /\ s2 <> []) as [N1 N2] by (rewrite Forall_forall in Hne; split; apply Hne; rewrite Ep; apply in_or_app; right; [now left|right; now left]).
  assert (lineWidth s2 = m l) as <-.
  { rewrite <- E2. apply (seg_width A u o m punct parts tokens Hadd). intros f Hf. eapply layout_in; [exact Hl| |exact Hf]. rewrite Ep. apply in_or_app. right. right. now left. }
  destruct (exists_last N1) as (s & f & E1). destruct (last_word s) as (a & c & -> & Hc & Ha). rewrite <- app_assoc in E1.
  pose proof (width_run c f s2 N2 Hc) as Hw.
  assert (m (textOf (c ++ [f])) <= M) as HcM.
  { apply (run_width (concat p1 ++ a) c f (concat (s2 :: p2))); [|exact Hc]. rewrite <- Hcat, Ep, concat_app. cbn [concat]. rewrite E1, <- !app_assoc. reflexivity. }
  destruct (H p1 s1 s2 p2 a (c ++ [f]) Ep) as [K|K]; [intros ->; cbn in E3; congruence|exact E1|now destruct c| |lia|lia].
  destruct Ha as [Ha|(a0 & g & Ha & Hg)]; [now left|right]. exists a0, g. split; [exact Ha|]. unfold cuttable.
  unfold isSpaced in Hg. destruct (f_joint g); try discriminate. apply orb_true_r.
Qed.
(** how many lines *)
Theorem align_filled_count : 2 <= zlen ls -> (zlen ls - 2) * (W - 6 - m [32] - M) <= m (joinWith 32 tokens) + (zlen ls - 1) * m [45].
Proof.
  intros H2. pose proof (align_reflow A L u o m punct parts lb tokens spare maxWidth W ord C ls lb' E) as R.
  pose proof (reflow_total m m_pos Hadd _ _ _ R) as [_ T]. pose proof (reflow_size _ _ _ R) as [[S1 _] _]. pose proof (m_pos (joinWith 32 tokens)). pose proof (m_pos [45]).
  pose proof align_filled_words as Hf. destruct ls as [|l0 r]; [unfold zlen in S1; cbn in S1; lia|]. rewrite zlen_cons in *.
  destruct r as [|l1 r]; [change (zlen (@nil (list rune))) with 0 in *; lia|].
  pose proof (total_ge m m_pos Hadd (W - 6 - m [32] - M) (l1 :: r)) as G.
  assert ((zlen (l1 :: r) - 1) * (W - 6 - m [32] - M) <= total m (l1 :: r)) as G'.
  { apply G; [|discriminate]. intros pre l post Ep Hp. specialize (Hf (l0 :: pre) l post). rewrite Ep in Hf. specialize (Hf eq_refl ltac:(discriminate) Hp). lia. }
  change (total m (l0 :: l1 :: r)) with (m l0 + total m (l1 :: r)) in T. pose proof (m_pos l0). lia.
Qed.
End Call.
