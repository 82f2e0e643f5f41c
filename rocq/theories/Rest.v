(** C125: the lines after a line are those of the rest of the text. *)
From Coq Require Import Permutation.
From Verif Require Import Base Arith Unicode Split SpecSplit SplitProofs Ansi SpecAnsi AnsiProofs Attr Hyph KP Nodes Render SpecKP SpecGreedy
  KPProofs Frags Para Tokens Align Options Call Settings AlignProofs Fresh Succeed Compare Sub Greedy Fewest Filled Again.
Open Scope Z_scope.

Section Lines.
Variable A : arith.
Variable rh softOn : bool.
Variable m : list rune -> Z.
Variable sp hy : Z.
Variable tol : F A.
Variable W : Z.
Variables fa fb : list frag.
Hypothesis Hb : startsWithMark fb = false.
Notation s := (length fa).
Notation fs := (fa ++ fb).
Notation piece := SpecGreedy.piece.
Notation isLast := SpecGreedy.isLast.
Notation endsAt := (SpecGreedy.endsAt softOn).
Notation fits := (SpecGreedy.fits rh m sp hy A tol W).
Notation starts := (SpecGreedy.starts rh softOn m sp hy A tol W).
Notation line := (SpecGreedy.line rh softOn m sp hy A tol W).
Notation rank := (SpecGreedy.rank rh m sp hy W).
Notation chosen := (SpecGreedy.chosen rh softOn m sp hy A tol W).
Notation greedy := (SpecGreedy.greedy rh softOn m sp hy A tol W).

Lemma piece_shift k j : piece fs (s + k) (s + j) = piece fb k j.
Proof.
  unfold SpecGreedy.piece. replace (S (s + j)) with (s + S j)%nat by lia. rewrite firstn_app_2, skipn_app.
  rewrite (skipn_all2 fa) by lia. replace (s + k - s)%nat with k by lia. reflexivity.
Qed.
Lemma isLast_shift j : isLast fs (s + j) = isLast fb j.
Proof. unfold SpecGreedy.isLast. rewrite app_length. destruct (Nat.eqb_spec (S (s + j)) (s + length fb)), (Nat.eqb_spec (S j) (length fb)); try reflexivity; lia. Qed.
Lemma nth_shift j : nth_error fs (s + j) = nth_error fb j.
Proof. rewrite nth_error_app2 by lia. f_equal. lia. Qed.
Lemma endsAt_shift j : endsAt fs (s + j) <-> endsAt fb j.
Proof. unfold SpecGreedy.endsAt. rewrite isLast_shift, nth_shift. reflexivity. Qed.
Lemma stretch_shift k j : (k <= j)%nat -> lineStretch rh (s + k =? 0)%nat (isLast fb j) (piece fb k j) = lineStretch rh (k =? 0)%nat (isLast fb j) (piece fb k j).
Proof.
  intros Hk. destruct (Nat.eqb_spec k 0) as [->|H].
  - assert (startsWithMark (piece fb 0 j) = false) as E.
    { unfold SpecGreedy.piece. cbn [skipn]. destruct fb as [|f l]; [reflexivity|exact Hb]. }
    unfold lineStretch. rewrite E, !andb_false_r. reflexivity.
  - destruct (Nat.eqb_spec (s + k) 0); [lia|reflexivity].
Qed.
Lemma fits_shift k j : (k <= j)%nat -> fits fs (s + k) (s + j) = fits fb k j.
Proof. intros Hk. unfold SpecGreedy.fits, lineOk. rewrite piece_shift, isLast_shift, stretch_shift by exact Hk. reflexivity. Qed.
Lemma rank_shift k j : (k <= j)%nat -> rank fs (s + k) (s + j) = rank fb k j.
Proof.
  intros Hk. unfold SpecGreedy.rank, SpecGreedy.afterWord, SpecGreedy.tightness, SpecGreedy.slack, SpecGreedy.stretch.
  rewrite nth_shift, piece_shift, isLast_shift, stretch_shift by exact Hk. reflexivity.
Qed.
Hypothesis Hs : starts fs s.
Lemma starts_shift k : starts fb k -> starts fs (s + k).
Proof.
  induction 1 as [|k j _ IH Hk He Hl Hf]; [rewrite Nat.add_0_r; exact Hs|]. rewrite Nat.add_succ_r. apply (st_next _ _ _ _ _ _ _ _ _ (s + k)).
  - exact IH.
  - lia.
  - now apply endsAt_shift.
  - now rewrite isLast_shift.
  - now rewrite fits_shift.
Qed.
Lemma line_shift k j : line fb k j -> line fs (s + k) (s + j).
Proof.
  intros (H1 & H2 & H3 & H4). split; [now apply starts_shift|]. split; [lia|]. split; [now apply endsAt_shift|]. now rewrite fits_shift.
Qed.
Lemma chosen_shift k j : starts fb k -> chosen fs (s + k) (s + j) -> chosen fb k j.
Proof.
  intros H1 ((_ & H2 & H3 & H4) & H5 & H6). assert (k <= j)%nat as Hk by lia.
  split; [split; [exact H1|split; [exact Hk|split; [now apply endsAt_shift|now rewrite <- fits_shift]]]|]. split.
  - intros k' Hl Hr. pose proof Hl as (_ & Hk' & _). enough (s + k <= s + k')%nat by lia. apply H5; [now apply line_shift|]. now rewrite !rank_shift.
  - intros (k' & Hl & Hr). pose proof Hl as (_ & Hk' & _). rewrite <- rank_shift by exact Hk. apply H6. exists (s + k')%nat. split; [now apply line_shift|].
    now rewrite rank_shift.
Qed.
Lemma greedy_shift k0 segs : greedy fs k0 segs -> forall k, k0 = (s + k)%nat -> starts fb k -> greedy fb k segs.
Proof.
  induction 1 as [k0 j Hc Hl|k0 j lines Hc Hl Hg IH]; intros k -> Hst.
  - pose proof Hc as ((_ & Hk & _) & _). replace j with (s + (j - s))%nat in * by lia. rewrite isLast_shift in Hl. rewrite piece_shift.
    apply gr_last; [now apply chosen_shift|exact Hl].
  - pose proof Hc as ((_ & Hk & _) & _). replace j with (s + (j - s))%nat in * by lia. rewrite isLast_shift in Hl. rewrite piece_shift.
    pose proof (chosen_shift _ _ Hst Hc) as Hc'. apply gr_cut; [exact Hc'|exact Hl|]. apply IH; [lia|].
    destruct Hc' as ((_ & H2 & H3 & H4) & _). now apply (st_next _ _ _ _ _ _ _ _ _ k).
Qed.
End Lines.

Section Split.
Variable A : arith.
Variable rh softOn : bool.
Variable m : list rune -> Z.
Variable sp hy : Z.
Variable tol : F A.
Variable W : Z.
Variable fs : list frag.
Notation starts := (SpecGreedy.starts rh softOn m sp hy A tol W).
Notation greedy := (SpecGreedy.greedy rh softOn m sp hy A tol W).
(** the lines after some of them *)
Lemma greedy_after k segs : greedy fs k segs -> forall pre post, segs = pre ++ post -> post <> [] -> greedy fs (k + length (concat pre)) post.
Proof.
  induction 1 as [k j Hc Hl|k j lines Hc Hl Hg IH]; intros pre post E Hp.
  - destruct pre as [|x pre].
    + cbn in *. subst post. rewrite Nat.add_0_r. now apply gr_last.
    + cbn [app] in E. injection E as _ E. symmetry in E. apply app_eq_nil in E. tauto.
  - destruct pre as [|x pre].
    + cbn in *. subst post. rewrite Nat.add_0_r. now apply gr_cut.
    + cbn [app] in E. injection E as <- E. specialize (IH pre post E Hp). cbn [concat]. rewrite app_length.
      pose proof Hc as ((_ & Hk & (f & Hf & _) & _) & _).
      assert (j < length fs)%nat by (apply nth_error_Some; congruence).
      assert (length (SpecGreedy.piece fs k j) = (S j - k)%nat) as -> by (unfold SpecGreedy.piece; rewrite skipn_length, firstn_length; lia).
      replace (k + (S j - k + length (concat pre)))%nat with (S j + length (concat pre))%nat by lia. exact IH.
Qed.
Lemma greedy_starts k segs : greedy fs k segs -> starts fs k.
Proof. destruct 1 as [k j Hc _|k j lines Hc _ _]; apply Hc. Qed.
End Split.

Theorem rest_greedy A rh softOn m sp hy tol W fa fb segs pre post : startsWithMark fb = false ->
  SpecGreedy.greedy rh softOn m sp hy A tol W (fa ++ fb) 0 segs -> segs = pre ++ post -> post <> [] -> length (concat pre) = length fa ->
  SpecGreedy.greedy rh softOn m sp hy A tol W fb 0 post.
Proof.
  intros Hb Hg E Hp Hl. pose proof (greedy_after _ _ _ _ _ _ _ _ _ _ _ Hg pre post E Hp) as G. rewrite Hl in G. cbn [Nat.add] in G.
  apply (greedy_shift A rh softOn m sp hy tol W fa fb Hb (greedy_starts _ _ _ _ _ _ _ _ _ _ _ G) (length fa) post G 0%nat); [lia|apply st_first].
Qed.

(** ** LeftAlignUniform *)
Theorem align_rest A L u o m punct parts lb tokens spare maxWidth W ord :
  plainCall A L u o m punct parts lb tokens spare maxWidth W ord ->
  forall ls lb', leftAlignUniform A u ord spare lb tokens maxWidth = Ret (Some ls, lb') ->
  exists segs, ls = map (lineText (l_renderHyphens o)) segs /\
  layout (negb (feq A (l_hyphenPenalty o) (fZ A 10000))) (fragsOf u o punct parts tokens) segs /\
  forall pre post t1 t2, segs = pre ++ post -> tokens = t1 ++ t2 -> t1 <> [] -> t2 <> [] -> length (concat post) = length (fragsOf u o punct parts t2) ->
    startsWithMark (fragsOf u o punct parts t2) = false ->
    forall lb2 spare2 ord2, plainCall A L u o m punct parts lb2 t2 spare2 maxWidth W ord2 ->
    exists ord' lb2', (forall i k, Permutation (ord' i k) [C0; C1; C2; C3]) /\
      leftAlignUniform A u ord' spare2 lb2 t2 maxWidth = Ret (Some (map (lineText (l_renderHyphens o)) post), lb2').
Proof.
  intros C ls lb' E. destruct (align_filled_greedy A L u o m punct parts lb tokens spare maxWidth W ord C ls lb' E) as (segs & G & El).
  exists segs. split; [exact El|]. pose proof (greedy_layout _ _ _ _ _ _ _ _ _ _ _ G) as Hlay. cbn [skipn] in Hlay. split; [exact Hlay|].
  intros pre post t1 t2 Es Et H1 H2 Hlen Hst lb2 spare2 ord2 C2. apply (greedy_exact A L u o m punct parts lb2 t2 spare2 maxWidth W ord2 C2).
  exists post. split; [|reflexivity].
  pose proof (pc_nonempty _ _ _ _ _ _ _ _ _ _ _ _ _ C) as [_ Hne]. pose proof (pc_tokens _ _ _ _ _ _ _ _ _ _ _ _ _ C) as Hpl.
  assert (fragsOf u o punct parts tokens = endWith Space (fragsOf u o punct parts t1) ++ fragsOf u o punct parts t2) as Ef.
  { rewrite Et in Hpl, Hne |- *. apply (frags_app A L u o m punct parts lb t1 t2 (fun _ => [])); [apply C|apply C| |exact H1|exact H2|].
    - eapply plain_sub; [exact Hpl|]. intros x Hx. apply in_or_app. now left.
    - apply Forall_app in Hne. apply Hne. }
  rewrite Ef in G, Hlay. destruct (layout_ne _ _ _ Hlay) as [_ Hcat].
  assert (post <> []) as Hp.
  { intros ->. cbn in Hlen. destruct (shape _ _ _ _ _ _ _ _ _ _ _ _ _ C2) as (ini & f & E2 & _). rewrite E2, app_length in Hlen. cbn in Hlen. lia. }
  apply (rest_greedy A _ _ _ _ _ _ _ (endWith Space (fragsOf u o punct parts t1)) _ segs pre post Hst G Es Hp).
  apply (f_equal (@length frag)) in Hcat. rewrite Es, concat_app, !app_length in Hcat. lia.
Qed.
(** Lines made of whole tokens *)
Lemma whole_mark punct dashes parts isMark isDash breakable tokens :
  Forall (fun t => tokenFrags punct dashes parts isMark isDash breakable t = [mkFrag t false Glued]) tokens ->
  startsWithMark (paragraph punct dashes parts isMark isDash breakable tokens) = false.
Proof. intros [|t ts Ht Hts]; [reflexivity|]. destruct ts as [|t2 ts]; cbn [paragraph]; rewrite Ht; reflexivity. Qed.
Theorem align_rest_words A L u o m punct parts lb tokens spare maxWidth W ord :
  plainCall A L u o m punct parts lb tokens spare maxWidth W ord -> l_punctuator o = defaultPunctuator u ->
  Forall (fun t => Forall (fun r => punctSplitFunc u r = false) t /\ (l_wordBreak o = true -> zlen t <= 4)) tokens ->
  forall ls lb', leftAlignUniform A u ord spare lb tokens maxWidth = Ret (Some ls, lb') ->
  exists gs, concat gs = tokens /\ ls = map (joinWith 32) gs /\
  forall g1 g2, gs = g1 ++ g2 -> g2 <> [] ->
    forall lb2 spare2 ord2, plainCall A L u o m punct parts lb2 (concat g2) spare2 maxWidth W ord2 ->
    exists ord' lb2', (forall i k, Permutation (ord' i k) [C0; C1; C2; C3]) /\
      leftAlignUniform A u ord' spare2 lb2 (concat g2) maxWidth = Ret (Some (map (joinWith 32) g2), lb2').
Proof.
  intros C Hpu Ht ls lb' E. destruct (align_filled_greedy A L u o m punct parts lb tokens spare maxWidth W ord C ls lb' E) as (segs & G & El).
  pose proof (greedy_layout _ _ _ _ _ _ _ _ _ _ _ G) as Hl. cbn [skipn] in Hl. destruct (layout_ne _ _ _ Hl) as [_ Hc].
  pose proof (proj2 (pc_nonempty _ _ _ _ _ _ _ _ _ _ _ _ _ C)) as Hn.
  set (tf := tokenFrags punct (splitAt isHyphenRune) parts (single (punctSplitFunc u)) (single isHyphenRune) (fun w => l_wordBreak o && negb (zlen w <=? 4))).
  assert (Forall (fun t => tf t = [mkFrag t false Glued]) tokens) as Hw.
  { rewrite Forall_forall in *. intros t Hin. destruct (Ht t Hin) as [H1 H2]. unfold tf, tokenFrags.
    rewrite (punct_default A L u o m punct parts (pc_settings _ _ _ _ _ _ _ _ _ _ _ _ _ C) Hpu t (Hn t Hin)), (splitAt_none _ t (Hn t Hin) H1).
    cbn [flat_map]. rewrite app_nil_r. unfold pieceFrags. assert (single (punctSplitFunc u) t = false) as ->.
    { unfold single. destruct t as [|c [|d t]]; [reflexivity| |reflexivity]. now inversion H1. }
    destruct (l_wordBreak o); [|reflexivity]. specialize (H2 eq_refl). destruct (Z.leb_spec (zlen t) 4); [reflexivity|lia]. }
  assert (forall x y, spacedButLast (concat (x ++ y)) -> map (joinWith 32) (map (map f_text) y) = map (lineText (l_renderHyphens o)) y) as Htext.
  { intros x y H. rewrite concat_app in H. apply spaced_app in H. destruct H as [_ H]. rewrite map_map. clear -H. induction y as [|s y IH]; [reflexivity|].
    cbn [concat map] in *. apply spaced_app in H. destruct H as [H1 H3]. rewrite (IH H3), <- (spaced_words (l_renderHyphens o) s H1), lineWords_text. reflexivity. }
  destruct (whole_frags punct (splitAt isHyphenRune) parts (single (punctSplitFunc u)) (single isHyphenRune) (fun w => l_wordBreak o && negb (zlen w <=? 4)) tokens Hw) as [H1 H2].
  fold (fragsOf u o punct parts tokens) in H1, H2. rewrite <- Hc in H1. rewrite <- Hc in H2.
  exists (map (map f_text) segs). split; [now rewrite concat_map in H2|]. split; [rewrite (Htext [] segs H1); exact El|].
  intros g1 g2 Eg Hg2 lb2 spare2 ord2 C2. destruct (map_eq_app _ _ _ _ Eg) as (pre & post & Es & E1 & E2). subst g1 g2.
  rewrite Es in H1. rewrite (Htext pre post H1). apply (greedy_exact A L u o m punct parts lb2 _ spare2 maxWidth W ord2 C2). exists post. split; [|reflexivity].
  assert (post <> []) as Hp by (intros ->; cbn in Hg2; congruence).
  rewrite Es in H2. rewrite concat_app, map_app in H2. rewrite (concat_map f_text pre), (concat_map f_text post) in H2.
  set (t1 := concat (map (map f_text) pre)) in *. set (t2 := concat (map (map f_text) post)) in *.
  destruct (whole_frags punct (splitAt isHyphenRune) parts (single (punctSplitFunc u)) (single isHyphenRune) (fun w => l_wordBreak o && negb (zlen w <=? 4)) t2) as [_ L2].
  { rewrite <- H2 in Hw. now apply Forall_app in Hw. }
  assert (length (concat pre) = length t1) as Lp by (unfold t1; rewrite <- concat_map, map_length; reflexivity).
  assert (t1 = [] \/ t1 <> []) as [Et1|Et1] by (destruct t1; [now left|right; discriminate]).
  - assert (concat pre = []) as Z by (rewrite Et1 in Lp; now destruct (concat pre)). rewrite Et1 in H2. cbn [app] in H2.
    pose proof (greedy_after _ _ _ _ _ _ _ _ _ _ _ G pre post Es Hp) as G'. rewrite Z in G'. cbn [length Nat.add] in G'. rewrite H2. exact G'.
  - assert (fragsOf u o punct parts tokens = endWith Space (fragsOf u o punct parts t1) ++ fragsOf u o punct parts t2) as Ef.
    { pose proof (pc_tokens _ _ _ _ _ _ _ _ _ _ _ _ _ C) as Hpl. rewrite <- H2 in Hpl, Hn |- *.
      apply (frags_app A L u o m punct parts lb t1 t2 (fun _ => [])); [apply C|apply C| |exact Et1|exact (proj1 (pc_nonempty _ _ _ _ _ _ _ _ _ _ _ _ _ C2))|].
      - eapply plain_sub; [exact Hpl|]. intros y Hy. apply in_or_app. now left.
      - apply Forall_app in Hn. apply Hn. }
    rewrite Ef in G, Hc.
    apply (rest_greedy A _ _ _ _ _ _ _ (endWith Space (fragsOf u o punct parts t1)) _ segs pre post); [|exact G|exact Es|exact Hp|].
    + apply whole_mark. rewrite <- H2 in Hw. now apply Forall_app in Hw.
    + apply (f_equal (@length frag)) in Hc. rewrite Es, concat_app, !app_length in Hc.
      assert (length (concat post) = length (fragsOf u o punct parts t2)).
      { apply (f_equal (@length (list rune))) in L2. rewrite map_length in L2. fold (fragsOf u o punct parts t2) in L2. rewrite L2.
        unfold t2. rewrite <- concat_map, map_length. reflexivity. }
      lia.
Qed.
