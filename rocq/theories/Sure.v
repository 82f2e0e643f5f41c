(** C137: with a tolerance of at most 1/2, the iteration order of the map does not matter. *)
From Coq Require Import Permutation.
From Verif Require Import Base Arith Unicode Split SpecSplit SplitProofs Ansi SpecAnsi AnsiProofs Attr Hyph KP Nodes Render SpecKP SpecGreedy
  KPProofs Frags Para Tokens Align Options Call Settings AlignProofs Fresh Succeed Compare Sub Greedy Fewest Filled Again Rest.
Open Scope Z_scope.

Section Sure.
Variable A : arith.
Variable L : laws A.
Variable rh softOn : bool.
Variable m : list rune -> Z.
Variable sp hy : Z.
Variable tol : F A.
Variable W : Z.
Variable fs : list frag.
Hypothesis Hm : forall t, 0 <= m t.
Hypothesis Hsp : 0 <= sp.
Hypothesis Hhy : 0 <= hy.
Hypothesis HW : W <= 2 ^ 50.
Hypothesis Htol : fle A (fZ A 10000) tol = false.
Notation piece := (SpecGreedy.piece fs).
Notation isLast := (SpecGreedy.isLast fs).
Notation line := (SpecGreedy.line rh softOn m sp hy A tol W fs).
Notation rank := (SpecGreedy.rank rh m sp hy W fs).
Notation chosen := (SpecGreedy.chosen rh softOn m sp hy A tol W fs).
Notation greedy := (SpecGreedy.greedy rh softOn m sp hy A tol W fs).

(** ** One line per end *)
Section One.
Hypothesis One : forall k1 k2 j, chosen k1 j -> chosen k2 j -> k1 = k2.

Lemma chosen_len k j : chosen k j -> length (piece k j) = (S j - k)%nat /\ (k <= j)%nat /\ (j < length fs)%nat.
Proof.
  intros ((_ & Hk & (f & Hf & _) & _) & _). assert (j < length fs)%nat by (apply nth_error_Some; congruence).
  split; [|lia]. unfold SpecGreedy.piece. rewrite skipn_length, firstn_length. lia.
Qed.
Lemma greedy_len k segs : greedy k segs -> (k + length (concat segs) = length fs)%nat /\ segs <> [] /\ Forall (fun s => s <> []) segs.
Proof.
  induction 1 as [k j Hc Hl|k j lines Hc Hl _ (IH & _ & IF)]; destruct (chosen_len k j Hc) as (E & Hk & Hj).
  - unfold SpecGreedy.isLast in Hl. apply Nat.eqb_eq in Hl. cbn [concat]. rewrite app_nil_r, E. split; [lia|]. split; [discriminate|].
    constructor; [|constructor]. intros E0. rewrite E0 in E. cbn [length] in E. lia.
  - cbn [concat]. rewrite app_length, E. split; [lia|]. split; [discriminate|]. constructor; [|exact IF]. intros E0. rewrite E0 in E. cbn [length] in E. lia.
Qed.
Lemma greedy_last k segs : greedy k segs -> exists pre k1 j, segs = pre ++ [piece k1 j] /\ chosen k1 j /\ isLast j = true.
Proof.
  induction 1 as [k j Hc Hl|k j lines Hc Hl _ (pre & k1 & j1 & -> & H1 & H2)].
  - exists [], k, j. auto.
  - exists (piece k j :: pre), k1, j1. auto.
Qed.
Lemma greedy_before k segs : greedy k segs -> forall pre p lines j, segs = pre ++ p :: lines -> greedy (S j) lines ->
  exists k2, chosen k2 j /\ p = piece k2 j.
Proof.
  intros G pre p lines j E Gl.
  pose proof (greedy_after A rh softOn m sp hy tol W fs k segs G pre (p :: lines) E ltac:(discriminate)) as G2.
  inversion G2 as [k2 j2 Hc Hl E1 E2|k2 j2 l2 Hc Hl Hg E1 E2]; subst.
  - destruct (greedy_len _ _ Gl) as (_ & H & _). congruence.
  - exists (k + length (concat pre))%nat. destruct (greedy_len _ _ Gl) as (H1 & _ & _). destruct (greedy_len _ _ Hg) as (H2 & _ & _).
    assert (j2 = j) as -> by lia. auto.
Qed.
Lemma greedy_nested k segs : greedy k segs -> forall k' segs', greedy k' segs' ->
  (exists pre, segs' = pre ++ segs) \/ (exists pre, segs = pre ++ segs').
Proof.
  induction 1 as [k j Hc Hl|k j lines Hc Hl Hg IH]; intros k' segs' G'.
  - destruct (greedy_last k' segs' G') as (pre & k1 & j1 & -> & Hc1 & Hl1). left. exists pre. unfold SpecGreedy.isLast in *.
    apply Nat.eqb_eq in Hl. apply Nat.eqb_eq in Hl1. assert (j1 = j) as -> by lia. now rewrite (One k1 k j Hc1 Hc).
  - destruct (IH k' segs' G') as [[pre E]|[pre E]]; [|right; exists (piece k j :: pre); now rewrite E].
    destruct (exists_last (l := pre ++ [piece k j])) as (_ & _ & _); [now destruct pre|].
    destruct pre as [|x pre] using rev_ind; [right; exists [piece k j]; cbn [app] in *; now rewrite E|]. clear IHpre. left. exists pre.
    rewrite <- app_assoc in E. cbn [app] in E. destruct (greedy_before k' segs' G' pre x lines j E Hg) as (k2 & Hc2 & ->).
    now rewrite E, (One k2 k j Hc2 Hc).
Qed.
Theorem greedy_one segs1 segs2 : greedy 0 segs1 -> greedy 0 segs2 -> segs1 = segs2.
Proof.
  assert (forall a b, greedy 0 a -> greedy 0 b -> forall pre, b = pre ++ a -> b = a) as K.
  { intros a b Ga Gb pre ->. destruct (greedy_len _ _ Ga) as (H1 & _ & _). destruct (greedy_len _ _ Gb) as (H2 & _ & H3).
    rewrite concat_app, app_length in H2. assert (length (concat pre) = 0)%nat as H by lia. destruct pre as [|x pre]; [reflexivity|exfalso].
    inversion H3; subst. destruct x; [congruence|]. cbn in H. lia. }
  intros G1 G2. destruct (greedy_nested 0 segs1 G1 0%nat segs2 G2) as [[pre E]|[pre E]]; [symmetry|]; eapply K; eassumption.
Qed.
End One.

(** ** Lines that are stretched by half at most *)
Hypothesis Hhalf : fle A tol (fHalf A) = true.
Lemma tight_half k j : line k j -> SpecGreedy.tightness rh m sp hy W fs k j = 1.
Proof.
  intros (_ & _ & _ & Hf). unfold SpecGreedy.tightness, SpecGreedy.slack, SpecGreedy.stretch. unfold SpecGreedy.fits in Hf.
  pose proof (lineWidth_nonneg rh m sp hy Hm Hsp Hhy (piece k j)) as H0.
  unfold lineOk, within, lineRatio in Hf. apply andb_prop in Hf. destruct Hf as [_ Hf].
  set (w := lineWidth rh m sp hy (piece k j)) in *.
  assert (lineStretch rh (k =? 0)%nat (isLast j) (piece k j) <= 10000) as Hst.
  { generalize (isLast j). intros e. unfold lineStretch. destruct e; [|destruct (lastSoft _ && _)]; destruct (negb _ && _); lia. }
  set (st := lineStretch rh (k =? 0)%nat (isLast j) (piece k j)) in *.
  destruct (Z.ltb_spec w W) as [H1|H1].
  - destruct (Z.ltb_spec 0 st) as [H2|H2]; [|congruence].
    pose proof (le_trans A L _ _ _ Hf Hhalf) as H. destruct (quo_class A L (W - w) st) as (_ & Q & _); [lia|lia|].
    rewrite H in Q. rewrite <- Q, orb_true_r. reflexivity.
  - destruct (Z.ltb_spec W w) as [H2|H2]; [congruence|]. destruct (Z.eqb_spec (W - w) 0); [reflexivity|lia].
Qed.
Lemma chosen_half k1 k2 j : chosen k1 j -> chosen k2 j -> k1 = k2.
Proof.
  intros (L1 & M1 & Z1) (L2 & M2 & Z2). assert (rank k1 j = rank k2 j) as E.
  { assert (forall k, line k j -> rank k j = 0 \/ rank k j = 1) as R.
    { intros k Hk. unfold SpecGreedy.rank. rewrite (tight_half k j Hk). destruct (_ && _); auto. }
    destruct (R k1 L1) as [E1|E1]; [rewrite E1; symmetry; apply Z2; eauto|].
    destruct (R k2 L2) as [E2|E2]; [rewrite E2; apply Z1; eauto|congruence]. }
  apply Nat.le_antisymm; [apply M1; [exact L2|now symmetry]|apply M2; [exact L1|exact E]].
Qed.
Theorem greedy_half segs1 segs2 : greedy 0 segs1 -> greedy 0 segs2 -> segs1 = segs2.
Proof. apply greedy_one. exact chosen_half. Qed.
End Sure.

(** ** LeftAlignUniform *)
Theorem align_half A L u o m punct parts tokens maxWidth W lb1 spare1 ord1 lb2 spare2 ord2 :
  plainCall A L u o m punct parts lb1 tokens spare1 maxWidth W ord1 ->
  plainCall A L u o m punct parts lb2 tokens spare2 maxWidth W ord2 ->
  fle A (k_tolerance (l_search o)) (fHalf A) = true ->
  exists res lb1' lb2', leftAlignUniform A u ord1 spare1 lb1 tokens maxWidth = Ret (res, lb1') /\
    leftAlignUniform A u ord2 spare2 lb2 tokens maxWidth = Ret (res, lb2').
Proof.
  intros C1 C2 Hh. destruct (AlignProofs.align_same A L u o m punct parts tokens maxWidth W lb1 spare1 ord1 lb2 spare2 ord2 C1 C2) as (r1 & b1 & r2 & b2 & E1 & E2 & H).
  exists r1, b1, b2. split; [exact E1|]. destruct r1 as [l1|], r2 as [l2|]; try contradiction; [|exact E2].
  replace l1 with l2; [exact E2|]. symmetry.
  refine (proj2 (determined_iff A L u o m punct parts tokens maxWidth W lb1 spare1 ord1 C1) _ _ _ _ _ _ _ _ _ _ _ C1 C2 E1 E2).
  intros s1 s2 G1 G2. f_equal. pose proof (pc_bounds _ _ _ _ _ _ _ _ _ _ _ _ _ C1) as HW.
  assert (forall t, 0 <= m t) as Hm by (intros t; exact (proj1 (se_measure _ _ _ _ _ _ _ (pc_settings _ _ _ _ _ _ _ _ _ _ _ _ _ C1) t))).
  assert (0 <= hyphenW o m) as Hhy by (unfold hyphenW; destruct (l_wordBreak o); [apply Hm|lia]).
  exact (greedy_half A L _ _ m (m [32]) (hyphenW o m) _ W _ Hm (Hm _) Hhy (proj2 HW) (tol_no _ _ _ _ _ _ _ _ _ _ _ _ _ C1) Hh s1 s2 G1 G2).
Qed.
