(** Hyphenators that cut words at more places. *)
From Coq Require Import Permutation.
From Verif Require Import Base Arith Unicode Split SpecSplit SplitProofs SpecAnsi Hyph HyphProofs KP Nodes Render SpecKP SpecGreedy Tokens Align Options Call Settings AlignProofs Fresh Succeed
  Compare Words Fewest Counts Least Minima.
Open Scope Z_scope.

(** [splits f gs]: gs is f cut at places where a word can be hyphenated *)
Definition splits (f : frag) (gs : list frag) : Prop :=
  exists ini g, gs = ini ++ [g] /\ f_joint g = f_joint f /\ f_mark g = f_mark f /\ Forall (fun x => f_joint x = Soft /\ f_mark x = false) ini /\
    (ini <> [] -> f_mark f = false) /\ concat (map f_text gs) = f_text f.
Inductive finer : list frag -> list frag -> Prop :=
| fi_nil : finer [] []
| fi_cons : forall f fs gs gs', splits f gs -> finer fs gs' -> finer (f :: fs) (gs ++ gs').
Lemma splits_self f : splits f [f].
Proof. exists [], f. repeat split; [constructor|congruence|cbn; apply app_nil_r]. Qed.
Lemma finer_app a b a' b' : finer a a' -> finer b b' -> finer (a ++ b) (a' ++ b').
Proof. induction 1 as [|f fs gs gs' H1 H2 IH]; intros H; [exact H|]. cbn [app]. rewrite <- app_assoc. constructor; [exact H1|now apply IH]. Qed.
Lemma finer_one f gs : splits f gs -> finer [f] gs.
Proof. intros H. rewrite <- (app_nil_r gs). constructor; [exact H|constructor]. Qed.
Lemma finer_self fs : finer fs fs.
Proof. induction fs as [|f fs IH]; [constructor|]. apply (fi_cons f fs [f] fs); [apply splits_self|exact IH]. Qed.
Lemma finer_cut a : forall b c, finer (a ++ b) c -> exists a' b', c = a' ++ b' /\ finer a a' /\ finer b b'.
Proof.
  induction a as [|f a IH]; intros b c H; [exists [], c; repeat split; [constructor|exact H]|]. cbn [app] in H. inversion H as [|? ? gs gs' H1 H2]; subst.
  destruct (IH b gs' H2) as (a' & b' & -> & G1 & G2). exists (gs ++ a'), b'. rewrite <- app_assoc. repeat split; [now constructor|exact G2].
Qed.
Lemma finer_single f gs : finer [f] gs -> splits f gs.
Proof. intros H. inversion H as [|? ? g g' H1 H2]; subst. inversion H2; subst. now rewrite app_nil_r. Qed.
Lemma splits_joint f gs j : splits f gs -> exists ini g, gs = ini ++ [g] /\
  splits (mkFrag (f_text f) (f_mark f) j) (ini ++ [mkFrag (f_text g) (f_mark g) j]).
Proof.
  intros (ini & g & -> & H1 & H2 & H3 & H4 & H5). exists ini, g. split; [reflexivity|]. exists ini, (mkFrag (f_text g) (f_mark g) j).
  repeat split; try assumption. rewrite map_app in *. exact H5.
Qed.
Lemma finer_end j fs gs : finer fs gs -> finer (endWith j fs) (endWith j gs).
Proof.
  intros H. destruct fs as [|f fs _] using rev_ind; [inversion H; constructor|]. apply finer_cut in H as (a & b & -> & H1 & H2).
  apply finer_single in H2. destruct (splits_joint _ _ j H2) as (ini & g & -> & H3). rewrite app_assoc, !endWith_snoc, <- app_assoc.
  apply finer_app; [exact H1|]. now apply finer_one.
Qed.

(** ** Lines *)
Lemma finer_ne fs gs : finer fs gs -> fs <> [] -> gs <> [].
Proof. intros H Hn. inversion H as [|f fs' g g' (ini & x & -> & _) _]; subst; [congruence|]. destruct ini; discriminate. Qed.
Lemma splits_text f gs : splits f gs -> paraText gs = fragText f.
Proof.
  intros (ini & g & -> & H1 & _ & H3 & _ & H5). rewrite paraText_app, paraText_unspaced.
  - rewrite map_app, concat_app in H5. cbn [map concat] in H5. rewrite app_nil_r in H5. unfold paraText, fragText. cbn [flat_map]. rewrite app_nil_r, app_assoc.
    unfold isSpaced. rewrite H1. f_equal. rewrite <- H5. unfold textOf. reflexivity.
  - eapply Forall_impl; [|exact H3]. intros x [Hx _]. unfold isSpaced. now rewrite Hx.
Qed.
Lemma finer_text fs gs : finer fs gs -> paraText gs = paraText fs.
Proof. induction 1 as [|f fs gs gs' H _ IH]; [reflexivity|]. rewrite paraText_app, IH, (splits_text _ _ H). reflexivity. Qed.
Lemma finer_line rh fs gs : finer fs gs -> lineText rh gs = lineText rh fs /\ lastSoft gs = lastSoft fs /\ startsWithMark gs = startsWithMark fs.
Proof.
  intros H. split; [|split].
  - destruct fs as [|f fs _] using rev_ind; [inversion H; reflexivity|]. apply finer_cut in H as (a & b & -> & H1 & H2).
    apply finer_single in H2. destruct H2 as (ini & g & -> & G1 & _ & G3 & _ & G5). rewrite app_assoc, !lineText_snoc, paraText_app, (finer_text _ _ H1), <- app_assoc. f_equal.
    rewrite paraText_unspaced by (eapply Forall_impl; [|exact G3]; intros x [Hx _]; unfold isSpaced; now rewrite Hx).
    rewrite app_assoc. unfold isSoft. rewrite G1. f_equal. rewrite map_app, concat_app in G5. cbn [map concat] in G5. rewrite app_nil_r in G5. exact G5.
  - destruct fs as [|f fs _] using rev_ind; [inversion H; reflexivity|]. apply finer_cut in H as (a & b & -> & H1 & H2).
    apply finer_single in H2. destruct H2 as (ini & g & -> & G1 & _). unfold lastSoft. rewrite !rev_app_distr. cbn. unfold isSoft. now rewrite G1.
  - inversion H as [|f fs' g g' (ini & x & -> & G1 & G2 & G3 & G4 & _) _]; subst; [reflexivity|]. destruct ini as [|y ini]; [exact G2|].
    cbn [app startsWithMark]. inversion G3 as [|? ? [_ Hy] _]; subst. rewrite Hy. symmetry. apply G4. discriminate.
Qed.
Lemma finer_layout softOn fs segs : layout softOn fs segs -> forall gs, finer fs gs -> exists segs2, layout softOn gs segs2 /\ Forall2 finer segs segs2.
Proof.
  induction 1 as [seg Hs|seg f rest lines Hc Hl IH]; intros gs H.
  - exists [gs]. split; [constructor; now apply (finer_ne seg)|]. repeat constructor. exact H.
  - apply finer_cut in H as (a & b & -> & H1 & H2). destruct (IH b H2) as (segs2 & L2 & F2).
    assert (finer (seg ++ [f]) a) as H1' by exact H1. apply finer_cut in H1 as (a1 & a2 & -> & H3 & H4). apply finer_single in H4. destruct H4 as (ini & g & -> & G1 & G2 & _).
    exists ((a1 ++ ini ++ [g]) :: segs2). split; [|now constructor]. rewrite app_assoc in *. constructor; [|exact L2].
    unfold cuttable in *. now rewrite G1, G2.
Qed.
Lemma finer_ok A rh m tol W hy b1 b2 s s2 : (forall a b, m (a ++ b) = m a + m b) -> hy = m [45] -> finer s s2 ->
  lineOk rh m (m [32]) hy A tol W b1 b2 s2 = lineOk rh m (m [32]) hy A tol W b1 b2 s.
Proof.
  intros Hm -> H. destruct (finer_line rh _ _ H) as (H1 & H2 & H3). unfold lineOk. rewrite !(width_text rh m (m [32]) (m [45]) Hm) by auto. rewrite H1.
  unfold lineStretch. now rewrite H2, H3.
Qed.
Lemma finer_oks A rh m tol W hy : (forall a b, m (a ++ b) = m a + m b) -> hy = m [45] -> forall segs segs2, Forall2 finer segs segs2 ->
  forall b, linesOk rh m (m [32]) hy A tol W b segs2 = linesOk rh m (m [32]) hy A tol W b segs.
Proof.
  intros Hm Hh segs segs2 H. induction H as [|s s2 segs segs2 H1 H2 IH]; intros b; [reflexivity|].
  pose proof (finer_ok A rh m tol W hy b) as K. destruct H2 as [|s' s2' segs segs2 H3 H4].
  - cbn [linesOk]. now apply K.
  - change (lineOk rh m (m [32]) hy A tol W b false s2 && linesOk rh m (m [32]) hy A tol W false (s2' :: segs2) =
      lineOk rh m (m [32]) hy A tol W b false s && linesOk rh m (m [32]) hy A tol W false (s' :: segs)). rewrite IH. f_equal. now apply K.
Qed.

(** ** The fragments of a text *)
(** [moreCuts ps qs]: each part of [ps] is made of whole parts of [qs] *)
Definition moreCuts (ps qs : list (list rune)) : Prop := exists pss, Forall2 (fun p q => q <> [] /\ concat q = p) ps pss /\ concat pss = qs.
Lemma partFrags_splits p q : q <> [] -> concat q = p -> splits (mkFrag p false Glued) (partFrags q) /\
  splits (mkFrag p false Soft) (map (fun x => mkFrag x false Soft) q).
Proof.
  intros Hq <-. split.
  - destruct q as [|x q _] using rev_ind; [congruence|].
    assert (forall q, partFrags (q ++ [x]) = map (fun y => mkFrag y false Soft) q ++ [mkFrag x false Glued]) as E.
    { clear. induction q as [|y q IH]; [reflexivity|]. cbn [app map]. rewrite <- IH. cbn [partFrags]. destruct q; reflexivity. }
    rewrite E. exists (map (fun y => mkFrag y false Soft) q), (mkFrag x false Glued). repeat split; try reflexivity.
    + apply Forall_forall. intros y Hy. apply in_map_iff in Hy as (z & <- & _). split; reflexivity.
    + rewrite map_app, map_map. cbn. rewrite map_id. reflexivity.
  - destruct q as [|x q _] using rev_ind; [congruence|]. rewrite map_app. cbn [map].
    exists (map (fun y => mkFrag y false Soft) q), (mkFrag x false Soft). repeat split; try reflexivity.
    + apply Forall_forall. intros y Hy. apply in_map_iff in Hy as (z & <- & _). split; reflexivity.
    + rewrite map_app, map_map. cbn. rewrite map_id. reflexivity.
Qed.
Lemma partFrags_app q rest : rest <> [] -> partFrags (q ++ rest) = map (fun x => mkFrag x false Soft) q ++ partFrags rest.
Proof.
  intros Hr. induction q as [|x q IH]; [reflexivity|]. cbn [app map]. rewrite <- IH. cbn [partFrags]. destruct (q ++ rest) eqn:E; [|reflexivity].
  apply app_eq_nil in E as [_ E]. congruence.
Qed.
Lemma partFrags_finer ps qs : moreCuts ps qs -> finer (partFrags ps) (partFrags qs).
Proof.
  intros (pss & H & <-). induction H as [|p q ps pss [Hq Hp] Hr IH]; [constructor|]. cbn [concat]. destruct (partFrags_splits p q Hq Hp) as [S1 S2].
  destruct Hr as [|p2 q2 ps pss [Hq2 Hp2] Hr].
  - cbn [concat partFrags]. rewrite app_nil_r. now apply finer_one.
  - change (partFrags (p :: p2 :: ps)) with (mkFrag p false Soft :: partFrags (p2 :: ps)). rewrite partFrags_app by (cbn [concat]; destruct q2; [congruence|discriminate]).
    constructor; [exact S2|exact IH].
Qed.
Lemma flat_finer {X} (f g : X -> list frag) l : (forall x, In x l -> finer (f x) (g x)) -> finer (flat_map f l) (flat_map g l).
Proof.
  induction l as [|x l IH]; intros H; [constructor|]. cbn [flat_map]. apply finer_app; [apply H; now left|]. apply IH. intros y Hy. apply H. now right.
Qed.
Lemma paragraph_finer punct parts1 parts2 isMark breakable tokens : (forall w, w <> [] -> moreCuts (parts1 w) (parts2 w)) ->
  finer (paragraph punct (splitAt isHyphenRune) parts1 isMark (single isHyphenRune) breakable tokens)
        (paragraph punct (splitAt isHyphenRune) parts2 isMark (single isHyphenRune) breakable tokens).
Proof.
  intros H. assert (forall t, finer (tokenFrags punct (splitAt isHyphenRune) parts1 isMark (single isHyphenRune) breakable t)
    (tokenFrags punct (splitAt isHyphenRune) parts2 isMark (single isHyphenRune) breakable t)) as K.
  { intros t. apply flat_finer. intros p _. unfold pieceFrags. destruct (isMark p); [apply finer_self|]. destruct (breakable p); [|apply finer_self].
    apply flat_finer. intros w Hw. unfold wordFrags. destruct (single isHyphenRune w); [apply finer_self|]. apply partFrags_finer. apply H.
    pose proof (splitAt_nonempty isHyphenRune p) as N. rewrite Forall_forall in N. now apply N. }
  induction tokens as [|t ts IH]; [constructor|]. destruct ts as [|t2 ts]; [apply finer_end, K|]. apply finer_app; [apply finer_end, K|exact IH].
Qed.

(** ** Calls *)
Section Calls.
Variable A : arith.
Variable L : laws A.
Variable u : unicode.
Variable opts : list (lbOption A).
Variable h1 h2 : splitFunc.
Variable m : list rune -> Z.
Variable punct parts1 parts2 : list rune -> list (list rune).
Variable tokens : list (list rune).
Variable maxWidth : F A.
Variable W : Z.
Variable lb1 : breaker A.
Variable spare1 : nat -> list rune.
Variable ord1 : nat -> nat -> list fclass.
Variable lb2 : breaker A.
Variable spare2 : nat -> list rune.
Variable ord2 : nat -> nat -> list fclass.
Notation o1 := (newWith A u opts (WithHyphenator (Some h1))).
Notation o2 := (newWith A u opts (WithHyphenator (Some h2))).
Hypothesis C1 : plainCall A L u o1 m punct parts1 lb1 tokens spare1 maxWidth W ord1.
Hypothesis C2 : plainCall A L u o2 m punct parts2 lb2 tokens spare2 maxWidth W ord2.
Hypothesis Hm : forall a b, m (a ++ b) = m a + m b.
Hypothesis Hcuts : forall w, w <> [] -> moreCuts (parts1 w) (parts2 w).

Lemma hyphenator_layout segs : layout (negb (feq A (l_hyphenPenalty o1) (fZ A 10000))) (fragsOf u o1 punct parts1 tokens) segs ->
  linesOk (l_renderHyphens o1) m (m [32]) (hyphenW o1 m) A (k_tolerance (l_search o1)) W true segs = true ->
  exists segs2, layout (negb (feq A (l_hyphenPenalty o2) (fZ A 10000))) (fragsOf u o2 punct parts2 tokens) segs2 /\
    linesOk (l_renderHyphens o2) m (m [32]) (hyphenW o2 m) A (k_tolerance (l_search o2)) W true segs2 = true /\ length segs2 = length segs.
Proof.
  clear C1 C2. unfold newWith, withOptions. rewrite !fold_left_app.
  destruct (fold_left _ opts _) as [[tol bad li fl fi] ms sc wb rh hp hh pp h p mi gl].
  unfold fragsOf, hyphenW. cbn [fold_left applyOption l_search l_renderHyphens l_hyphenPenalty l_wordBreak k_tolerance andb].
  intros Hl Hok. destruct (finer_layout _ _ _ Hl _ (paragraph_finer punct parts1 parts2 _ _ tokens Hcuts)) as (segs2 & H1 & H2).
  exists segs2. split; [exact H1|]. split; [now rewrite (finer_oks A rh m tol W (m [45]) Hm eq_refl _ _ H2)|]. clear - H2. induction H2; cbn; congruence.
Qed.
Lemma align_hyphenator ls lb1' : leftAlignUniform A u ord1 spare1 lb1 tokens maxWidth = Ret (Some ls, lb1') ->
  exists ls2 lb2', leftAlignUniform A u ord2 spare2 lb2 tokens maxWidth = Ret (Some ls2, lb2').
Proof.
  intros E1. destruct (align_sound _ _ _ _ _ _ _ _ _ _ _ _ _ C1 _ _ E1) as (segs & _ & Hl & Hok).
  destruct (align_complete _ _ _ _ _ _ _ _ _ _ _ _ _ C2) as ([ls2|] & lb2' & E2 & Hn); [eauto|]. exfalso.
  apply (proj1 Hn eq_refl). destruct (hyphenator_layout segs Hl Hok) as (segs2 & H1 & H2 & _). now exists segs2.
Qed.
Lemma hyphenator_count ls lb1' : gentle A u o2 m punct parts2 tokens ->
  leftAlignUniform A u ord1 spare1 lb1 tokens maxWidth = Ret (Some ls, lb1') ->
  exists ls2 ord lb2', (forall i k, Permutation (ord i k) [C0; KP.C1; KP.C2; C3]) /\
    leftAlignUniform A u ord spare2 lb2 tokens maxWidth = Ret (Some ls2, lb2') /\ (length ls2 <= length ls)%nat.
Proof.
  intros G E1. destruct (align_sound _ _ _ _ _ _ _ _ _ _ _ _ _ C1 _ _ E1) as (segs & -> & Hl & Hok).
  destruct (hyphenator_layout segs Hl Hok) as (segs2 & H1 & H2 & H3).
  apply (count _ _ _ _ _ _ _ _ _ _ _ _ _ _ segs2 C2 G). rewrite map_length. split; [exact H1|]. split; [exact H2|lia].
Qed.
Lemma hyphenator_least ls lb1' : gentle A u o2 m punct parts2 tokens -> fle A (k_tolerance (l_search o2)) (fHalf A) = true ->
  leftAlignUniform A u ord1 spare1 lb1 tokens maxWidth = Ret (Some ls, lb1') ->
  exists ls2 lb2', leftAlignUniform A u ord2 spare2 lb2 tokens maxWidth = Ret (Some ls2, lb2') /\ (length ls2 <= length ls)%nat.
Proof. intros G Hh E1. apply (every_order _ _ _ _ _ _ _ _ _ _ _ _ _ _ C2 Hh). exact (hyphenator_count ls lb1' G E1). Qed.
End Calls.

(** Hyphenators of the same dictionary: WithMinLength and WithMinRight *)
Lemma minima_cuts A L u opts d ho ho' m punct parts1 parts2 tokens maxWidth W lb1 spare1 ord1 lb2 spare2 ord2 :
  plainCall A L u (newWith A u opts (WithHyphenator (Some (breakWord u d ho')))) m punct parts1 lb1 tokens spare1 maxWidth W ord1 ->
  plainCall A L u (newWith A u opts (WithHyphenator (Some (breakWord u d ho)))) m punct parts2 lb2 tokens spare2 maxWidth W ord2 ->
  stricter ho ho' -> o_minLeft ho = o_minLeft ho' -> forall w, w <> [] -> moreCuts (parts1 w) (parts2 w).
Proof.
  intros C1 C2 Hs Hl w Hw.
  pose proof (se_parts _ _ _ _ _ _ _ (pc_settings _ _ _ _ _ _ _ _ _ _ _ _ _ C1)) as S1. pose proof (se_parts _ _ _ _ _ _ _ (pc_settings _ _ _ _ _ _ _ _ _ _ _ _ _ C2)) as S2.
  assert (forall h, l_wordBreak (newWith A u opts (WithHyphenator (Some h))) = true /\ l_hyphenator (newWith A u opts (WithHyphenator (Some h))) = h) as K.
  { intros h. unfold newWith, withOptions. rewrite fold_left_app. cbn [fold_left applyOption]. destruct (fold_left _ opts _) as [[]]. split; reflexivity. }
  destruct (S1 (proj1 (K _)) w Hw) as (E1 & _ & N1). destruct (S2 (proj1 (K _)) w Hw) as (E2 & _ & N2). rewrite (proj2 (K _)) in E1. rewrite (proj2 (K _)) in E2.
  destruct (stricter_right u d ho ho' w Hs Hl) as (kept & glued & B2 & B1). rewrite B1 in E1. rewrite B2 in E2. injection E1 as E1. injection E2 as E2. rewrite <- E1 in N1 |- *. rewrite <- E2 in N2 |- *.
  exists (map (fun p => [p]) kept ++ [glued]). split.
  - apply Forall2_app.
    + clear. induction kept as [|p kept IH]; [constructor|]. constructor; [|exact IH]. split; [discriminate|]. cbn. apply app_nil_r.
    + constructor; [|constructor]. split; [|reflexivity]. intros ->. apply Forall_app in N1 as [_ N1]. inversion N1 as [|? ? H _]; subst. now apply H.
  - rewrite concat_app. cbn [concat]. rewrite app_nil_r. f_equal. clear. induction kept as [|p kept IH]; [reflexivity|]. cbn. now rewrite IH.
Qed.
Theorem align_minima A L u opts d ho ho' m punct parts1 parts2 tokens maxWidth W lb1 spare1 ord1 lb2 spare2 ord2 :
  plainCall A L u (newWith A u opts (WithHyphenator (Some (breakWord u d ho')))) m punct parts1 lb1 tokens spare1 maxWidth W ord1 ->
  plainCall A L u (newWith A u opts (WithHyphenator (Some (breakWord u d ho)))) m punct parts2 lb2 tokens spare2 maxWidth W ord2 ->
  (forall a b, m (a ++ b) = m a + m b) -> stricter ho ho' -> o_minLeft ho = o_minLeft ho' ->
  forall ls lb1', leftAlignUniform A u ord1 spare1 lb1 tokens maxWidth = Ret (Some ls, lb1') ->
  exists ls2 lb2', leftAlignUniform A u ord2 spare2 lb2 tokens maxWidth = Ret (Some ls2, lb2').
Proof.
  intros C1 C2 Hm Hs Hl. pose proof (minima_cuts _ _ _ _ _ _ _ _ _ _ _ _ _ _ _ _ _ _ _ _ C1 C2 Hs Hl) as Hc.
  exact (align_hyphenator A L u opts _ _ m punct parts1 parts2 tokens maxWidth W lb1 spare1 ord1 lb2 spare2 ord2 C1 C2 Hm Hc).
Qed.
