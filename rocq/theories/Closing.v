(** Punctuation marks and hyphens at the start of a line. *)
From Verif Require Import Base Arith Unicode Split SpecSplit SplitProofs Ansi SpecAnsi AnsiProofs Attr Hyph KP Nodes Render SpecKP Tokens Align
  Options Call Settings AlignProofs Again.
Open Scope Z_scope.

(** [next P fs]: P holds for any fragment and the one after it *)
Definition next (P : frag -> frag -> Prop) (fs : list frag) : Prop := forall pre f g post, fs = pre ++ f :: g :: post -> P f g.
Lemma next_one (P : frag -> frag -> Prop) f : next P [f].
Proof. intros [|a [|b pre]] x y post E; discriminate. Qed.
Lemma next_nil (P : frag -> frag -> Prop) : next P [].
Proof. intros [|a pre] x y post E; discriminate. Qed.
Lemma next_cons (P : frag -> frag -> Prop) f g fs : P f g -> next P (g :: fs) -> next P (f :: g :: fs).
Proof. intros H1 H2 [|a pre] x y post E; cbn [app] in E; [injection E as -> -> _; exact H1|injection E as _ E; now apply (H2 pre x y post)]. Qed.
Lemma next_uncons (P : frag -> frag -> Prop) f fs : next P (f :: fs) -> next P fs.
Proof. intros H pre x y post E. apply (H (f :: pre) x y post). cbn [app]. now rewrite E. Qed.
Lemma next_app (P : frag -> frag -> Prop) a b : next P a -> next P b -> (forall a' f g b', a = a' ++ [f] -> b = g :: b' -> P f g) -> next P (a ++ b).
Proof.
  induction a as [|f a IH]; intros Ha Hb Hab; [exact Hb|]. specialize (IH (next_uncons _ _ _ Ha) Hb).
  assert (next P (a ++ b)) as Hn by (apply IH; intros a' x y b' -> ->; now apply (Hab (f :: a') x y b')).
  destruct a as [|f2 a]; cbn [app] in *.
  - destruct b as [|g b]; [apply next_one|]. apply next_cons; [now apply (Hab [] f g b)|exact Hn].
  - apply next_cons; [apply (Ha [] f f2 a); reflexivity|exact Hn].
Qed.

Section Marks.
Variable sep : rune -> bool.
(** a part of a word after a soft hyphen holds no mark *)
Definition softFree (f g : frag) : Prop := isSoft f = true -> Forall (fun r => sep r = false) (f_text g).
Definition hardEnd (fs : list frag) : Prop := forall a f, fs = a ++ [f] -> isSoft f = false.
Lemma soft_app a b : next softFree a -> next softFree b -> hardEnd a -> next softFree (a ++ b).
Proof. intros Ha Hb He. apply next_app; [exact Ha|exact Hb|]. intros a' f g b' E _ Hs. apply He in E. congruence. Qed.
Lemma hard_app a b : hardEnd a -> hardEnd b -> hardEnd (a ++ b).
Proof.
  intros Ha Hb c f E. destruct b as [|g b]; [rewrite app_nil_r in E; now apply (Ha c)|].
  destruct (exists_last (l := g :: b)) as (b' & f' & Eb); [discriminate|]. rewrite Eb, app_assoc in E. apply app_inj_tail in E. destruct E as [_ <-]. now apply (Hb b').
Qed.
Lemma soft_flat {X} (h : X -> list frag) l : Forall (fun x => next softFree (h x) /\ hardEnd (h x)) l -> next softFree (flat_map h l) /\ hardEnd (flat_map h l).
Proof.
  induction 1 as [|x l [H1 H2] _ [IH1 IH2]]; cbn [flat_map]; [split; [apply next_nil|intros [|? ?] ? E; discriminate]|].
  split; [now apply soft_app|now apply hard_app].
Qed.
Lemma one_ok f : isSoft f = false -> next softFree [f] /\ hardEnd [f].
Proof. intros H. split; [apply next_one|]. intros a g E. destruct a as [|? [|? ?]]; try discriminate. injection E as <-. exact H. Qed.
Lemma hard_cons f g fs : hardEnd (g :: fs) -> hardEnd (f :: g :: fs).
Proof. intros H [|x a] y E; [discriminate|]. cbn [app] in E. injection E as _ E. now apply (H a). Qed.
Lemma parts_ok ps : Forall (fun r => sep r = false) (concat ps) -> next softFree (partFrags ps) /\ hardEnd (partFrags ps).
Proof.
  induction ps as [|p ps IH]; intros H; [split; [apply next_nil|intros [|? ?] ? E; discriminate]|].
  cbn [concat] in H. apply Forall_app in H. destruct H as [Hp H]. specialize (IH H). destruct ps as [|q ps]; [now apply one_ok|].
  change (partFrags (p :: q :: ps)) with (mkFrag p false Soft :: partFrags (q :: ps)).
  assert (exists j fs, partFrags (q :: ps) = mkFrag q false j :: fs) as (j & fs & E) by (destruct ps; cbn [partFrags]; eauto).
  rewrite E in *. split.
  - apply next_cons; [|apply IH]. intros _. cbn [f_text concat] in *. now apply Forall_app in H.
  - apply hard_cons. apply IH.
Qed.
Lemma endWith_soft j fs : j <> Soft -> next softFree fs -> next softFree (endWith j fs) /\ hardEnd (endWith j fs).
Proof.
  intros Hj. induction fs as [|f fs IH]; intros H; [split; [apply next_nil|intros [|? ?] ? E; discriminate]|].
  destruct fs as [|g fs]; [apply one_ok; destruct j; try reflexivity; congruence|].
  change (endWith j (f :: g :: fs)) with (f :: endWith j (g :: fs)). destruct (IH (next_uncons _ _ _ H)) as [I1 I2].
  assert (exists g' fs', endWith j (g :: fs) = g' :: fs' /\ f_text g' = f_text g) as (g' & fs' & E & Et) by (destruct fs; cbn [endWith]; eauto).
  rewrite E in *. split; [|now apply hard_cons]. apply next_cons; [|exact I1]. intros Hs. rewrite Et. now apply (H [] f g fs).
Qed.
End Marks.

Lemma endWith_texts j fs : map f_text (endWith j fs) = map f_text fs.
Proof. induction fs as [|f fs IH]; [reflexivity|]. destruct fs; [reflexivity|]. cbn [endWith map] in *. now rewrite IH. Qed.
Lemma endWith_joint j fs pre f g post : endWith j fs = pre ++ f :: g :: post -> exists g' post', fs = pre ++ f :: g' :: post' /\ f_text g' = f_text g.
Proof.
  revert fs. induction pre as [|a pre IH]; intros fs E; (destruct fs as [|x fs]; [discriminate|]); destruct fs as [|y fs]; cbn [endWith app] in E; try discriminate.
  - injection E as -> E. pose proof (endWith_texts j (y :: fs)) as Ht. cbn [endWith] in Ht. rewrite E in Ht. cbn [map] in Ht. injection Ht as Ht _. exists y, fs. split; [reflexivity|now symmetry].
  - injection E as _ E. destruct pre; discriminate.
  - injection E as -> E. destruct (IH (y :: fs) E) as (g' & post' & -> & Hg). exists g', post'. split; [reflexivity|exact Hg].
Qed.

Section Call.
Variable A : arith.
Variable L : laws A.
Variable u : unicode.
Variable o : lopts A.
Variable m : list rune -> Z.
Variable punct parts : list rune -> list (list rune).
Variable lb : breaker A.
Variable tokens : list (list rune).
Variable spare : nat -> list rune.
Variable maxWidth : F A.
Variable W : Z.
Variable ord : nat -> nat -> list fclass.
Hypothesis K : plainCall A L u o m punct parts lb tokens spare maxWidth W ord.
Notation sep := (fun r => punctSplitFunc u r || isHyphenRune r).
Hypothesis Hpunct : forall t, t <> [] -> punct t = splitAt (punctSplitFunc u) t.
Notation br := (fun w : list rune => l_wordBreak o && negb (zlen w <=? 4)).
Notation tf := (tokenFrags punct (splitAt isHyphenRune) parts (single (punctSplitFunc u)) (single isHyphenRune) br).

Lemma token_soft t : t <> [] -> next (softFree sep) (tf t) /\ hardEnd (tf t).
Proof.
  intros Ht. apply soft_flat. rewrite (Hpunct t Ht). apply Forall_forall. intros p Hp. unfold pieceFrags.
  destruct (single (punctSplitFunc u) p) eqn:Es; [now apply one_ok|]. destruct (l_wordBreak o) eqn:Ew; [|now apply one_ok]. cbn [andb].
  destruct (negb (zlen p <=? 4)); [|now apply one_ok]. apply soft_flat. apply Forall_forall. intros d Hd. unfold wordFrags.
  destruct (single isHyphenRune d) eqn:Ed; [now apply one_ok|]. destruct d as [|r d']; [exfalso|].
  { pose proof (splitAt_nonempty isHyphenRune p) as N. rewrite Forall_forall in N. now apply (N [] Hd). }
  set (d := r :: d') in *. destruct (se_parts _ _ _ _ _ _ _ (pc_settings _ _ _ _ _ _ _ _ _ _ _ _ _ K) Ew d ltac:(discriminate)) as (_ & Hc & _).
  apply parts_ok. rewrite Hc. destruct (splitAt_each _ _ _ Hp) as [S|Hnp]; [congruence|]. destruct (splitAt_each _ _ _ Hd) as [S|Hnd]; [congruence|].
  apply Forall_forall. intros x Hx. rewrite Forall_forall in Hnd, Hnp. rewrite (Hnd x Hx), orb_false_r. apply Hnp.
  rewrite <- (splitAt_concat isHyphenRune p). apply in_concat. eauto.
Qed.
Lemma token_text t : t <> [] -> concat (map f_text (tf t)) = t.
Proof.
  intros Ht. assert (In t tokens \/ True) as _ by now right.
  unfold tokenFrags. rewrite (Hpunct t Ht). rewrite <- (splitAt_concat (punctSplitFunc u) t) at 2.
  pose proof (splitAt_nonempty (punctSplitFunc u) t) as N. induction N as [|p ps Hp _ IH]; [reflexivity|].
  cbn [flat_map concat]. rewrite map_app, concat_app, IH. f_equal. clear IH. unfold pieceFrags.
  destruct (single (punctSplitFunc u) p); [cbn; now rewrite app_nil_r|]. destruct (l_wordBreak o) eqn:Ew; [|cbn; now rewrite app_nil_r]. cbn [andb].
  destruct (negb (zlen p <=? 4)); [|cbn; now rewrite app_nil_r]. rewrite <- (splitAt_concat isHyphenRune p) at 2.
  pose proof (splitAt_nonempty isHyphenRune p) as N. induction N as [|d ds Hd _ IH]; [reflexivity|].
  cbn [flat_map concat]. rewrite map_app, concat_app, IH. f_equal. clear IH. unfold wordFrags.
  destruct (single isHyphenRune d); [cbn; now rewrite app_nil_r|].
  destruct (se_parts _ _ _ _ _ _ _ (pc_settings _ _ _ _ _ _ _ _ _ _ _ _ _ K) Ew d Hd) as (_ & Hc & _). rewrite <- Hc at 2.
  clear. induction (parts d) as [|p ps IH]; [reflexivity|]. destruct ps as [|q ps]; [reflexivity|].
  change (partFrags (p :: q :: ps)) with (mkFrag p false Soft :: partFrags (q :: ps)). cbn [map concat f_text] in *. now rewrite IH.
Qed.
(** what can be before a mark that starts a line *)
Definition before (ts : list (list rune)) (f g : frag) : Prop := forall r x, f_text g = r :: x -> sep r = true ->
  isSoft f = false /\ exists t, In t ts /\ ((f_joint f = Space /\ exists y, t = r :: y) \/ (f_joint f <> Space /\ (f_mark f = true -> exists a c y, t = a ++ c :: r :: y /\ sep c = true /\ f_text f = [c]))).
Lemma token_joint t f : In f (tf t) -> f_joint f <> Space.
Proof.
  unfold tokenFrags. rewrite in_flat_map. intros (p & _ & H). unfold pieceFrags in H.
  destruct (single (punctSplitFunc u) p); [destruct H as [<-|[]]; discriminate|].
  destruct (l_wordBreak o && negb (zlen p <=? 4)); [|destruct H as [<-|[]]; discriminate].
  apply in_flat_map in H. destruct H as (d & _ & H). unfold wordFrags in H.
  destruct (single isHyphenRune d); [destruct H as [<-|[]]; discriminate|].
  revert H. induction (parts d) as [|q ps IH]; [intros []|]. destruct ps as [|q2 ps]; [intros [<-|[]]; discriminate|].
  change (partFrags (q :: q2 :: ps)) with (mkFrag q false Soft :: partFrags (q2 :: ps)). intros [<-|H]; [discriminate|now apply IH].
Qed.
Lemma token_before t fs : t <> [] -> (exists j, j <> Soft /\ fs = endWith j (tf t)) -> next (before [t]) fs.
Proof.
  intros Ht (j & Hj & ->) pre f g post E r x Er Hr. destruct (token_soft t Ht) as [S1 S2].
  split.
  - destruct (isSoft f) eqn:Es; [exfalso|reflexivity]. destruct (endWith_soft sep j (tf t) Hj S1) as [S3 _].
    specialize (S3 pre f g post E Es). rewrite Er in S3. inversion S3. congruence.
  - exists t. split; [now left|]. right. split.
    { destruct (endWith_joint _ _ _ _ _ _ E) as (g' & post' & E2 & _). apply (token_joint t). rewrite E2. apply in_or_app. right. now left. }
    intros Hm. pose proof (token_text t Ht) as Et. rewrite <- (endWith_texts j), E in Et.
    assert (origin (splitAt isHyphenRune) parts (single (punctSplitFunc u)) (single isHyphenRune) br f) as [Ho _].
    { destruct (endWith_joint _ _ _ _ _ _ E) as (g' & post' & E2 & _). apply (token_origin punct) with (t := t). rewrite E2. apply in_or_app. right. now left. }
    assert (exists c, f_text f = [c] /\ sep c = true) as (c & Ec & Hc).
    { specialize (Ho Hm). destruct (f_text f) as [|c [|d z]] eqn:Ef; cbn [single] in Ho; try (destruct Ho; discriminate).
      exists c. split; [reflexivity|]. now apply orb_true_iff. }
    exists (concat (map f_text pre)), c, (x ++ concat (map f_text post)). split; [|split; [exact Hc|exact Ec]].
    rewrite <- Et at 1. rewrite map_app, concat_app. cbn [map concat]. rewrite Ec, Er. cbn [app]. reflexivity.
Qed.
Lemma before_mono ts ts' f g : (forall t, In t ts -> In t ts') -> before ts f g -> before ts' f g.
Proof. intros H Hb r x E Hr. destruct (Hb r x E Hr) as (H1 & t & H2 & H3). split; [exact H1|]. exists t. split; [now apply H|exact H3]. Qed.
Lemma para_before ts : Forall (fun t => t <> []) ts ->
  next (before ts) (paragraph punct (splitAt isHyphenRune) parts (single (punctSplitFunc u)) (single isHyphenRune) br ts).
Proof.
  induction 1 as [|t ts Ht Hts IH]; [apply next_nil|]. destruct ts as [|t2 ts].
  - apply (token_before t); [exact Ht|]. exists End_. split; [discriminate|reflexivity].
  - change (paragraph punct (splitAt isHyphenRune) parts (single (punctSplitFunc u)) (single isHyphenRune) br (t :: t2 :: ts))
      with (endWith Space (tf t) ++ paragraph punct (splitAt isHyphenRune) parts (single (punctSplitFunc u)) (single isHyphenRune) br (t2 :: ts)).
    apply next_app.
    + intros pre f g post E. apply (before_mono [t]); [intros x [<-|[]]; now left|].
      apply (token_before t (endWith Space (tf t)) Ht) with (pre := pre) (post := post); [|exact E]. exists Space. split; [discriminate|reflexivity].
    + intros pre f g post E. apply (before_mono (t2 :: ts)); [intros x Hx; now right|]. now apply (IH pre f g post).
    + intros a f g b Ea Eb r x Er Hr.
      assert (f_joint f = Space) as Hj.
      { destruct (tf t) as [|q qs] eqn:Eq; [destruct a; discriminate|]. destruct (exists_last (l := q :: qs)) as (ini & z & Ez); [discriminate|].
        rewrite Ez in Ea. assert (endWith Space (ini ++ [z]) = ini ++ [mkFrag (f_text z) (f_mark z) Space]) as Ew.
        { clear. induction ini as [|i ini IH]; [reflexivity|]. cbn [app]. destruct (ini ++ [z]) eqn:E; [destruct ini; discriminate|].
          change (endWith Space (i :: f :: l)) with (i :: endWith Space (f :: l)). now rewrite IH. }
        rewrite Ew in Ea. apply app_inj_tail in Ea. destruct Ea as [_ <-]. reflexivity. }
      split; [unfold isSoft; now rewrite Hj|]. exists t2. split; [right; now left|]. left. split; [exact Hj|].
      inversion Hts as [|? ? Ht2 _]; subst. pose proof (token_text t2 Ht2) as Et.
      assert (exists b', map f_text (tf t2) = (r :: x) :: b') as (b' & Em).
      { assert (exists b', map f_text (paragraph punct (splitAt isHyphenRune) parts (single (punctSplitFunc u)) (single isHyphenRune) br (t2 :: ts)) = map f_text (tf t2) ++ b') as (b' & E).
        { destruct ts as [|t3 ts]; [exists []; cbn [paragraph]; rewrite endWith_texts, app_nil_r; reflexivity|].
          change (paragraph punct (splitAt isHyphenRune) parts (single (punctSplitFunc u)) (single isHyphenRune) br (t2 :: t3 :: ts))
            with (endWith Space (tf t2) ++ paragraph punct (splitAt isHyphenRune) parts (single (punctSplitFunc u)) (single isHyphenRune) br (t3 :: ts)).
          rewrite map_app, endWith_texts. eauto. }
        rewrite Eb in E. cbn [map] in E. rewrite Er in E. destruct (map f_text (tf t2)) as [|h t'] eqn:Eh; [cbn in Et; congruence|].
        cbn [app] in E. injection E as <- _. eauto. }
      rewrite Em in Et. cbn [concat app] in Et. eauto.
Qed.

(** C120 *)
Theorem closing ls lb' : leftAlignUniform A u ord spare lb tokens maxWidth = Ret (Some ls, lb') ->
  forall pre l1 r x post, ls = pre ++ l1 :: (r :: x) :: post -> sep r = true ->
  exists t, In t tokens /\ ((exists y, t = r :: y) \/ exists a c y, t = a ++ c :: r :: y /\ sep c = true /\ exists z, l1 = z ++ [c]).
Proof.
  intros E pre l1 r x post El Hr. destruct (align_sound A L u o m punct parts lb tokens spare maxWidth W ord K _ _ E) as (segs & Es & Hl & _).
  rewrite El in Es. symmetry in Es. apply map_eq_app in Es. destruct Es as (pre' & rest & -> & _ & Es).
  apply map_eq_cons in Es. destruct Es as (s1 & rest' & -> & E1 & Es). apply map_eq_cons in Es. destruct Es as (s2 & post' & -> & E2 & _).
  destruct (layout_cuts _ _ _ Hl pre' s1 (s2 :: post') eq_refl ltac:(discriminate)) as (l & f & -> & Hcut).
  destruct (layout_ne _ _ _ Hl) as [Hne Hc]. rewrite Forall_forall in Hne. assert (s2 <> []) as H2 by (apply Hne; apply in_or_app; right; right; now left).
  destruct s2 as [|g s2]; [congruence|].
  destruct (frs_text A L u o m punct parts (pc_settings _ _ _ _ _ _ _ _ _ _ _ _ _ K) lb (pc_breaker _ _ _ _ _ _ _ _ _ _ _ _ _ K) tokens (pc_nonempty _ _ _ _ _ _ _ _ _ _ _ _ _ K)) as (Hn & Hmk & _).
  assert (fragsOf u o punct parts tokens = (concat pre' ++ l) ++ f :: g :: s2 ++ concat post') as Ef.
  { rewrite <- Hc, concat_app. cbn [concat]. rewrite <- !app_assoc. reflexivity. }
  assert (In g (fragsOf u o punct parts tokens)) as Ig by (rewrite Ef; apply in_or_app; right; right; now left).
  rewrite Forall_forall in Hn. specialize (Hn g Ig). destruct (f_text g) as [|r' x'] eqn:Eg; [congruence|].
  assert (r' = r) as -> by (cbn [lineText] in E2; rewrite Eg in E2; destruct s2; cbn [app] in E2; injection E2 as E2 _; exact E2).
  destruct (para_before tokens (proj2 (pc_nonempty _ _ _ _ _ _ _ _ _ _ _ _ _ K)) (concat pre' ++ l) f g (s2 ++ concat post') Ef r x' Eg Hr) as (Hs & t & It & H).
  exists t. split; [exact It|]. destruct H as [[_ H]|[Hj H]]; [now left|]. right.
  assert (f_mark f = true) as Hm.
  { revert Hcut Hs. unfold cuttable, isSoft. destruct (f_mark f); [reflexivity|]. cbn [orb]. destruct (f_joint f); congruence. }
  destruct (H Hm) as (a & c & y & Et & Hc' & Efc). exists a, c, y. split; [exact Et|]. split; [exact Hc'|].
  exists (paraText l). rewrite <- E1, lineText_snoc, Efc, Hs, andb_false_r, app_nil_r. reflexivity.
Qed.
Lemma reflow_head rh t ls : reflow rh t ls -> exists r z y ls', t = r :: z /\ ls = (r :: y) :: ls'.
Proof.
  intros R. destruct R as [t N|t rest ls N _|t rest ls N _|t rest ls _ N _]; (destruct t as [|q t]; [congruence|]); cbn [app]; eauto 10.
Qed.
(** tokens that do not start with a mark, and have no mark after another one *)
Theorem closing_all ls lb' : Forall (fun t => (forall r y, t = r :: y -> sep r = false) /\ forall a c r y, t = a ++ c :: r :: y -> sep r = true -> sep c = false) tokens ->
  leftAlignUniform A u ord spare lb tokens maxWidth = Ret (Some ls, lb') -> Forall (fun l => forall r x, l = r :: x -> sep r = false) ls.
Proof.
  intros Ht E. destruct ls as [|l0 ls]; [constructor|].
  assert (forall pre l1 l2 post, l0 :: ls = pre ++ l1 :: l2 :: post -> forall r x, l2 = r :: x -> sep r = false) as H.
  { intros pre l1 l2 post El r x ->. destruct (sep r) eqn:Hr; [exfalso|reflexivity].
    destruct (closing _ _ E pre l1 r x post El Hr) as (t & It & H). rewrite Forall_forall in Ht. destruct (Ht t It) as [T1 T2].
    destruct H as [(y & ->)|(a & c & y & -> & Hc & _)]; [rewrite (T1 r y eq_refl) in Hr; discriminate|]. rewrite (T2 a c r y eq_refl Hr) in Hc. discriminate. }
  constructor.
  - (* the first line starts as the first token *)
    intros r x ->. pose proof (align_reflow A L u o m punct parts lb tokens spare maxWidth W ord K _ _ E) as R.
    destruct (pc_nonempty _ _ _ _ _ _ _ _ _ _ _ _ _ K) as [N1 N2]. destruct tokens as [|t ts] eqn:Ets; [congruence|].
    inversion N2 as [|? ? Nt _]; subst. destruct t as [|r0 t]; [congruence|]. inversion Ht as [|? ? [T1 _] _]; subst.
    assert (exists z, joinWith 32 ((r0 :: t) :: ts) = r0 :: z) as (z & Ez) by (destruct ts; cbn [joinWith app]; eauto). rewrite Ez in R.
    assert (r = r0) as ->; [|now apply (T1 r0 t)].
    destruct (reflow_head _ _ _ R) as (r1 & z1 & y1 & l' & E1 & E2). congruence.
  - apply Forall_forall. intros l Hin. apply in_split in Hin. destruct Hin as (p & q & ->).
    destruct (exists_last (l := l0 :: p)) as (p' & l1 & Ep); [discriminate|]. apply (H p' l1 l q).
    change (l0 :: p ++ l :: q) with ((l0 :: p) ++ l :: q). rewrite Ep, <- app_assoc. reflexivity.
Qed.
End Call.
