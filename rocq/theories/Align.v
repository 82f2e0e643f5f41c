(** LeftAlignUniform on plain tokens. *)
From Verif Require Import Base Arith Unicode Split SpecSplit SplitProofs Ansi SpecAnsi AnsiProofs Attr KP Nodes Render SpecKP SpecGreedy KPProofs Frags Show Para Tokens.

Definition okRune (r : rune) : Prop := 0 <= r <= 0x10ffff.
(** What a paragraph says. *)
Definition fragText (f : frag) : list rune := f_text f ++ (if isSpaced f then [32] else []).
Definition paraText (fs : list frag) : list rune := flat_map fragText fs.

(** ** The text of a layout *)
Lemma lineText_snoc rh l f : lineText rh (l ++ [f]) = paraText l ++ f_text f ++ (if rh && isSoft f then [45] else []).
Proof.
  induction l as [|g l IH]; [reflexivity|]. cbn [app lineText paraText flat_map].
  assert (exists x y, l ++ [f] = x :: y) as (x & y & E) by (destruct l; cbn; eauto). rewrite E in *. rewrite IH.
  unfold fragText. now rewrite <- !app_assoc.
Qed.
Lemma layout_last softOn fs segs : layout softOn fs segs -> concat segs = fs /\ segs <> [] /\ Forall (fun s => s <> []) segs.
Proof.
  induction 1 as [seg Hs|seg f rest lines _ _ (IH1 & IH2 & IH3)].
  - cbn. rewrite app_nil_r. split; [reflexivity|]. split; [discriminate|]. now constructor.
  - cbn [concat]. rewrite IH1. split; [reflexivity|]. split; [discriminate|]. constructor; [|exact IH3]. now destruct seg.
Qed.
Lemma layout_reflow rh softOn fs segs : layout softOn fs segs -> Forall (fun f => f_text f <> []) fs ->
  (exists ini f, fs = ini ++ [f] /\ f_joint f = End_) -> reflow rh (paraText fs) (map (lineText rh) segs).
Proof.
  induction 1 as [seg Hs|seg f rest lines Hc Hl IH]; intros Ht (ini & z & E & Hz).
  - subst seg. cbn [map]. rewrite lineText_snoc. unfold paraText. rewrite flat_map_app. cbn [flat_map].
    apply Forall_app in Ht. destruct Ht as [_ Ht]. inversion Ht; subst.
    unfold fragText at 2, isSoft, isSpaced. rewrite Hz, andb_false_r, !app_nil_r. apply rf_last.
    intros E. apply app_eq_nil in E. tauto.
  - apply Forall_app in Ht. destruct Ht as [Ht1 Ht2]. apply Forall_app in Ht1. destruct Ht1 as [_ Ht1]. inversion Ht1; subst.
    assert (reflow rh (paraText rest) (map (lineText rh) lines)) as R.
    { apply IH; [exact Ht2|]. destruct (layout_last _ _ _ Hl) as (_ & Hne & _).
      assert (rest <> []) as Hr.
      { intros ->. destruct (layout_last _ _ _ Hl) as (E0 & _ & H3). destruct lines as [|l lines]; [congruence|]. cbn in E0.
        inversion H3; subst. apply app_eq_nil in E0. tauto. }
      destruct (exists_last Hr) as (r' & g & ->). rewrite app_assoc in E. apply app_inj_tail in E. destruct E as [_ ->]. eauto. }
    cbn [map]. rewrite lineText_snoc. unfold paraText in *. rewrite flat_map_app, flat_map_app.
    replace (flat_map fragText [f]) with (fragText f) by (cbn [flat_map]; now rewrite app_nil_r).
    unfold fragText at 2. unfold isSoft, isSpaced.
    assert (flat_map fragText seg ++ f_text f <> []) as Hne.
    { intros E'. apply app_eq_nil in E'. tauto. }
    destruct (f_joint f); rewrite ?andb_false_r, ?andb_true_r, ?app_nil_r.
    + now apply rf_inside.
    + destruct rh; rewrite ?app_nil_r; [rewrite (app_assoc _ _ [45]); now apply rf_hyphen|now apply rf_inside].
    + rewrite <- !app_assoc. cbn [app]. rewrite (app_assoc _ (f_text f) (32 :: _)). now apply rf_space.
    + now apply rf_inside.
Qed.

(** ** Settings under which the line breaker is specified *)
Record regular (A : arith) (L : laws A) (u : unicode) (lb : breaker A) (m : list rune -> Z) (sp hy : Z)
  (punct parts : list rune -> list (list rune)) : Prop := mkRegular {
  rg_glue : l_glueStretch (lb_opts lb) = fZ A 6;
  rg_sp : rep A L (lb_spaceWidth lb) sp;
  rg_sp0 : 0 <= sp;
  rg_hy : rep A L (lb_hyphenWidth lb) hy;
  rg_hy0 : 0 <= hy <= 2 ^ 50;
  rg_hp : bnd A L 100 (l_hyphenPenalty (lb_opts lb));
  rg_bad : bnd A L 20 (k_badness (l_search (lb_opts lb)));
  rg_line : bnd A L 100 (k_line (l_search (lb_opts lb)));
  rg_flag : bnd A L 100 (k_flagged (l_search (lb_opts lb)));
  rg_fit : bnd A L 100 (k_fitness (l_search (lb_opts lb)));
  rg_tol : fle A (fZ A 10000) (k_tolerance (l_search (lb_opts lb))) = false;
  rg_hard : l_hardHyphenPenalty (lb_opts lb) = fZ A 200;
  rg_punctPen : l_punctuationPenalty (lb_opts lb) = fZ A 400;
  rg_punct : forall w, w <> [] -> l_punctuator (lb_opts lb) w = Ret (punct w);
  rg_punct1 : forall w, w <> [] -> concat (punct w) = w /\ Forall (fun p => p <> []) (punct w);
  rg_parts : l_wordBreak (lb_opts lb) = true -> forall w, w <> [] ->
    l_hyphenator (lb_opts lb) w = Ret (parts w) /\ concat (parts w) = w /\ Forall (fun p => p <> []) (parts w);
  rg_measure : forall t, 0 <= m t /\
    (Forall okRune t -> m t <= 2 ^ 50 -> exists x, measure A (lb_opts lb) t = Ret x /\ rep A L x (m t));
  (* rendering *)
  rg_zero : forall x, rep A L x 0 -> fint A (downScale A (lb_opts lb) x) = 0;
  rg_one : forall x, rep A L x sp -> fint A (downScale A (lb_opts lb) x) = 1;
  rg_collide : l_renderHyphens (lb_opts lb) = true ->
    feq A (fZ A 0) (l_hyphenPenalty (lb_opts lb)) = false /\ feq A (fZ A 200) (l_hyphenPenalty (lb_opts lb)) = false /\
    feq A (fZ A 400) (l_hyphenPenalty (lb_opts lb)) = false
}.

Section Align.
Variable A : arith.
Variable L : laws A.
Variable u : unicode.
Variable lb : breaker A.
Variable m : list rune -> Z.
Variable sp hy : Z.
Variable punct parts : list rune -> list (list rune).
Hypothesis R : regular A L u lb m sp hy punct parts.
Hypothesis Hplain : Forall plainAttr (lb_attrs lb).
Notation o := (lb_opts lb).
Notation rh := (l_renderHyphens (lb_opts lb)).
Notation tol := (k_tolerance (l_search (lb_opts lb))).
Notation softOn := (negb (feq A (l_hyphenPenalty (lb_opts lb)) (infinity A))).
Notation mark := (punctSplitFunc u).
Notation tokenFrags := (tokenFrags punct (splitAt isHyphenRune) parts (single mark) (single isHyphenRune) (breakable A lb)).
Notation paragraph := (paragraph punct (splitAt isHyphenRune) parts (single mark) (single isHyphenRune) (breakable A lb)).
Notation pieceFrags := (pieceFrags (splitAt isHyphenRune) parts (single mark) (single isHyphenRune) (breakable A lb)).
Notation wordFrags := (wordFrags parts (single isHyphenRune)).

Lemma cat_ne (l : list (list rune)) w : concat l = w -> w <> [] -> l <> [].
Proof. intros <- H ->. now apply H. Qed.
Lemma Hparts1 : l_wordBreak o = true -> forall w, w <> [] -> l_hyphenator o w = Ret (parts w) /\ parts w <> [].
Proof. intros H w Hw. destruct (rg_parts _ _ _ _ _ _ _ _ _ R H w Hw) as (E & C & _). split; [exact E|]. now apply (cat_ne _ w). Qed.
Lemma Hpunct1 w : w <> [] -> punct w <> [] /\ Forall (fun p => p <> []) (punct w).
Proof. intros Hw. destruct (rg_punct1 _ _ _ _ _ _ _ _ _ R w Hw) as [C N]. split; [now apply (cat_ne _ w)|exact N]. Qed.

(** what holds of every fragment *)
Definition fragOk (f : frag) : Prop := f_text f <> [] /\ (f_mark f = true -> f_joint f <> Soft).
Definition textOf (fs : list frag) : list rune := concat (map f_text fs).
Lemma textOf_app a b : textOf (a ++ b) = textOf a ++ textOf b.
Proof. unfold textOf. now rewrite map_app, concat_app. Qed.
Lemma partFrags_ok ps : Forall (fun p => p <> []) ps -> Forall fragOk (partFrags ps) /\ textOf (partFrags ps) = concat ps.
Proof.
  induction 1 as [|p ps Hp _ [IH1 IH2]]; [split; [constructor|reflexivity]|]. destruct ps as [|q ps].
  - split; [|reflexivity]. constructor; [|constructor]. split; [exact Hp|discriminate].
  - change (partFrags (p :: q :: ps)) with (mkFrag p false Soft :: partFrags (q :: ps)). split.
    + constructor; [split; [exact Hp|discriminate]|exact IH1].
    + change (p ++ textOf (partFrags (q :: ps)) = p ++ concat (q :: ps)). now rewrite IH2.
Qed.
Lemma flat_ok {T} (g : T -> list frag) (h : T -> list rune) l :
  Forall (fun x => Forall fragOk (g x) /\ textOf (g x) = h x) l ->
  Forall fragOk (flat_map g l) /\ textOf (flat_map g l) = flat_map h l.
Proof.
  induction 1 as [|x l [H1 H2] _ [IH1 IH2]]; [split; [constructor|reflexivity]|]. cbn [flat_map]. split.
  - apply Forall_app. now split.
  - now rewrite textOf_app, H2, IH2.
Qed.
Lemma one_ok t b : t <> [] -> Forall fragOk [mkFrag t b Glued] /\ textOf [mkFrag t b Glued] = t.
Proof. intros H. split; [|cbn; apply app_nil_r]. constructor; [|constructor]. split; [exact H|discriminate]. Qed.
Lemma wordFrags_ok (Hwb : l_wordBreak o = true) w : w <> [] -> Forall fragOk (wordFrags w) /\ textOf (wordFrags w) = w.
Proof.
  intros Hw. unfold SpecKP.wordFrags. destruct (single isHyphenRune w); [now apply one_ok|].
  destruct (rg_parts _ _ _ _ _ _ _ _ _ R Hwb w Hw) as (_ & C & N). rewrite <- C at 3. now apply partFrags_ok.
Qed.
Lemma flat_id (l : list (list rune)) : flat_map (fun x => x) l = concat l.
Proof. now rewrite flat_map_concat_map, map_id. Qed.
Lemma pieceFrags_ok p : p <> [] -> Forall fragOk (pieceFrags p) /\ textOf (pieceFrags p) = p.
Proof.
  intros Hp. unfold SpecKP.pieceFrags. destruct (single mark p); [now apply one_ok|].
  destruct (breakable A lb p) eqn:Eb; [|now apply one_ok].
  rewrite <- (splitAt_concat isHyphenRune p) at 3. rewrite <- flat_id. apply flat_ok.
  eapply Forall_impl; [|apply splitAt_nonempty]. intros w. apply wordFrags_ok. unfold breakable in Eb. now apply andb_prop in Eb.
Qed.
Lemma tokenFrags_ok t : t <> [] -> Forall fragOk (tokenFrags t) /\ textOf (tokenFrags t) = t.
Proof.
  intros Ht. destruct (rg_punct1 _ _ _ _ _ _ _ _ _ R t Ht) as [C N]. rewrite <- C at 3. rewrite <- flat_id. apply flat_ok.
  eapply Forall_impl; [|exact N]. intros w. apply pieceFrags_ok.
Qed.
Definition unspaced (fs : list frag) : Prop := Forall (fun g => isSpaced g = false) fs.
Lemma paraText_unspaced fs : unspaced fs -> paraText fs = textOf fs.
Proof. induction 1 as [|f fs H _ IH]; [reflexivity|]. change (paraText (f :: fs)) with (fragText f ++ paraText fs). unfold fragText. rewrite H, app_nil_r, IH. reflexivity. Qed.
Lemma glued_unspaced fs : lastGlued fs -> exists ini f, fs = ini ++ [mkFrag (f_text f) (f_mark f) Glued] /\ unspaced ini.
Proof.
  intros (ini & f & E & H). exists ini, f. split; [exact E|]. eapply Forall_impl; [|exact H]. intros g [_ Hg]. unfold isSpaced.
  destruct (f_joint g); congruence.
Qed.
Lemma endWith_ok j t : j <> Soft -> t <> [] -> Forall fragOk (endWith j (tokenFrags t)) /\
  paraText (endWith j (tokenFrags t)) = t ++ (match j with Space => [32] | _ => [] end).
Proof.
  intros Hj Ht. destruct (tokenFrags_ok t Ht) as [H1 H2].
  destruct (glued_unspaced _ (tokenFrags_glued A u lb punct parts Hparts1 Hpunct1 t Ht)) as (ini & f & E & Hi).
  rewrite E in *. rewrite endWith_snoc. cbn [f_text f_mark]. apply Forall_app in H1. destruct H1 as [H1 H3]. split.
  - apply Forall_app. split; [exact H1|]. inversion H3 as [|? ? [H4 H5] _]; subst. constructor; [|constructor].
    split; [exact H4|]. intros _. exact Hj.
  - unfold paraText. rewrite flat_map_app. fold (paraText ini). rewrite (paraText_unspaced _ Hi).
    rewrite textOf_app in H2. cbn in H2. rewrite app_nil_r in H2. cbn [flat_map]. rewrite app_nil_r. unfold fragText. cbn [f_text].
    rewrite app_assoc, H2. f_equal. unfold isSpaced. cbn [f_joint]. destruct j; reflexivity.
Qed.
Lemma paragraph_ok tokens : Forall (fun t => t <> []) tokens -> Forall fragOk (paragraph tokens) /\
  paraText (paragraph tokens) = joinWith 32 tokens.
Proof.
  induction 1 as [|t ts Ht Hts [IH1 IH2]]; [split; [constructor|reflexivity]|]. destruct ts as [|t2 ts].
  - cbn [SpecKP.paragraph joinWith]. destruct (endWith_ok End_ t ltac:(discriminate) Ht) as [H1 H2]. split; [exact H1|].
    now rewrite H2, app_nil_r.
  - change (paragraph (t :: t2 :: ts)) with (endWith Space (tokenFrags t) ++ paragraph (t2 :: ts)).
    destruct (endWith_ok Space t ltac:(discriminate) Ht) as [H1 H2]. split.
    + apply Forall_app. now split.
    + unfold paraText. rewrite flat_map_app. fold (paraText (endWith Space (tokenFrags t))) (paraText (paragraph (t2 :: ts))).
      rewrite H2, IH2, <- app_assoc. reflexivity.
Qed.

(** widths *)
Notation lineWidth := (lineWidth rh m sp hy).
Lemma lineWidth_frag fs f : In f fs -> m (f_text f) <= lineWidth fs.
Proof.
  pose proof (rg_sp0 _ _ _ _ _ _ _ _ _ R) as S0. pose proof (rg_hy0 _ _ _ _ _ _ _ _ _ R) as H0.
  assert (forall t, 0 <= m t) as M0 by (intros t; apply (rg_measure _ _ _ _ _ _ _ _ _ R t)).
  assert (forall l, 0 <= lineWidth l) as W0.
  { induction l as [|g l IH]; [cbn; lia|]. cbn [SpecKP.lineWidth]. pose proof (M0 (f_text g)). destruct l; [destruct (rh && isSoft g); lia|].
    destruct (isSpaced g); lia. }
  induction fs as [|g fs IH]; [intros []|]. intros [->|Hin].
  - cbn [SpecKP.lineWidth]. destruct fs; [destruct (rh && isSoft f); lia|]. pose proof (W0 (f0 :: fs)). destruct (isSpaced f); lia.
  - specialize (IH Hin). cbn [SpecKP.lineWidth]. pose proof (M0 (f_text g)). destruct fs; [destruct Hin|]. destruct (isSpaced g); lia.
Qed.
Lemma text_runes fs (P : rune -> Prop) : Forall P (paraText fs) -> Forall (fun f => Forall P (f_text f)) fs.
Proof.
  induction fs as [|f fs IH]; [constructor|]. cbn [paraText flat_map]. unfold fragText at 1. rewrite <- app_assoc. intros H.
  apply Forall_app in H. destruct H as [H1 H2]. apply Forall_app in H2. destruct H2 as [_ H2]. constructor; [exact H1|now apply IH].
Qed.
Lemma join_runes (P : rune -> Prop) tokens : P 32 -> Forall (Forall P) tokens -> Forall P (joinWith 32 tokens).
Proof.
  intros P32. induction 1 as [|t ts Ht Hts IH]; [constructor|]. destruct ts; [exact Ht|]. cbn [joinWith] in *.
  apply Forall_app. split; [exact Ht|]. constructor; [exact P32|exact IH].
Qed.

Variable tokens : list (list rune).
Variable spare : nat -> list rune.
Hypothesis Hne : tokens <> [].
Hypothesis Htok : Forall (fun t => t <> [] /\ ~ hasCSI t /\ Forall okRune t) tokens.
Hypothesis Hcap : forall j t, nth_error tokens j = Some t -> mcap (t ++ spare j).
Hypothesis Hwidth : lineWidth (paragraph tokens) <= 2 ^ 50.
Notation frs := (paragraph tokens).
Notation n0 := (length (lb_attrs lb)).
Notation atoms := (atomsFrom A u lb n0 frs).
Notation attrs := (lb_attrs lb ++ attrsOf frs).

Lemma Hptok : Forall plainToken tokens.
Proof. eapply Forall_impl; [|exact Htok]. intros t (H1 & H2 & _). split; assumption. Qed.
Lemma Hnetok : Forall (fun t => t <> []) tokens.
Proof. eapply Forall_impl; [|exact Htok]. intros t (H1 & _). exact H1. Qed.
Lemma frs_ok : Forall fragOk frs /\ paraText frs = joinWith 32 tokens.
Proof. apply paragraph_ok, Hnetok. Qed.
Lemma frs_measured : Forall (fun f => measured A lb (f_text f) /\ rep A L (widthOf A lb (f_text f)) (m (f_text f))) frs.
Proof.
  assert (Forall (fun f => Forall okRune (f_text f)) frs) as Hr.
  { apply text_runes. rewrite (proj2 frs_ok). apply join_runes; [unfold okRune; lia|]. eapply Forall_impl; [|exact Htok]. intros t (_ & _ & Ht). exact Ht. }
  apply Forall_forall. intros f Hf. rewrite Forall_forall in Hr.
  destruct (rg_measure _ _ _ _ _ _ _ _ _ R (f_text f)) as [_ H].
  destruct (H (Hr f Hf)) as (x & E & Hx); [pose proof (lineWidth_frag _ _ Hf); lia|].
  split; [exists x; exact E|]. unfold widthOf. now rewrite E.
Qed.
Lemma toAtom_in n fs a : In a (atomsFrom A u lb n fs) -> exists i f, nth_error fs i = Some f /\ a = toAtom A u lb (n + i) f.
Proof.
  revert n. induction fs as [|f fs IH]; intros n; [intros []|]. cbn [atomsFrom In]. intros [<-|H].
  - exists 0%nat, f. rewrite Nat.add_0_r. auto.
  - destruct (IH (S n) H) as (i & g & H1 & H2). exists (S i), g. split; [exact H1|]. now replace (n + S i)%nat with (S n + i)%nat by lia.
Qed.
Lemma atoms_good : Forall (goodAtom A L m) atoms.
Proof.
  apply Forall_forall. intros a Ha. destruct (toAtom_in _ _ _ Ha) as (i & f & Hf & ->). apply nth_error_In in Hf.
  pose proof frs_measured as Hm. rewrite Forall_forall in Hm. destruct (Hm f Hf) as [_ Hw].
  destruct frs_ok as [Hok _]. rewrite Forall_forall in Hok. destruct (Hok f Hf) as [_ Hs].
  constructor; unfold toAtom; cbn [at_f at_w at_pen].
  - exact Hw.
  - apply (rg_measure _ _ _ _ _ _ _ _ _ R).
  - intros _. unfold penOf. rewrite (rg_hard _ _ _ _ _ _ _ _ _ R), (rg_punctPen _ _ _ _ _ _ _ _ _ R). destruct (isPunctuation u (f_text f)); auto.
  - exact Hs.
Qed.
Lemma atoms_attr a : In a atoms -> exists i, at_attr A a = Some i /\ nth_error attrs i = Some (newAttr (f_text (at_f A a)) [] []).
Proof.
  intros Ha. destruct (toAtom_in _ _ _ Ha) as (i & f & Hf & ->). exists (n0 + i)%nat. split; [reflexivity|].
  unfold toAtom. cbn [at_f]. rewrite nth_error_app2 by lia. replace (n0 + i - n0)%nat with i by lia. unfold attrsOf.
  now rewrite nth_error_map, Hf.
Qed.
Lemma show_plain seg : (forall a, In a seg -> In a atoms) -> lineShow A lb attrs seg = lineText rh (map (at_f A) seg).
Proof.
  intros H. induction seg as [|a seg IH]; [reflexivity|].
  assert (boxShow A attrs a = f_text (at_f A a)) as E.
  { destruct (atoms_attr a (H a (or_introl eq_refl))) as (i & E1 & E2). unfold boxShow, attrText. rewrite E1, E2. apply plain_render. }
  cbn [lineShow map lineText]. rewrite E. destruct seg as [|b seg]; [reflexivity|]. cbn [map] in *. rewrite IH; [reflexivity|].
  intros x Hx. apply H. now right.
Qed.
Lemma attrs_plain : Forall plainAttr attrs.
Proof. apply Forall_app. split; [exact Hplain|apply attrsOf_plain]. Qed.
Lemma showLines_plain lines : forall it, (forall a, In a (concat lines) -> In a atoms) ->
  showLines A lb attrs it lines = map (lineText rh) (map (map (at_f A)) lines).
Proof.
  induction lines as [|l lines IH]; intros it H; [reflexivity|]. cbn [showLines map]. cbn [concat] in H.
  rewrite (proj1 (plain_start _ it attrs_plain)), (proj2 (plain_start _ (nexts attrs (length l) it) attrs_plain)).
  cbn [concat app]. rewrite app_nil_r, show_plain, IH; [reflexivity|..]; intros a Ha; apply H, in_or_app; tauto.
Qed.

Lemma align_setup : exists inia za, atoms = inia ++ [za] /\ map (at_f A) (inia ++ [za]) = frs /\ Forall (goodAtom A L m) (inia ++ [za]) /\
  Forall (fun a => isEnd A a = false) inia /\ isEnd A za = true /\ BW A m sp (inia ++ [za]) <= 2 ^ 50 /\ Forall (atomOk A attrs) (inia ++ [za]) /\
  leftAlignedNodes A u lb tokens spare = Ret (nodesOf A lb (inia ++ [za]), attrs).
Proof.
  destruct (paragraph_shape A u lb punct parts Hparts1 Hpunct1 tokens Hne Hptok) as (ini & f & Efrs & Hf & Hi).
  set (inia := atomsFrom A u lb n0 ini). set (za := toAtom A u lb (n0 + length ini) f).
  assert (atoms = inia ++ [za]) as Ea by (rewrite Efrs, atomsFrom_app; reflexivity).
  assert (map (at_f A) (inia ++ [za]) = frs) as Emap by (rewrite <- Ea; apply atomsFrom_f).
  assert (Forall (goodAtom A L m) (inia ++ [za])) as Hg by (rewrite <- Ea; apply atoms_good).
  assert (Forall (fun a => isEnd A a = false) inia) as Hini.
  { apply Forall_forall. intros a Ha. destruct (toAtom_in _ _ _ Ha) as (i & g & Hgi & ->). apply nth_error_In in Hgi.
    rewrite Forall_forall in Hi. specialize (Hi g Hgi). unfold isEnd, toAtom. cbn [at_f]. destruct (f_joint g); congruence. }
  assert (isEnd A za = true) as Hz by (unfold isEnd, za, toAtom; cbn [at_f]; now rewrite Hf).
  assert (BW A m sp (inia ++ [za]) <= 2 ^ 50) as HBW.
  { rewrite BW_app. rewrite <- Emap, lineWidth_snoc in Hwidth. unfold BW at 2. cbn [map zsum]. unfold blockW.
    assert (hyphW A lb hy za = 0) as E by (unfold hyphW, isSoft, za, toAtom; cbn [at_f]; now rewrite Hf, andb_false_r).
    assert (isSpaced (at_f A za) = false) as -> by (unfold isSpaced, za, toAtom; cbn [at_f]; now rewrite Hf). lia. }
  assert (Forall (atomOk A attrs) (inia ++ [za])) as Hat.
  { rewrite <- Ea. apply Forall_forall. intros a Ha. destruct (atoms_attr a Ha) as (i & E1 & E2). exists i. eauto. }
  pose proof (alignedNodes_plain A u lb punct parts (rg_punct _ _ _ _ _ _ _ _ _ R) Hparts1 Hpunct1 spare tokens Hne Hptok Hplain Hcap) as En.
  assert (measuredAll A lb frs) as Hms by (eapply Forall_impl; [|apply frs_measured]; intros f0 Hf0; apply Hf0).
  specialize (En Hms). rewrite Ea in En.
  exists inia, za. auto 12.
Qed.

Variable W : Z.
Hypothesis HW : 0 < W <= 2 ^ 50.
Variable maxWidth : F A.
Hypothesis HmaxW : rep A L (scale A o maxWidth) W.
Variable ord : nat -> nat -> list fclass.
Hypothesis Hord : forall i k c, In c (ord i k).
Notation linesOk := (linesOk rh m sp hy A tol W).

Definition after : breaker A := mkBreaker o (lb_spaceWidth lb) (lb_hyphenWidth lb) attrs.
Theorem align_spec :
  (leftAlignUniform A u ord spare lb tokens maxWidth = Ret (None, after) /\
    ~ exists segs, layout softOn frs segs /\ linesOk true segs = true) \/
  (exists segs, leftAlignUniform A u ord spare lb tokens maxWidth = Ret (Some (map (lineText rh) segs), after) /\
    layout softOn frs segs /\ linesOk true segs = true /\
    (W <= 4997 -> forall segs', layout softOn frs segs' -> linesOk true segs' = true ->
       (length (last segs' []) <= length (last segs []))%nat)).
Proof.
  destruct align_setup as (inia & za & Ea & Emap & Hg & Hini & Hz & HBW & Hat & En).
  unfold leftAlignUniform. rewrite En. cbn [gbind].
  destruct R as [R1 R2 R3 R4 R5 R6 R7 R8 R9 R10 R11 R12 R13 R14 R15 R16 R17 R18 R19 R20].
  destruct (render_spec A L lb m sp hy R1 R2 R3 R4 R5 R6 R7 R8 R9 R10 inia za Hg Hini Hz HBW W HW R11
    (scale A o maxWidth) HmaxW ord Hord R18 R19 R20 attrs Hat) as [(E & Hno)|(bs & lines & E & Er & Hc & Hl & Hlay & Hok)].
  - left. rewrite E. cbn [gbind]. split; [reflexivity|]. now rewrite Emap in Hno.
  - right. exists (map (map (at_f A)) lines). rewrite E. cbn [gbind]. rewrite Er. cbn [gbind].
    rewrite showLines_plain. 2: { intros a Ha. rewrite Hc, <- Ea in Ha. exact Ha. }
    rewrite Emap in Hlay. split; [reflexivity|]. split; [exact Hlay|]. split; [exact Hok|].
    intros HW' segs' Hlay' Hok'.
    pose proof (laid_longest A L lb m sp hy R1 R2 R3 R4 R5 R6 inia za Hg Hini Hz W R11 None 0%nat _ _ Hl ltac:(lia)
      segs') as Hlong. rewrite Emap in Hlong. specialize (Hlong Hlay' Hok').
    assert (forall l : list (list (atom A)), length (last (map (map (at_f A)) l) []) = length (last l [])) as Elen.
    { clear. induction l as [|x l IH]; [reflexivity|]. destruct l; [apply map_length|]. cbn [map last] in *. exact IH. }
    now rewrite Elen.
Qed.

(** Exactly the layouts of SpecGreedy.v are found. *)
Notation greedy := (greedy rh softOn m sp hy A tol W frs 0).
Theorem align_greedy ls lb' : leftAlignUniform A u ord spare lb tokens maxWidth = Ret (Some ls, lb') ->
  exists segs, greedy segs /\ ls = map (lineText rh) segs.
Proof.
  destruct align_setup as (inia & za & Ea & Emap & Hg & Hini & Hz & HBW & Hat & En).
  unfold leftAlignUniform. rewrite En. cbn [gbind].
  destruct R as [R1 R2 R3 R4 R5 R6 R7 R8 R9 R10 R11 R12 R13 R14 R15 R16 R17 R18 R19 R20].
  destruct (render_spec A L lb m sp hy R1 R2 R3 R4 R5 R6 R7 R8 R9 R10 inia za Hg Hini Hz HBW W HW R11
    (scale A o maxWidth) HmaxW ord Hord R18 R19 R20 attrs Hat) as [(E & Hno)|(bs & lines & E & Er & Hc & Hl & Hlay & Hok)]; rewrite E; cbn [gbind]; [discriminate|].
  rewrite Er. cbn [gbind]. intros [= <- _]. exists (map (map (at_f A)) lines). split.
  - pose proof (laid_greedy A L lb m sp hy R1 R2 R3 R4 R5 R6 inia za Hg Hini Hz HBW W HW R11 _ _ _ _ Hl) as G. now rewrite Emap in G.
  - apply showLines_plain. intros a Ha. rewrite Hc, <- Ea in Ha. exact Ha.
Qed.
Theorem align_steered segs : greedy segs -> exists f,
  leftAlignUniform A u (fun i _ => rotation (f i)) spare lb tokens maxWidth = Ret (Some (map (lineText rh) segs), after).
Proof.
  intros Hgr. destruct align_setup as (inia & za & Ea & Emap & Hg & Hini & Hz & HBW & Hat & En).
  unfold leftAlignUniform. rewrite En. cbn [gbind].
  destruct R as [R1 R2 R3 R4 R5 R6 R7 R8 R9 R10 R11 R12 R13 R14 R15 R16 R17 R18 R19 R20].
  destruct (render_steered A L lb m sp hy R1 R2 R3 R4 R5 R6 R7 R8 R9 R10 inia za Hg Hini Hz HBW W HW R11
    (scale A o maxWidth) HmaxW R18 R19 R20 attrs Hat segs) as (f & bs & lines & E & Er & Hc & ->); [now rewrite Emap|].
  exists f. rewrite E. cbn [gbind]. rewrite Er. cbn [gbind].
  rewrite showLines_plain; [reflexivity|]. intros a Ha. rewrite Hc, <- Ea in Ha. exact Ha.
Qed.
End Align.
