(** From tokens to the fragments of a paragraph: the nodes built for plain tokens. *)
From Verif Require Import Base Arith Unicode Split SpecSplit SplitProofs Ansi SpecAnsi AnsiProofs Attr KP Nodes Render SpecKP KPProofs Frags Show Para.

(** [splitAt] computes the pieces. *)
Lemma splitAt_head f w : match splitAt f w with
  | [] => w = []
  | p :: _ => exists d r, p = d :: r /\ (exists w', w = d :: w')
  end.
Proof.
  destruct w as [|c w]; [reflexivity|]. cbn [splitAt]. destruct (f c); [eauto|].
  destruct (splitAt f w) as [|[|d p] ps]; eauto. destruct (f d); eauto.
Qed.
Lemma splitAt_pieces f w : pieces f w (splitAt f w).
Proof.
  induction w as [|c w IH]; [constructor|]. cbn [splitAt]. destruct (f c) eqn:E; [now constructor|].
  pose proof (splitAt_head f w) as Hh. destruct (splitAt f w) as [|[|d p] ps] eqn:Es.
  - subst w. change [c] with ([c] ++ []). constructor; [discriminate|repeat constructor; exact E|now left|constructor].
  - destruct Hh as (? & ? & ? & _). discriminate.
  - destruct Hh as (d' & r & Ed & w' & Ew). injection Ed as <- <-. destruct (f d) eqn:Ef.
    + change (c :: w) with ([c] ++ w). constructor; [discriminate|repeat constructor; exact E| |exact IH].
      right. exists d, w'. auto.
    + inversion IH as [|x w0 ps0 Hx Hp0 E1 E2|t w0 ps0 Ht Hf Hw Hp0 E1 E2].
      * congruence.
      * change (c :: (d :: p) ++ w0) with ((c :: d :: p) ++ w0). constructor; [discriminate| |assumption|assumption].
        constructor; assumption.
Qed.
Lemma splitAt_concat f w : concat (splitAt f w) = w.
Proof.
  induction w as [|c w IH]; [reflexivity|]. cbn [splitAt]. destruct (f c); [cbn; now rewrite IH|].
  destruct (splitAt f w) as [|[|d p] ps]; cbn in *; try now rewrite IH. destruct (f d); cbn in *; now rewrite IH.
Qed.
Lemma splitAt_nonempty f w : Forall (fun p => p <> []) (splitAt f w).
Proof.
  induction w as [|c w IH]; [constructor|]. cbn [splitAt]. destruct (f c); [constructor; [discriminate|exact IH]|].
  destruct (splitAt f w) as [|[|d p] ps]; try (constructor; [discriminate|exact IH]).
  inversion IH; subst. destruct (f d); constructor; try discriminate; assumption.
Qed.
Lemma splitWord_is w : splitWord w = Ret (splitAt isHyphenRune w).
Proof. destruct (splitWord_full w) as (ps & E & _ & _ & U). rewrite E. f_equal. symmetry. apply U. apply splitAt_pieces. Qed.
Lemma punctuator_is u w : punctuatorBreakWord u w = Ret (splitAt (punctSplitFunc u) w).
Proof. destruct (punctuator_full u w) as (ps & E & _ & _ & U). rewrite E. f_equal. symmetry. apply U. apply splitAt_pieces. Qed.

(** A state without any formatting *)
Definition plainAttr (a : attr) : Prop := a_start a = [] /\ a_stop a = [] /\ a_level a = 0.
Lemma plain_start s i : Forall plainAttr s -> startOfLine s i = [] /\ endOfLine s i = [].
Proof.
  intros H. unfold startOfLine, endOfLine. destruct (i_cur i) as [n|]; [|split; reflexivity].
  destruct (nth_error s n) as [a|] eqn:E; [|split; reflexivity].
  rewrite Forall_forall in H. destruct (H a) as (H1 & H2 & H3); [now apply nth_error_In in E|].
  unfold lineLevel, hasStop. rewrite H2, H3. split; reflexivity.
Qed.
Lemma plain_push s t : Forall plainAttr s -> push s (Some (newAttr t [] [])) = s ++ [newAttr t [] []].
Proof.
  intros H. unfold push, hasStart. cbn [newAttr a_start zlen length Z.of_nat Z.ltb Z.compare].
  f_equal. f_equal. unfold setLevel. cbn [newAttr a_text a_start a_stop].
  destruct s as [|a s] using rev_ind; [reflexivity|]. rewrite map_app. cbn [map]. rewrite last_last.
  apply Forall_app in H. destruct H as [_ H]. inversion H as [|? ? (H1 & H2 & H3) _]; subst.
  unfold hasStop. rewrite H2, H3. reflexivity.
Qed.
Lemma plain_render t : concat (attrRender (newAttr t [] [])) = t.
Proof.
  unfold attrRender, attrStart, attrStop, hasStart, hasStop. cbn [newAttr a_text a_start a_stop].
  destruct t; [reflexivity|]. cbn. now rewrite app_nil_r.
Qed.

Section Tokens.
Variable A : arith.
Variable u : unicode.
Variable lb : breaker A.
Notation F := (F A).
Notation o := (lb_opts lb).
Variable punct parts : list rune -> list (list rune).
Hypothesis Hpunct : forall w, w <> [] -> l_punctuator o w = Ret (punct w).
Hypothesis Hparts : l_wordBreak o = true -> forall w, w <> [] -> l_hyphenator o w = Ret (parts w) /\ parts w <> [].
Notation mark := (punctSplitFunc u).
Definition breakable (p : list rune) : bool := l_wordBreak o && negb (zlen p <=? l_minHyphenate o).
Notation wordFrags := (wordFrags parts (single isHyphenRune)).
Notation pieceFrags := (pieceFrags (splitAt isHyphenRune) parts (single mark) (single isHyphenRune) breakable).
Notation tokenFrags := (tokenFrags punct (splitAt isHyphenRune) parts (single mark) (single isHyphenRune) breakable).
Notation paragraph := (paragraph punct (splitAt isHyphenRune) parts (single mark) (single isHyphenRune) breakable).

Definition measured (t : list rune) : Prop := exists x, measure A o t = Ret x.
Definition widthOf (t : list rune) : F := match measure A o t with Ret x => x | Panic => fZ A 0 end.
Lemma measured_is t : measured t -> measure A o t = Ret (widthOf t).
Proof. intros [x E]. unfold widthOf. now rewrite E. Qed.
Definition penOf (f : frag) : F := if isPunctuation u (f_text f) then l_punctuationPenalty o else l_hardHyphenPenalty o.
Definition toAtom (n : nat) (f : frag) : atom A := mkAtom A f (penOf f) (widthOf (f_text f)) (Some n).
Fixpoint atomsFrom (n : nat) (fs : list frag) : list (atom A) :=
  match fs with [] => [] | f :: fs' => toAtom n f :: atomsFrom (S n) fs' end.
Definition attrsOf (fs : list frag) : state := map (fun f => newAttr (f_text f) [] []) fs.
Notation nodesOf := (nodesOf A lb).
Notation atomNodes := (atomNodes A lb).

Lemma atomsFrom_app n a b : atomsFrom n (a ++ b) = atomsFrom n a ++ atomsFrom (n + length a) b.
Proof.
  revert n. induction a as [|f a IH]; intros n; cbn [app atomsFrom length]; [now rewrite Nat.add_0_r|].
  rewrite IH. now replace (S n + length a)%nat with (n + S (length a))%nat by lia.
Qed.
Lemma atomsFrom_f n fs : map (at_f A) (atomsFrom n fs) = fs.
Proof. revert n. induction fs as [|f fs IH]; intros n; [reflexivity|]. cbn [atomsFrom map]. now rewrite IH. Qed.
Lemma attrsOf_plain fs : Forall plainAttr (attrsOf fs).
Proof. induction fs; constructor; [repeat split|assumption]. Qed.
Lemma attrsOf_app a b : attrsOf (a ++ b) = attrsOf a ++ attrsOf b.
Proof. apply map_app. Qed.
Lemma attrsOf_len fs : length (attrsOf fs) = length fs.
Proof. apply map_length. Qed.

Lemma startBox_plain ts t : Forall plainAttr (ts_attrs ts) -> measured t ->
  startBox A lb [] ts t = Ret (newBox A (widthOf t) t (Some (length (ts_attrs ts))),
    mkTs (ts_attrs ts ++ [newAttr t [] []]) (Some (length (ts_attrs ts))) true).
Proof.
  intros Hp Hm. unfold startBox. rewrite (measured_is t Hm). cbn [gbind]. unfold tsStart.
  assert (newAttr t (if ts_started ts then [] else []) [] = newAttr t [] []) as -> by (now destruct (ts_started ts)).
  rewrite (plain_push _ t Hp). reflexivity.
Qed.

(** [grow fs ts ts']: the state after the boxes of the fragments *)
Definition grown (fs : list frag) (ts ts' : tstate) : Prop := ts_attrs ts' = ts_attrs ts ++ attrsOf fs.
Definition measuredAll (fs : list frag) : Prop := Forall (fun f => measured (f_text f)) fs.

Lemma partNodes_plain ps : forall p ts nodes, Forall plainAttr (ts_attrs ts) -> measuredAll (partFrags (p :: ps)) ->
  exists ts', grown (partFrags (p :: ps)) ts ts' /\
  partNodes A lb [] ts p ps nodes = Ret (nodes ++ nodesOf (atomsFrom (length (ts_attrs ts)) (partFrags (p :: ps))), ts').
Proof.
  induction ps as [|q ps IH]; intros p ts nodes Hp Hm.
  - inversion Hm; subst. eexists. split; [|cbn [partNodes]; rewrite startBox_plain by assumption; cbn [gbind]; reflexivity].
    reflexivity.
  - change (partFrags (p :: q :: ps)) with (mkFrag p false Soft :: partFrags (q :: ps)) in *.
    inversion Hm as [|? ? H1 H2]; subst. cbn [f_text] in H1.
    destruct (IH q (mkTs (ts_attrs ts ++ [newAttr p [] []]) (Some (length (ts_attrs ts))) true)
      (nodes ++ [newBox A (widthOf p) p (Some (length (ts_attrs ts)))] ++ pushHyphen A lb)) as (ts' & G & E).
    + cbn [ts_attrs]. apply Forall_app. split; [exact Hp|]. repeat constructor.
    + exact H2.
    + exists ts'. split.
      * unfold grown in *. rewrite G. cbn [ts_attrs attrsOf map f_text]. now rewrite <- app_assoc.
      * cbn [partNodes]. rewrite startBox_plain by assumption. cbn [gbind]. rewrite E. f_equal. f_equal.
        cbn [ts_attrs]. rewrite app_length. cbn [length]. cbn [atomsFrom].
        replace (length (ts_attrs ts) + 1)%nat with (S (length (ts_attrs ts))) by lia.
        rewrite nodesOf_cons, <- !app_assoc. f_equal.
Qed.
Lemma wordFrags_split ws : flat_map wordFrags ws = flat_map wordFrags ws.
Proof. reflexivity. Qed.
Lemma grown_plain fs ts ts' : Forall plainAttr (ts_attrs ts) -> grown fs ts ts' -> Forall plainAttr (ts_attrs ts').
Proof. intros H ->. apply Forall_app. split; [exact H|apply attrsOf_plain]. Qed.
Lemma grown_app a b t1 t2 t3 : grown a t1 t2 -> grown b t2 t3 -> grown (a ++ b) t1 t3.
Proof. unfold grown. intros -> E. rewrite E. now rewrite attrsOf_app, app_assoc. Qed.
Lemma grown_len fs ts ts' : grown fs ts ts' -> length (ts_attrs ts') = (length (ts_attrs ts) + length fs)%nat.
Proof. intros ->. now rewrite app_length, attrsOf_len. Qed.

Lemma hyphen_not_punct w : isHyphen w = true -> isPunctuation u w = false.
Proof.
  intros H. destruct (isPunctuation u w) eqn:E; [|reflexivity]. now rewrite (punct_not_hyphen u w E) in H.
Qed.
Lemma markNodes_atom n t p : mkFrag t true Glued = mkFrag t true Glued ->
  markNodes A lb (newBox A (widthOf t) t (Some n)) p =
  atomNodes (mkAtom A (mkFrag t true Glued) p (widthOf t) (Some n)).
Proof. intros _. unfold Frags.atomNodes. cbn [at_f f_mark f_joint joinNodes at_pen]. now rewrite app_nil_r. Qed.

Lemma wordNodes_plain (Hwb : l_wordBreak o = true) ws : forall ts nodes, Forall plainAttr (ts_attrs ts) ->
  Forall (fun w => w <> []) ws -> measuredAll (flat_map wordFrags ws) ->
  exists ts', grown (flat_map wordFrags ws) ts ts' /\
  wordNodes A lb [] ts ws nodes = Ret (nodes ++ nodesOf (atomsFrom (length (ts_attrs ts)) (flat_map wordFrags ws)), ts').
Proof.
  induction ws as [|w ws IH]; intros ts nodes Hp Hne Hm.
  - exists ts. split; [unfold grown; cbn; now rewrite app_nil_r|]. cbn. now rewrite app_nil_r.
  - cbn [flat_map] in *. apply Forall_app in Hm. destruct Hm as [Hm1 Hm2]. inversion Hne as [|? ? Hw Hne']; subst.
    cbn [wordNodes]. unfold SpecKP.wordFrags at 1 in Hm1. unfold SpecKP.wordFrags at 1 3.
    change (single isHyphenRune w) with (isHyphen w) in *. destruct (isHyphen w) eqn:Eh.
    + inversion Hm1; subst. rewrite startBox_plain by assumption. cbn [gbind].
      set (ts1 := mkTs (ts_attrs ts ++ [newAttr w [] []]) (Some (length (ts_attrs ts))) true).
      assert (grown [mkFrag w true Glued] ts ts1) as G1 by reflexivity.
      destruct (IH ts1 (nodes ++ markNodes A lb (newBox A (widthOf w) w (Some (length (ts_attrs ts)))) (l_hardHyphenPenalty o)))
        as (ts' & G & E); [now apply (grown_plain _ _ _ Hp G1)|exact Hne'|exact Hm2|].
      exists ts'. split; [exact (grown_app _ _ _ _ _ G1 G)|]. rewrite E. f_equal. f_equal.
      rewrite (grown_len _ _ _ G1), atomsFrom_app, nodesOf_app, <- app_assoc. f_equal.
      f_equal. cbn [atomsFrom]. rewrite nodesOf_cons. change (nodesOf []) with (@nil (node A)). rewrite app_nil_r, markNodes_atom by reflexivity.
      unfold toAtom, penOf. cbn [f_text]. now rewrite (hyphen_not_punct w Eh).
    + destruct (Hparts Hwb w Hw) as [E1 E2]. rewrite E1. cbn [gbind]. destruct (parts w) as [|p ps]; [congruence|].
      destruct (partNodes_plain ps p ts nodes Hp Hm1) as (ts1 & G1 & E3). rewrite E3. cbn [gbind].
      destruct (IH ts1 (nodes ++ nodesOf (atomsFrom (length (ts_attrs ts)) (partFrags (p :: ps))))) as (ts' & G & E);
        [now apply (grown_plain _ _ _ Hp G1)|exact Hne'|exact Hm2|].
      exists ts'. split; [exact (grown_app _ _ _ _ _ G1 G)|]. rewrite E. f_equal. f_equal.
      now rewrite (grown_len _ _ _ G1), atomsFrom_app, nodesOf_app, <- app_assoc.
Qed.
Lemma pieceNodes_plain ps : forall ts nodes, Forall plainAttr (ts_attrs ts) -> measuredAll (flat_map pieceFrags ps) ->
  exists ts', grown (flat_map pieceFrags ps) ts ts' /\
  pieceNodes A u lb [] ts ps nodes = Ret (nodes ++ nodesOf (atomsFrom (length (ts_attrs ts)) (flat_map pieceFrags ps)), ts').
Proof.
  induction ps as [|w ps IH]; intros ts nodes Hp Hm.
  - exists ts. split; [unfold grown; cbn; now rewrite app_nil_r|]. cbn. now rewrite app_nil_r.
  - cbn [flat_map] in *. apply Forall_app in Hm. destruct Hm as [Hm1 Hm2].
    cbn [pieceNodes]. unfold SpecKP.pieceFrags at 1 in Hm1. unfold SpecKP.pieceFrags at 1 3.
    change (single mark w) with (isPunctuation u w) in *. destruct (isPunctuation u w) eqn:Eh.
    + inversion Hm1; subst. rewrite startBox_plain by assumption. cbn [gbind].
      set (ts1 := mkTs (ts_attrs ts ++ [newAttr w [] []]) (Some (length (ts_attrs ts))) true).
      assert (grown [mkFrag w true Glued] ts ts1) as G1 by reflexivity.
      destruct (IH ts1 (nodes ++ markNodes A lb (newBox A (widthOf w) w (Some (length (ts_attrs ts)))) (l_punctuationPenalty o)))
        as (ts' & G & E); [now apply (grown_plain _ _ _ Hp G1)|exact Hm2|].
      exists ts'. split; [exact (grown_app _ _ _ _ _ G1 G)|]. rewrite E. f_equal. f_equal.
      rewrite (grown_len _ _ _ G1), atomsFrom_app, nodesOf_app, <- app_assoc. f_equal.
      f_equal. cbn [atomsFrom]. rewrite nodesOf_cons. change (nodesOf []) with (@nil (node A)). rewrite app_nil_r, markNodes_atom by reflexivity.
      unfold toAtom, penOf. cbn [f_text]. now rewrite Eh.
    + assert (negb (l_wordBreak o) || (zlen w <=? l_minHyphenate o) = negb (breakable w)) as ->.
      { unfold breakable. now rewrite negb_andb, negb_involutive. }
      destruct (breakable w) eqn:Eb; cbn [negb].
      * assert (l_wordBreak o = true) as Hwb by (unfold breakable in Eb; now apply andb_prop in Eb).
        rewrite splitWord_is. cbn [gbind].
        destruct (wordNodes_plain Hwb (splitAt isHyphenRune w) ts nodes Hp (splitAt_nonempty _ _) Hm1) as (ts1 & G1 & E3).
        rewrite E3. cbn [gbind].
        destruct (IH ts1 (nodes ++ nodesOf (atomsFrom (length (ts_attrs ts)) (flat_map wordFrags (splitAt isHyphenRune w))))) as (ts' & G & E);
          [now apply (grown_plain _ _ _ Hp G1)|exact Hm2|].
        exists ts'. split; [exact (grown_app _ _ _ _ _ G1 G)|]. rewrite E. f_equal. f_equal.
        now rewrite (grown_len _ _ _ G1), atomsFrom_app, nodesOf_app, <- app_assoc.
      * inversion Hm1; subst. rewrite startBox_plain by assumption. cbn [gbind].
        set (ts1 := mkTs (ts_attrs ts ++ [newAttr w [] []]) (Some (length (ts_attrs ts))) true).
        assert (grown [mkFrag w false Glued] ts ts1) as G1 by reflexivity.
        destruct (IH ts1 (nodes ++ [newBox A (widthOf w) w (Some (length (ts_attrs ts)))]))
          as (ts' & G & E); [now apply (grown_plain _ _ _ Hp G1)|exact Hm2|].
        exists ts'. split; [exact (grown_app _ _ _ _ _ G1 G)|]. rewrite E. f_equal. f_equal.
        rewrite (grown_len _ _ _ G1), atomsFrom_app, nodesOf_app, <- app_assoc. f_equal.
Qed.

Definition plainToken (t : list rune) : Prop := t <> [] /\ ~ hasCSI t.
Lemma boxNodes_plain token spare attrs : token <> [] -> mcap (token ++ spare) -> ~ hasCSI token -> Forall plainAttr attrs ->
  measuredAll (tokenFrags token) ->
  boxNodes A u lb token spare attrs =
  Ret (nodesOf (atomsFrom (length attrs) (tokenFrags token)), attrs ++ attrsOf (tokenFrags token)).
Proof.
  intros Ht Hc Hn Hp Hm. unfold boxNodes. destruct (strip_plain u token spare Hc Hn) as (st & E & E1 & E2 & E3).
  rewrite E. cbn [gbind strippedNodes]. rewrite E2, (Hpunct _ Ht), E1. cbn [contents gbind].
  destruct (pieceNodes_plain (punct token) (mkTs attrs None false) [] Hp Hm) as (ts' & G & E4). rewrite E4. cbn [gbind app].
  rewrite E3. cbn [contents]. unfold tsStop. unfold grown in G. cbn [ts_attrs] in G.
  destruct (ts_current ts'); cbn [zlen length Z.of_nat Z.eqb]; rewrite G; reflexivity.
Qed.

(** Joints *)
Definition lastGlued (fs : list frag) : Prop := exists ini f, fs = ini ++ [mkFrag (f_text f) (f_mark f) Glued] /\ Forall (fun g => f_joint g <> End_ /\ f_joint g <> Space) ini.
Lemma endWith_snoc j ini f : endWith j (ini ++ [f]) = ini ++ [mkFrag (f_text f) (f_mark f) j].
Proof.
  induction ini as [|g ini IH]; [reflexivity|]. cbn [app endWith]. rewrite IH. destruct ini; reflexivity.
Qed.
Lemma partFrags_glued p ps : lastGlued (partFrags (p :: ps)).
Proof.
  revert p. induction ps as [|q ps IH]; intros p.
  - exists [], (mkFrag p false Glued). split; [reflexivity|constructor].
  - destruct (IH q) as (ini & f & E & Hi). exists (mkFrag p false Soft :: ini), f.
    change (partFrags (p :: q :: ps)) with (mkFrag p false Soft :: partFrags (q :: ps)). rewrite E. split; [reflexivity|].
    constructor; [split; discriminate|exact Hi].
Qed.
Lemma glued_app a b : lastGlued a -> lastGlued b -> lastGlued (a ++ b).
Proof.
  intros (i1 & f1 & -> & H1) (i2 & f2 & -> & H2). exists ((i1 ++ [mkFrag (f_text f1) (f_mark f1) Glued]) ++ i2), f2.
  split; [now rewrite !app_assoc|]. apply Forall_app. split; [|exact H2]. apply Forall_app. split; [exact H1|].
  constructor; [split; discriminate|constructor].
Qed.
Lemma glued_flat {T} (g : T -> list frag) l : l <> [] -> Forall (fun x => lastGlued (g x)) l -> lastGlued (flat_map g l).
Proof.
  intros Hne H. induction H as [|x l Hx H IH]; [congruence|]. cbn [flat_map]. destruct l as [|y l].
  - cbn. now rewrite app_nil_r.
  - apply glued_app; [exact Hx|]. apply IH. discriminate.
Qed.
Lemma glued_one t b : lastGlued [mkFrag t b Glued].
Proof. exists [], (mkFrag t b Glued). split; [reflexivity|constructor]. Qed.
Lemma wordFrags_glued (Hwb : l_wordBreak o = true) w : w <> [] -> lastGlued (wordFrags w).
Proof.
  intros Hw. unfold SpecKP.wordFrags. destruct (single isHyphenRune w); [apply glued_one|].
  destruct (Hparts Hwb w Hw) as [_ H]. destruct (parts w); [congruence|]. apply partFrags_glued.
Qed.
Lemma splitAt_ne f w : w <> [] -> splitAt f w <> [].
Proof. intros Hw E. apply Hw. rewrite <- (splitAt_concat f w), E. reflexivity. Qed.
Lemma pieceFrags_glued p : p <> [] -> lastGlued (pieceFrags p).
Proof.
  intros Hp. unfold SpecKP.pieceFrags. destruct (single mark p); [apply glued_one|]. destruct (breakable p) eqn:Eb; [|apply glued_one].
  apply glued_flat; [now apply splitAt_ne|]. eapply Forall_impl; [|apply splitAt_nonempty]. intros w. apply wordFrags_glued.
  unfold breakable in Eb. now apply andb_prop in Eb.
Qed.
Hypothesis Hpunct1 : forall w, w <> [] -> punct w <> [] /\ Forall (fun p => p <> []) (punct w).
Lemma tokenFrags_glued t : t <> [] -> lastGlued (tokenFrags t).
Proof.
  intros Ht. destruct (Hpunct1 t Ht) as [H1 H2]. apply glued_flat; [exact H1|]. eapply Forall_impl; [|exact H2].
  intros p. apply pieceFrags_glued.
Qed.
Lemma endWith_len j fs : length (endWith j fs) = length fs.
Proof. induction fs as [|f fs IH]; [reflexivity|]. destruct fs; [reflexivity|]. cbn [endWith length] in *. now rewrite IH. Qed.
Lemma endWith_text j fs : map f_text (endWith j fs) = map f_text fs.
Proof. induction fs as [|f fs IH]; [reflexivity|]. destruct fs; [reflexivity|]. change (endWith j (f :: f0 :: fs)) with (f :: endWith j (f0 :: fs)). cbn [map] in *. now rewrite IH. Qed.
Lemma endWith_nodes j n fs : lastGlued fs ->
  nodesOf (atomsFrom n (endWith j fs)) = nodesOf (atomsFrom n fs) ++ joinNodes A lb j.
Proof.
  intros (ini & f & -> & _). rewrite endWith_snoc. cbn [f_text f_mark]. rewrite !atomsFrom_app, !nodesOf_app, <- app_assoc. f_equal.
  cbn [atomsFrom]. rewrite !nodesOf_cons. change (nodesOf []) with (@nil (node A)). rewrite !app_nil_r.
  unfold Frags.atomNodes, toAtom, penOf. cbn [at_f at_pen f_mark f_joint f_text joinNodes]. now rewrite app_nil_r.
Qed.
Lemma attrsOf_text a b : map f_text a = map f_text b -> attrsOf a = attrsOf b.
Proof. unfold attrsOf. intros H. rewrite <- !(map_map f_text (fun t => newAttr t [] [])). now rewrite H. Qed.
Lemma measured_text a b : map f_text a = map f_text b -> measuredAll a -> measuredAll b.
Proof.
  unfold measuredAll. intros E H. apply (Forall_map f_text measured). rewrite <- E. now apply Forall_map.
Qed.

Lemma alignedLoop_plain spare tokens : forall token i attrs nodes, Forall plainToken (token :: tokens) -> Forall plainAttr attrs ->
  (forall j t, nth_error (token :: tokens) j = Some t -> mcap (t ++ spare (i + j)%nat)) ->
  measuredAll (paragraph (token :: tokens)) ->
  alignedLoop A u lb token tokens spare i attrs nodes =
  Ret (nodes ++ nodesOf (atomsFrom (length attrs) (paragraph (token :: tokens))), attrs ++ attrsOf (paragraph (token :: tokens))).
Proof.
  induction tokens as [|t2 tokens IH]; intros token i attrs nodes Ht Hp Hc Hm.
  - inversion Ht as [|? ? [Ht1 Ht2] _]; subst. cbn [alignedLoop SpecKP.paragraph] in *.
    pose proof (Hc 0%nat token eq_refl) as Hc0. rewrite Nat.add_0_r in Hc0.
    rewrite boxNodes_plain; [|assumption..|].
    2: { revert Hm. apply measured_text. apply endWith_text. }
    cbn [gbind]. rewrite (endWith_nodes End_) by (now apply tokenFrags_glued). f_equal. f_equal.
    now rewrite (attrsOf_text _ _ (endWith_text End_ (tokenFrags token))).
  - inversion Ht as [|? ? [Ht1 Ht2] Ht']; subst.
    change (paragraph (token :: t2 :: tokens)) with (endWith Space (tokenFrags token) ++ paragraph (t2 :: tokens)) in *.
    apply Forall_app in Hm. destruct Hm as [Hm1 Hm2]. cbn [alignedLoop].
    pose proof (Hc 0%nat token eq_refl) as Hc0. rewrite Nat.add_0_r in Hc0.
    rewrite boxNodes_plain; [|assumption..|].
    2: { revert Hm1. apply measured_text. apply endWith_text. }
    cbn [gbind]. rewrite IH.
    + rewrite app_length, attrsOf_len. rewrite atomsFrom_app, nodesOf_app, attrsOf_app, endWith_len.
      rewrite (endWith_nodes Space) by (now apply tokenFrags_glued). rewrite <- !app_assoc. cbn [joinNodes].
      now rewrite (attrsOf_text _ _ (endWith_text Space (tokenFrags token))).
    + exact Ht'.
    + apply Forall_app. split; [exact Hp|apply attrsOf_plain].
    + intros j t Hj. replace (S i + j)%nat with (i + S j)%nat by lia. now apply Hc.
    + exact Hm2.
Qed.
Lemma alignedNodes_plain spare tokens : tokens <> [] -> Forall plainToken tokens -> Forall plainAttr (lb_attrs lb) ->
  (forall j t, nth_error tokens j = Some t -> mcap (t ++ spare j)) -> measuredAll (paragraph tokens) ->
  leftAlignedNodes A u lb tokens spare =
  Ret (nodesOf (atomsFrom (length (lb_attrs lb)) (paragraph tokens)), lb_attrs lb ++ attrsOf (paragraph tokens)).
Proof.
  intros Hne Ht Hp Hc Hm. destruct tokens as [|t ts]; [congruence|]. unfold leftAlignedNodes.
  rewrite alignedLoop_plain; try assumption; reflexivity.
Qed.

(** The shape of the paragraph *)
Lemma paragraph_shape tokens : tokens <> [] -> Forall plainToken tokens ->
  exists ini f, paragraph tokens = ini ++ [f] /\ f_joint f = End_ /\ Forall (fun g => f_joint g <> End_) ini.
Proof.
  intros Hne H. induction H as [|t ts [Ht _] Hts IH]; [congruence|]. destruct (tokenFrags_glued t Ht) as (ini & f & E & Hi).
  destruct ts as [|t2 ts].
  - cbn [SpecKP.paragraph]. rewrite E, endWith_snoc. exists ini, (mkFrag (f_text f) (f_mark f) End_).
    split; [reflexivity|]. split; [reflexivity|]. eapply Forall_impl; [|exact Hi]. intros g [Hg _]. exact Hg.
  - destruct IH as (ini2 & f2 & E2 & Ef & Hi2); [discriminate|].
    change (paragraph (t :: t2 :: ts)) with (endWith Space (tokenFrags t) ++ paragraph (t2 :: ts)).
    rewrite E2, E, endWith_snoc. exists ((ini ++ [mkFrag (f_text f) (f_mark f) Space]) ++ ini2), f2. cbn [f_text f_mark].
    split; [now rewrite app_assoc|]. split; [exact Ef|]. apply Forall_app. split; [|exact Hi2]. apply Forall_app. split.
    + eapply Forall_impl; [|exact Hi]. intros g [Hg _]. exact Hg.
    + constructor; [discriminate|constructor].
Qed.
End Tokens.
