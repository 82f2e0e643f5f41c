(** Characters replaced by others of the same kind and width: same lines. *)
From Verif Require Import Base Arith Unicode Split SpecSplit SplitProofs Width WidthProofs Hyph Dict HyphProofs Ansi SpecAnsi AnsiProofs Attr KP Nodes Render Tokens Align Options Call Reuse.

Section Reb.
Variable A : arith.
Variable ko : kopts A.
Variable f : rune -> rune.
(** a node with other characters *)
Definition reb (n : node A) : node A := mkNode (n_type n) (n_penalty n) (n_flagged n) (map f (n_value n)) (n_attr n) (n_sums n).

Lemma findStart_reb ns : forall i, findStartNode A (map reb ns) i = findStartNode A ns i.
Proof. induction ns as [|n ns IH]; intros i; [reflexivity|]. cbn [map findStartNode reb n_type n_penalty]. destruct (n_type n); rewrite ?IH; reflexivity. Qed.
Lemma sumFrom_reb ns : forall b s, sumFrom A (map reb ns) b s = sumFrom A ns b s.
Proof.
  induction ns as [|n ns IH]; intros b s; [reflexivity|]. cbn [map sumFrom].
  change (isGlue (reb n)) with (isGlue n). change (isBox (reb n)) with (isBox n). change (isForcedBreak (reb n)) with (isForcedBreak n).
  change (n_sums (reb n)) with (n_sums n). destruct (isGlue n); [apply IH|]. destruct (isBox n || _); [reflexivity|apply IH].
Qed.
Lemma demerits_reb ns b to r : demeritsAndClass A ko (map reb ns) b (reb to) r = demeritsAndClass A ko ns b to r.
Proof.
  unfold demeritsAndClass. rewrite nth_error_map. destruct (nth_error ns (b_position b)) as [p|]; reflexivity.
Qed.
Lemma inner_reb ns ws nd sum rest : forall done cands low,
  inner A ko (map reb ns) ws (reb nd) sum done rest cands low = inner A ko ns ws nd sum done rest cands low.
Proof.
  induction rest as [|a rest IH]; intros done cands low; [reflexivity|]. cbn [inner].
  destruct (idealWidth A ws (b_line a + 1)) as [ideal|]; cbn [gbind]; [|reflexivity].
  change (adjustmentRatio A a (reb nd) sum ideal) with (adjustmentRatio A a nd sum ideal). rewrite demerits_reb.
  change (isForcedBreak (reb nd)) with (isForcedBreak nd).
  match goal with |- gbind ?x _ = _ => destruct x as [[c l]|]; cbn [gbind]; [|reflexivity] end.
  destruct rest; [reflexivity|]. destruct (b_line a + 1 <=? b_line a); [reflexivity|apply IH].
Qed.
Lemma outer_reb fuel ord ns ws i nd sum : forall k done rest low,
  outer A ko fuel ord k (map reb ns) ws i (reb nd) sum done rest low = outer A ko fuel ord k ns ws i nd sum done rest low.
Proof.
  induction fuel as [|fuel IH]; intros k done rest low; destruct rest as [|a rest]; try reflexivity. cbn [outer].
  rewrite inner_reb. destruct (inner A ko ns ws nd sum done (a :: rest) (defaultCandidates A) low) as [[[[d r] c] l]|]; cbn [gbind]; [|reflexivity].
  unfold sumFromNode. rewrite skipn_map, sumFrom_reb. apply IH.
Qed.
Lemma breakLoop_reb ord ns ws rest : forall prev i sum act,
  breakLoop A ko ord (map reb ns) ws (map reb rest) (option_map reb prev) i sum act = breakLoop A ko ord ns ws rest prev i sum act.
Proof.
  induction rest as [|nd rest IH]; intros prev i sum act; [reflexivity|]. cbn [map breakLoop]. change (n_type (reb nd)) with (n_type nd).
  unfold mainLoop. rewrite !outer_reb. change (n_penalty (reb nd)) with (n_penalty nd). change (n_sums (reb nd)) with (n_sums nd).
  assert (match option_map reb prev with
          | Some p => if isBox p then outer A ko (length act) (ord i) 0 ns ws i nd sum [] act (fMax A) else Ret act | None => Ret act end =
          match prev with
          | Some p => if isBox p then outer A ko (length act) (ord i) 0 ns ws i nd sum [] act (fMax A) else Ret act | None => Ret act end) as ->
    by (destruct prev; reflexivity).
  match goal with |- gbind ?x _ = gbind ?x _ => destruct x as [[a s]|]; cbn [gbind]; [|reflexivity] end.
  change (Some (reb nd)) with (option_map reb (Some nd)). apply IH.
Qed.
Lemma breakPoints_reb ord ns ws : breakPoints A ko ord (map reb ns) ws = breakPoints A ko ord ns ws.
Proof.
  unfold breakPoints. rewrite findStart_reb, skipn_map.
  assert (match findStartNode A ns 0 with O => None | S p => nth_error (map reb ns) p end =
          option_map reb (match findStartNode A ns 0 with O => None | S p => nth_error ns p end)) as ->.
  { destruct (findStartNode A ns 0); [reflexivity|]. apply nth_error_map. }
  now rewrite breakLoop_reb.
Qed.
End Reb.

(** ** Rendering nodes without renderers *)
Section RenderReb.
Variable A : arith.
Variable o : lopts A.
Variable f : rune -> rune.
Hypothesis f_space : f 32 = 32.
Hypothesis f_hyphen : f 45 = 45.
Notation reb := (reb A f).
Notation unattr := (fun n : node A => n_attr n = None).
Definition both {S T} (g : S -> T) (x : go S) : go T := let! y := x in Ret (g y).
Lemma spaces_map n : both (map f) (repeatSpaces n) = repeatSpaces n.
Proof.
  unfold repeatSpaces. destruct (n <? 0); [reflexivity|]. cbn [both gbind]. f_equal. induction (Z.to_nat n) as [|k IH]; [reflexivity|].
  cbn [repeat map]. now rewrite f_space, IH.
Qed.
Lemma renderLine_reb r ns : Forall unattr ns -> forall it it2 w,
  both fst (renderLine A o [] r (map reb ns) it2 (map f w)) = both (fun x => map f (fst x)) (renderLine A o [] r ns it w).
Proof.
  induction 1 as [|n ns Hn _ IH]; intros it it2 w; [reflexivity|]. cbn [map renderLine]. change (n_type (reb n)) with (n_type n).
  destruct (n_type n) eqn:En.
  - change (n_penalty (reb n)) with (n_penalty n).
    assert (match map reb ns with [] => true | _ => false end = match ns with [] => true | _ => false end) as -> by (destruct ns; reflexivity).
    destruct (l_renderHyphens o && feq A (n_penalty n) (l_hyphenPenalty o) && _); [|apply IH].
    rewrite <- (IH it it2 (w ++ [45])), map_app. cbn [map]. now rewrite f_hyphen.
  - change (n_sums (reb n)) with (n_sums n). match goal with |- context [repeatSpaces ?k] => pose proof (spaces_map k) as S; destruct (repeatSpaces k) as [s|] end;
      cbn [both gbind] in *; [|reflexivity]. injection S as S. specialize (IH it it2 (w ++ s)). rewrite map_app, S in IH. exact IH.
  - change (n_attr (reb n)) with (n_attr n). rewrite Hn. change (n_value (reb n)) with (map f (n_value n)). rewrite <- map_app. apply IH.
Qed.
Definition rebLine (l : F A * list (node A)) : F A * list (node A) := (fst l, map reb (snd l)).
Lemma renderLines_reb lines : Forall (fun l => Forall unattr (snd l)) lines -> forall it it2,
  renderLines A o [] (map rebLine lines) it2 = both (map (map f)) (renderLines A o [] lines it).
Proof.
  induction 1 as [|[r ns] lines Hl _ IH]; intros it it2; [reflexivity|]. cbn [map renderLines rebLine fst snd] in *.
  rewrite (proj1 (plain_start [] it (Forall_nil _))), (proj1 (plain_start [] it2 (Forall_nil _))). cbn [concat].
  pose proof (renderLine_reb r ns Hl it it2 []) as E. cbn [map] in E.
  destruct (renderLine A o [] r (map reb ns) it2 []) as [[w2 i2]|], (renderLine A o [] r ns it []) as [[w1 i1]|]; cbn [both gbind fst] in E; try discriminate;
    [|reflexivity]. injection E as ->. cbn [gbind both]. rewrite (IH i1 i2).
  destruct (renderLines A o [] lines i1) as [ls|]; cbn [gbind both]; [|reflexivity].
  rewrite (proj2 (plain_start [] i1 (Forall_nil _))), (proj2 (plain_start [] i2 (Forall_nil _))). cbn [concat map]. now rewrite !app_nil_r.
Qed.
Lemma skip_reb ns : forall j, skip_loop A (map reb ns) j = skip_loop A ns j.
Proof.
  induction ns as [|n ns IH]; intros j; [reflexivity|]. cbn [map skip_loop].
  change (isBox (reb n)) with (isBox n). change (isForcedBreak (reb n)) with (isForcedBreak n). now rewrite IH.
Qed.
Lemma cutLines_reb ns bs : forall s, cutLines A (map reb ns) bs s = both (map rebLine) (cutLines A ns bs s).
Proof.
  induction bs as [|b bs IH]; intros s; [reflexivity|]. cbn [cutLines]. unfold skipNodes. rewrite skipn_map, skip_reb, slice_map.
  destruct (slice ns _ _); cbn [gbind]; [|reflexivity]. rewrite IH. destruct (cutLines A ns bs (b_position b)); reflexivity.
Qed.
Lemma render_reb ns bs : Forall unattr ns -> render A o [] (map reb ns) bs = both (map (map f)) (render A o [] ns bs).
Proof.
  intros Hs. unfold render. rewrite cutLines_reb. destruct (cutLines A ns bs 0) as [ls|] eqn:E; cbn [gbind both]; [|reflexivity].
  apply renderLines_reb. eapply cutLines_in; eassumption.
Qed.
End RenderReb.

(** ** Nodes *)
(** [g] cuts [w] at the same places whether characters are replaced before or after *)
Definition follows (f : rune -> rune) (g : list rune -> go (list (list rune))) (w : list rune) : Prop := g (map f w) = both (map (map f)) (g w).
(** The same for the word breakers of [o] on a token: the hyphenator gets the pieces without marks and hyphens. *)
Record followed (A : arith) (o : lopts A) (f : rune -> rune) (t : list rune) : Prop := mkFollowed {
  fw_punct : follows f (l_punctuator o) t;
  fw_parts : l_wordBreak o = true -> forall ps p w, l_punctuator o t = Ret ps -> In p ps -> In w (splitAt isHyphenRune p) -> follows f (l_hyphenator o) w
}.
Section Nodes.
Variable A : arith.
Variable u : unicode.
Variable o : lopts A.
Variable sp hy : F A.
Variable f : rune -> rune.
Hypothesis f_measure : forall v, l_measurer o (map f v) = l_measurer o v.
Hypothesis f_mark : forall r, punctSplitFunc u (f r) = punctSplitFunc u r.
Hypothesis f_hrune : forall r, isHyphenRune (f r) = isHyphenRune r.
Notation bare := (bare A).
Notation reb := (reb A f).
Variable s1 s2 : state.
Notation lb1 := (mkBreaker o sp hy s1).
Notation lb2 := (mkBreaker o sp hy s2).
Notation okState := (okState A).
Variable e1 e2 : list (node A).
Definition simr (x y : go (list (node A) * tstate)) : Prop :=
  match x, y with
  | Ret (n1, t1), Ret (n2, t2) => map reb (map bare n1) = map bare n2 /\ ts_started t1 = ts_started t2 /\ okState (ts_attrs t1) (e1 ++ n1) /\ okState (ts_attrs t2) (e2 ++ n2)
  | Panic, Panic => True
  | _, _ => False
  end.
Notation still := (Forall (fun n : node A => n_type n <> TBox /\ n_value n = [])).
Lemma still_nobox ns : still ns -> Forall (fun n : node A => n_type n <> TBox) ns.
Proof. intros H. eapply Forall_impl; [|exact H]. now intros n []. Qed.
Lemma still_reb ns : still ns -> map reb (map bare ns) = map bare ns.
Proof.
  induction 1 as [|n ns [_ H] _ IH]; [reflexivity|]. cbn [map]. rewrite IH. f_equal.
  unfold Letters.reb, Reuse.bare. cbn [n_type n_penalty n_flagged n_value n_attr n_sums]. now rewrite H.
Qed.
Lemma measure_reb v : measure A o (map f v) = measure A o v.
Proof. unfold measure. now rewrite f_measure. Qed.
Lemma box_simr t1 t2 v n1 n2 (pre post : list (node A)) (Hpre : still pre) (Hpost : still post) :
  map reb (map bare n1) = map bare n2 -> ts_started t1 = ts_started t2 -> okState (ts_attrs t1) (e1 ++ n1) -> okState (ts_attrs t2) (e2 ++ n2) ->
  match startBox A lb1 [] t1 v, startBox A lb2 [] t2 (map f v) with
  | Ret (b1, t1'), Ret (b2, t2') => simr (Ret (n1 ++ pre ++ [b1] ++ post, t1')) (Ret (n2 ++ pre ++ [b2] ++ post, t2'))
  | Panic, Panic => True
  | _, _ => False
  end.
Proof.
  intros Hn Hs H1 H2. unfold startBox. cbn [lb_opts]. rewrite measure_reb. destruct (measure A o v) as [w|]; cbn [gbind]; [|exact I].
  unfold tsStart. assert (forall b : bool, (if b then [] else []) = (@nil rune)) as Eb by (intros []; reflexivity). rewrite !Eb. cbn [ts_current].
  rewrite (plain_push _ v (proj1 H1)), (plain_push _ (map f v) (proj1 H2)). cbn [simr ts_started ts_attrs].
  assert (forall s e n v, okState s (e ++ n) -> okState (s ++ [newAttr v [] []]) (e ++ n ++ pre ++ [newBox A w v (Some (length s))] ++ post)) as K.
  { intros s e n x H. rewrite !app_assoc. apply okState_add; [|now apply still_nobox]. apply okState_push. apply okState_add; [exact H|now apply still_nobox]. }
  split; [|split; [reflexivity|]; split; apply K; assumption]. rewrite !map_app, Hn, (still_reb pre Hpre), (still_reb post Hpost). reflexivity.
Qed.
Lemma simr_bind x y g h : simr x y -> (forall n1 t1 n2 t2, simr (Ret (n1, t1)) (Ret (n2, t2)) -> simr (g (n1, t1)) (h (n2, t2))) -> simr (gbind x g) (gbind y h).
Proof. intros H K. destruct x as [[n1 t1]|], y as [[n2 t2]|]; try destruct H; cbn [gbind]; [now apply K; split|exact I]. Qed.
Lemma box_step pre post v t1 t2 n1 n2 g h : still pre -> still post -> simr (Ret (n1, t1)) (Ret (n2, t2)) ->
  (forall b1 t1' b2 t2', simr (Ret (n1 ++ pre ++ [b1] ++ post, t1')) (Ret (n2 ++ pre ++ [b2] ++ post, t2')) -> simr (g (b1, t1')) (h (b2, t2'))) ->
  simr (gbind (startBox A lb1 [] t1 v) g) (gbind (startBox A lb2 [] t2 (map f v)) h).
Proof.
  intros Hpre Hpost (H1 & H2 & H3 & H4) K. pose proof (box_simr t1 t2 v n1 n2 pre post Hpre Hpost H1 H2 H3 H4) as B.
  destruct (startBox A lb1 [] t1 v) as [[b1 t1']|], (startBox A lb2 [] t2 (map f v)) as [[b2 t2']|]; try (now destruct B); cbn [gbind]. now apply K.
Qed.
Lemma still_nil : still []. Proof. constructor. Qed.
Ltac st := repeat (constructor; [split; [discriminate|reflexivity]|]); apply still_nil.
Lemma single_map (g : rune -> bool) w : (forall r, g (f r) = g r) -> match map f w with [r] => g r | _ => false end = match w with [r] => g r | _ => false end.
Proof. intros H. destruct w as [|r [|]]; try reflexivity. apply H. Qed.
Lemma splitAt_map (g : rune -> bool) : (forall r, g (f r) = g r) -> forall w, splitAt g (map f w) = map (map f) (splitAt g w).
Proof.
  intros H. induction w as [|c w IH]; [reflexivity|]. cbn [map splitAt]. rewrite H. destruct (g c); [cbn [map]; now rewrite IH|]. rewrite IH.
  destruct (splitAt g w) as [|[|d p] ps]; cbn [map]; try reflexivity. rewrite H. now destruct (g d).
Qed.
Lemma partNodes_simr ps : forall p t1 t2 n1 n2, simr (Ret (n1, t1)) (Ret (n2, t2)) ->
  simr (partNodes A lb1 [] t1 p ps n1) (partNodes A lb2 [] t2 (map f p) (map (map f) ps) n2).
Proof.
  induction ps as [|q ps IH]; intros p t1 t2 n1 n2 S; cbn [partNodes map].
  - apply (box_step [] [] p t1 t2 n1 n2); [st|st|exact S|]. intros b1 t1' b2 t2' K. exact K.
  - assert (still (pushHyphen A lb1)) as Hh by (unfold pushHyphen; destruct (l_renderHyphens _); st).
    apply (box_step [] (pushHyphen A lb1) p t1 t2 n1 n2); [st|exact Hh|exact S|]. intros b1 t1' b2 t2' K. apply IH. exact K.
Qed.
Lemma wordNodes_simr ws : (forall w, In w ws -> follows f (l_hyphenator o) w) -> forall t1 t2 n1 n2, simr (Ret (n1, t1)) (Ret (n2, t2)) ->
  simr (wordNodes A lb1 [] t1 ws n1) (wordNodes A lb2 [] t2 (map (map f) ws) n2).
Proof.
  induction ws as [|w ws IH]; intros Hw t1 t2 n1 n2 S; cbn [wordNodes map]; [exact S|]. cbn [lb_opts].
  specialize (IH (fun x Hx => Hw x (or_intror Hx))).
  assert (isHyphen (map f w) = isHyphen w) as -> by (unfold isHyphen; now apply single_map). destruct (isHyphen w).
  - apply (box_step [newPenalty A (fZ A 0) (infinity A) false; newGlue A (fZ A 0) (l_glueStretch o) (fZ A 0)]
      [newPenalty A (fZ A 0) (l_hardHyphenPenalty o) true; newGlue A (fZ A 0) (fopp A (l_glueStretch o)) (fZ A 0)] w t1 t2 n1 n2); [st|st|exact S|].
    intros b1 t1' b2 t2' K. apply IH. exact K.
  - rewrite (Hw w (or_introl eq_refl)). destruct (l_hyphenator o w) as [hs|]; cbn [both gbind]; [|exact I]. destruct hs as [|p ps]; cbn [map]; [exact I|].
    apply simr_bind; [now apply partNodes_simr|]. intros. now apply IH.
Qed.
Lemma pieceNodes_simr ps : (l_wordBreak o = true -> forall p w, In p ps -> In w (splitAt isHyphenRune p) -> follows f (l_hyphenator o) w) -> forall t1 t2 n1 n2, simr (Ret (n1, t1)) (Ret (n2, t2)) ->
  simr (pieceNodes A u lb1 [] t1 ps n1) (pieceNodes A u lb2 [] t2 (map (map f) ps) n2).
Proof.
  induction ps as [|p ps IH]; intros Hw t1 t2 n1 n2 S; cbn [pieceNodes map]; [exact S|]. cbn [lb_opts].
  specialize (IH (fun B q x Hq => Hw B q x (or_intror Hq))).
  assert (isPunctuation u (map f p) = isPunctuation u p) as -> by (unfold isPunctuation; now apply single_map). destruct (isPunctuation u p).
  - apply (box_step [newPenalty A (fZ A 0) (infinity A) false; newGlue A (fZ A 0) (l_glueStretch o) (fZ A 0)]
      [newPenalty A (fZ A 0) (l_punctuationPenalty o) true; newGlue A (fZ A 0) (fopp A (l_glueStretch o)) (fZ A 0)] p t1 t2 n1 n2); [st|st|exact S|].
    intros b1 t1' b2 t2' K. apply IH. exact K.
  - assert (zlen (map f p) = zlen p) as -> by (unfold zlen; now rewrite map_length).
    destruct (negb (l_wordBreak o) || (zlen p <=? l_minHyphenate o)) eqn:Eb.
    + apply (box_step [] [] p t1 t2 n1 n2); [st|st|exact S|]. intros b1 t1' b2 t2' K. apply IH. exact K.
    + apply orb_false_elim in Eb. destruct Eb as [Eb _]. apply negb_false_iff in Eb.
      rewrite !splitWord_is, splitAt_map by exact f_hrune. cbn [gbind]. apply simr_bind; [apply wordNodes_simr; [intros x; apply (Hw Eb p x (or_introl eq_refl))|exact S]|]. intros. now apply IH.
Qed.
Lemma boxNodes_simr token spare1 spare2 a1 a2 : followed A o f token -> mcap (token ++ spare1) -> mcap (map f token ++ spare2) -> ~ hasCSI token -> ~ hasCSI (map f token) ->
  okState a1 e1 -> okState a2 e2 ->
  match boxNodes A u lb1 token spare1 a1, boxNodes A u lb2 (map f token) spare2 a2 with
  | Ret (n1, b1), Ret (n2, b2) => map reb (map bare n1) = map bare n2 /\ okState b1 (e1 ++ n1) /\ okState b2 (e2 ++ n2)
  | Panic, Panic => True
  | _, _ => False
  end.
Proof.
  intros Hf Hc1 Hc2 Hn1 Hn2 O1 O2. unfold boxNodes.
  destruct (strip_plain u token spare1 Hc1 Hn1) as (st1 & E1 & F1 & G1 & K1), (strip_plain u (map f token) spare2 Hc2 Hn2) as (st2 & E2 & F2 & G2 & K2).
  rewrite E1, E2. cbn [gbind strippedNodes]. rewrite F1, F2, G1, G2, K1, K2. cbn [contents lb_opts]. rewrite (fw_punct _ _ _ _ Hf).
  pose proof (fw_parts _ _ _ _ Hf) as Hw. destruct (l_punctuator o token) as [ps|]; cbn [both gbind]; [|exact I].
  pose proof (pieceNodes_simr ps (fun B p w Hp => Hw B ps p w eq_refl Hp) (mkTs a1 None false) (mkTs a2 None false) [] []) as K.
  assert (simr (Ret ([], mkTs a1 None false)) (Ret ([], mkTs a2 None false))) as S0 by (split; [reflexivity|]; split; [reflexivity|]; rewrite !app_nil_r; now split).
  specialize (K S0).
  destruct (pieceNodes A u lb1 [] (mkTs a1 None false) ps []) as [[n1 t1]|], (pieceNodes A u lb2 [] (mkTs a2 None false) (map (map f) ps) []) as [[n2 t2]|]; try (now destruct K); cbn [gbind]; try exact I.
  destruct K as (H1 & H2 & H3 & H4). unfold tsStop. cbn [zlen length Z.of_nat Z.eqb].
  destruct (ts_current t1), (ts_current t2); now split.
Qed.
End Nodes.

Section Same.
Variable A : arith.
Variable u : unicode.
Variable o : lopts A.
Variable sp hy : F A.
Variable f : rune -> rune.
Hypothesis f_space : f 32 = 32.
Hypothesis f_hyphen : f 45 = 45.
Hypothesis f_measure : forall v, l_measurer o (map f v) = l_measurer o v.
Hypothesis f_mark : forall r, punctSplitFunc u (f r) = punctSplitFunc u r.
Hypothesis f_hrune : forall r, isHyphenRune (f r) = isHyphenRune r.
Notation bare := (bare A).
Notation reb := (reb A f).
Variable s1 s2 : state.
Notation lb1 := (mkBreaker o sp hy s1).
Notation lb2 := (mkBreaker o sp hy s2).
Definition simrAll (x y : go (list (node A) * state)) : Prop :=
  match x, y with
  | Ret (n1, b1), Ret (n2, b2) => map reb (map bare n1) = map bare n2 /\ okState A b1 n1 /\ okState A b2 n2
  | Panic, Panic => True
  | _, _ => False
  end.
Lemma alignedLoop_simr spare1 spare2 tokens : forall token i a1 a2 n1 n2,
  (forall j t, nth_error (token :: tokens) j = Some t -> mcap (t ++ spare1 (i + j)%nat) /\ mcap (map f t ++ spare2 (i + j)%nat)) ->
  Forall (fun t => ~ hasCSI t /\ ~ hasCSI (map f t) /\ followed A o f t) (token :: tokens) -> map reb (map bare n1) = map bare n2 -> okState A a1 n1 -> okState A a2 n2 ->
  simrAll (alignedLoop A u lb1 token tokens spare1 i a1 n1) (alignedLoop A u lb2 (map f token) (map (map f) tokens) spare2 i a2 n2).
Proof.
  induction tokens as [|t ts IH]; intros token i a1 a2 n1 n2 Hc Hn Eb O1 O2; cbn [alignedLoop map];
    (pose proof (Hc 0%nat token eq_refl) as [Hc1 Hc2]; rewrite Nat.add_0_r in Hc1, Hc2; pose proof (Forall_inv Hn) as (Hn1 & Hn2 & Hn3);
     pose proof (boxNodes_simr A u o sp hy f f_measure f_mark f_hrune s1 s2 n1 n2 token (spare1 i) (spare2 i) a1 a2 Hn3 Hc1 Hc2 Hn1 Hn2 O1 O2) as K;
     destruct (boxNodes A u lb1 token (spare1 i) a1) as [[m1 b1]|], (boxNodes A u lb2 (map f token) (spare2 i) a2) as [[m2 b2]|]; try (now destruct K); cbn [gbind]; try exact I;
     destruct K as (H1 & H2 & H3)).
  - split; [rewrite !map_app, Eb, H1; reflexivity|].
    assert (Forall (fun n : node A => n_type n <> TBox) (finalNodes A)) as Hf by (repeat (constructor; [discriminate|]); constructor).
    split; rewrite app_assoc; now apply okState_add.
  - assert (Forall (fun n : node A => n_type n <> TBox) (spaceNodes A lb1)) as Hf by (repeat (constructor; [discriminate|]); constructor).
    apply IH.
    + intros j t' Hj. replace (S i + j)%nat with (i + S j)%nat by lia. now apply Hc.
    + now inversion Hn.
    + rewrite !map_app, Eb, H1. reflexivity.
    + rewrite app_assoc. now apply okState_add.
    + rewrite app_assoc. now apply okState_add.
Qed.
Theorem align_simr ord spare1 spare2 tokens maxWidth : Forall (followed A o f) tokens -> Forall plainAttr s1 -> Forall plainAttr s2 ->
  plainTokens tokens spare1 -> plainTokens (map (map f) tokens) spare2 ->
  (let! x := leftAlignUniform A u ord spare2 lb2 (map (map f) tokens) maxWidth in Ret (fst x)) =
  (let! x := leftAlignUniform A u ord spare1 lb1 tokens maxWidth in Ret (option_map (map (map f)) (fst x))).
Proof.
  intros Hf P1 P2 [T1 C1] [T2 C2]. unfold leftAlignUniform.
  assert (simrAll (leftAlignedNodes A u lb1 tokens spare1) (leftAlignedNodes A u lb2 (map (map f) tokens) spare2)) as K.
  { unfold leftAlignedNodes. cbn [lb_attrs]. destruct tokens as [|t ts].
    - split; [reflexivity|]. split; (split; [assumption|constructor]).
    - apply alignedLoop_simr; [| |reflexivity|split; [assumption|constructor]|split; [assumption|constructor]].
      + intros j t' Hj. split; [now apply C1|]. apply C2. apply (map_nth_error (map f)), Hj.
      + rewrite Forall_forall in *. intros t' H. split; [now apply T1|]. split; [apply T2; now apply in_map|now apply Hf]. }
  destruct (leftAlignedNodes A u lb1 tokens spare1) as [[n1 b1]|], (leftAlignedNodes A u lb2 (map (map f) tokens) spare2) as [[n2 b2]|]; try (now destruct K); cbn [gbind]; try reflexivity.
  destruct K as (E & [Q1 R1] & [Q2 R2]). cbn [lb_opts]. rewrite <- (breakPoints_bare A (l_search o) ord n1), <- (breakPoints_bare A (l_search o) ord n2), <- E, breakPoints_reb.
  destruct (breakPoints A (l_search o) ord (map bare n1) [scale A o maxWidth]) as [[bs|]|]; cbn [gbind]; try reflexivity.
  rewrite (render_bare A o b1 n1 bs Q1 R1), (render_bare A o b2 n2 bs Q2 R2), <- E, (render_reb A o f f_space f_hyphen).
  - destruct (render A o [] (map bare n1) bs); reflexivity.
  - apply Forall_map, Forall_forall. reflexivity.
Qed.
End Same.

(** ** Kinds of characters *)
(** What a replacement of characters must keep for the line breaker [o]. *)
Record keeps (A : arith) (u : unicode) (o : lopts A) (f : rune -> rune) : Prop := mkKeeps {
  kp_space : f 32 = 32;
  kp_dash : f 45 = 45;
  kp_width : forall v, l_measurer o (map f v) = l_measurer o v;
  kp_mark : forall r, punctSplitFunc u (f r) = punctSplitFunc u r;
  kp_hyphen : forall r, isHyphenRune (f r) = isHyphenRune r
}.
Lemma lines_replaced A u o f lb1 lb2 ord spare1 spare2 tokens maxWidth : keeps A u o f -> Forall (followed A o f) tokens -> usable A u o lb1 -> usable A u o lb2 ->
  plainTokens tokens spare1 -> plainTokens (map (map f) tokens) spare2 ->
  (let! x := leftAlignUniform A u ord spare2 lb2 (map (map f) tokens) maxWidth in Ret (fst x)) =
  (let! x := leftAlignUniform A u ord spare1 lb1 tokens maxWidth in Ret (option_map (map (map f)) (fst x))).
Proof.
  intros [] Hf U1 U2 T1 T2. destruct (usable_ok _ _ _ _ U1) as (sp & hy & E & s1 & -> & P1), (usable_ok _ _ _ _ U2) as (sp' & hy' & E' & s2 & -> & P2).
  rewrite E in E'. injection E' as <- <-. now apply align_simr.
Qed.

(** ** The default measurer and punctuator: conditions on single characters *)
Record alike (u : unicode) (f : rune -> rune) : Prop := mkAlike {
  al_space : f 32 = 32;
  al_dash : f 45 = 45;
  al_width : forall r, widths [f r] [] = widths [r] [];
  al_mark : forall r, punctSplitFunc u (f r) = punctSplitFunc u r;
  al_hyphen : forall r, isHyphenRune (f r) = isHyphenRune r
}.
Lemma widths_alike f : (forall r, widths [f r] [] = widths [r] []) -> forall v, widths (map f v) [] = widths v [].
Proof.
  intros H. induction v as [|r v IH]; [reflexivity|]. change (widths ([f r] ++ map f v) [] = widths ([r] ++ v) []).
  now rewrite !widths_app, H, IH.
Qed.
Lemma alike_keeps A u o f : l_measurer o = defaultMeasurer A -> alike u f -> keeps A u o f.
Proof. intros Hm []. constructor; try assumption. intros v. rewrite Hm. unfold defaultMeasurer. now rewrite widths_alike. Qed.
Lemma punct_follows u f t : (forall r, punctSplitFunc u (f r) = punctSplitFunc u r) -> follows f (punctuatorBreakWord u) t.
Proof. intros H. unfold follows. now rewrite !punctuator_is, splitAt_map. Qed.

(** [w] and [map f w] cut alike by the hyphenator *)
Lemma lengths_map (f : rune -> rune) p1 : forall p2, concat p2 = map f (concat p1) -> map (@length rune) p1 = map (@length rune) p2 -> p2 = map (map f) p1.
Proof.
  induction p1 as [|a p1 IH]; intros [|b p2] E H; try discriminate; [reflexivity|]. cbn [map concat] in *. injection H as H1 H2. rewrite map_app in E.
  assert (b = map f a /\ concat p2 = map f (concat p1)) as [-> E2].
  { assert (length b = length (map f a)) as L by (rewrite map_length; congruence). clear - E L. revert E L. generalize (map f a). revert b.
    induction b as [|x b IHb]; intros [|y l] E L; try discriminate; [now split|]. cbn [app] in E. injection E as -> E. injection L as L.
    destruct (IHb l E L) as [-> ->]. now split. }
  now rewrite (IH p2 E2 H2).
Qed.
Lemma case_follows u d ho f w : 0 <= o_minRight ho -> (forall r, toLower u (f r) = toLower u r) -> (forall r, isHyphenRune (toLower u r) = isHyphenRune r) ->
  isException d w = None -> isException d (map f w) = None -> follows f (breakWord u d ho) w.
Proof.
  intros Hr Hl Hh E1 E2. unfold follows.
  assert (map (toLower u) w = map (toLower u) (map f w)) as Hw by (rewrite map_map; apply map_ext; now intros r).
  destruct (breakWord_case u d ho w (map f w) Hr Hw Hh E1 E2) as (p1 & p2 & K1 & K2 & K3).
  destruct (breakWord_lossless u d ho w Hr) as (q1 & Q1 & _ & C1 & _). destruct (breakWord_lossless u d ho (map f w) Hr) as (q2 & Q2 & _ & C2 & _).
  rewrite Q1 in K1. injection K1 as ->. rewrite Q2 in K2. injection K2 as ->. rewrite Q1, Q2. cbn [both gbind]. f_equal. apply lengths_map; [now rewrite C1|exact K3].
Qed.
(** The words of a token: what is left between marks and hyphens (C03, C04). *)
Definition wordsOf (u : unicode) (t : list rune) : list (list rune) := flat_map (splitAt isHyphenRune) (splitAt (punctSplitFunc u) t).
Definition sameCase (u : unicode) (f : rune -> rune) : Prop :=
  (forall r, toLower u (f r) = toLower u r) /\ (forall r, isHyphenRune (toLower u r) = isHyphenRune r).
Section Case.
Variables (A : arith) (u : unicode) (o : lopts A) (f : rune -> rune) (lb1 lb2 : breaker A) (ord : nat -> nat -> list fclass) (spare1 spare2 : nat -> list rune)
  (tokens : list (list rune)) (maxWidth : F A).
Hypothesis Hm : l_measurer o = defaultMeasurer A.
Hypothesis Hp : l_punctuator o = punctuatorBreakWord u.
Hypothesis Hf : alike u f.
Hypothesis U1 : usable A u o lb1.
Hypothesis U2 : usable A u o lb2.
Hypothesis T1 : plainTokens tokens spare1.
Hypothesis T2 : plainTokens (map (map f) tokens) spare2.
Notation claim := ((let! x := leftAlignUniform A u ord spare2 lb2 (map (map f) tokens) maxWidth in Ret (fst x)) =
  (let! x := leftAlignUniform A u ord spare1 lb1 tokens maxWidth in Ret (option_map (map (map f)) (fst x)))).
Lemma lines_kinds : l_wordBreak o = false -> claim.
Proof.
  intros Hb. apply (lines_replaced A u o f); try assumption; [now apply alike_keeps|]. apply Forall_forall. intros t _. constructor.
  - rewrite Hp. apply punct_follows, Hf.
  - congruence.
Qed.
Lemma lines_case d ho : l_hyphenator o = breakWord u d ho -> 0 <= o_minRight ho -> sameCase u f ->
  (forall t w, In t tokens -> In w (wordsOf u t) -> isException d w = None /\ isException d (map f w) = None) -> claim.
Proof.
  intros Hh Hr [S1 S2] He. apply (lines_replaced A u o f); try assumption; [now apply alike_keeps|]. apply Forall_forall. intros t Ht. constructor.
  - rewrite Hp. apply punct_follows, Hf.
  - intros _ ps p w E Hin Hw. rewrite Hp, punctuator_is in E. injection E as <-. rewrite Hh.
    destruct (He t w Ht) as [E1 E2]; [apply in_flat_map; eauto|]. now apply case_follows.
Qed.
End Case.
