(** The result of LeftAlignUniform does not depend on earlier calls on plain tokens. *)
From Verif Require Import Base Arith Unicode Split Ansi SpecAnsi AnsiProofs Attr KP Nodes Render Tokens Align Options Call.

Section Bare.
Variable A : arith.
Variable ko : kopts A.
(** a node without its renderer *)
Definition bare (n : node A) : node A := mkNode (n_type n) (n_penalty n) (n_flagged n) (n_value n) None (n_sums n).

Lemma findStart_bare ns : forall i, findStartNode A (map bare ns) i = findStartNode A ns i.
Proof. induction ns as [|n ns IH]; intros i; [reflexivity|]. cbn [map findStartNode bare n_type n_penalty]. destruct (n_type n); rewrite ?IH; reflexivity. Qed.
Lemma sumFrom_bare ns : forall b s, sumFrom A (map bare ns) b s = sumFrom A ns b s.
Proof.
  induction ns as [|n ns IH]; intros b s; [reflexivity|]. cbn [map sumFrom].
  change (isGlue (bare n)) with (isGlue n). change (isBox (bare n)) with (isBox n). change (isForcedBreak (bare n)) with (isForcedBreak n).
  change (n_sums (bare n)) with (n_sums n). destruct (isGlue n); [apply IH|]. destruct (isBox n || _); [reflexivity|apply IH].
Qed.
Lemma demerits_bare ns b to r : demeritsAndClass A ko (map bare ns) b (bare to) r = demeritsAndClass A ko ns b to r.
Proof.
  unfold demeritsAndClass. rewrite nth_error_map. destruct (nth_error ns (b_position b)) as [p|]; reflexivity.
Qed.
Lemma inner_bare ns ws nd sum rest : forall done cands low,
  inner A ko (map bare ns) ws (bare nd) sum done rest cands low = inner A ko ns ws nd sum done rest cands low.
Proof.
  induction rest as [|a rest IH]; intros done cands low; [reflexivity|]. cbn [inner].
  destruct (idealWidth A ws (b_line a + 1)) as [ideal|]; cbn [gbind]; [|reflexivity].
  change (adjustmentRatio A a (bare nd) sum ideal) with (adjustmentRatio A a nd sum ideal). rewrite demerits_bare.
  change (isForcedBreak (bare nd)) with (isForcedBreak nd).
  match goal with |- gbind ?x _ = _ => destruct x as [[c l]|]; cbn [gbind]; [|reflexivity] end.
  destruct rest; [reflexivity|]. destruct (b_line a + 1 <=? b_line a); [reflexivity|apply IH].
Qed.
Lemma outer_bare fuel ord ns ws i nd sum : forall k done rest low,
  outer A ko fuel ord k (map bare ns) ws i (bare nd) sum done rest low = outer A ko fuel ord k ns ws i nd sum done rest low.
Proof.
  induction fuel as [|fuel IH]; intros k done rest low; destruct rest as [|a rest]; try reflexivity. cbn [outer].
  rewrite inner_bare. destruct (inner A ko ns ws nd sum done (a :: rest) (defaultCandidates A) low) as [[[[d r] c] l]|]; cbn [gbind]; [|reflexivity].
  unfold sumFromNode. rewrite skipn_map, sumFrom_bare. apply IH.
Qed.
Lemma breakLoop_bare ord ns ws rest : forall prev i sum act,
  breakLoop A ko ord (map bare ns) ws (map bare rest) (option_map bare prev) i sum act = breakLoop A ko ord ns ws rest prev i sum act.
Proof.
  induction rest as [|nd rest IH]; intros prev i sum act; [reflexivity|]. cbn [map breakLoop]. change (n_type (bare nd)) with (n_type nd).
  unfold mainLoop. rewrite !outer_bare. change (n_penalty (bare nd)) with (n_penalty nd). change (n_sums (bare nd)) with (n_sums nd).
  assert (match option_map bare prev with
          | Some p => if isBox p then outer A ko (length act) (ord i) 0 ns ws i nd sum [] act (fMax A) else Ret act | None => Ret act end =
          match prev with
          | Some p => if isBox p then outer A ko (length act) (ord i) 0 ns ws i nd sum [] act (fMax A) else Ret act | None => Ret act end) as ->
    by (destruct prev; reflexivity).
  match goal with |- gbind ?x _ = gbind ?x _ => destruct x as [[a s]|]; cbn [gbind]; [|reflexivity] end.
  change (Some (bare nd)) with (option_map bare (Some nd)). apply IH.
Qed.
Lemma breakPoints_bare ord ns ws : breakPoints A ko ord (map bare ns) ws = breakPoints A ko ord ns ws.
Proof.
  unfold breakPoints. rewrite findStart_bare, skipn_map.
  assert (match findStartNode A ns 0 with O => None | S p => nth_error (map bare ns) p end =
          option_map bare (match findStartNode A ns 0 with O => None | S p => nth_error ns p end)) as ->.
  { destruct (findStartNode A ns 0); [reflexivity|]. apply nth_error_map. }
  now rewrite breakLoop_bare.
Qed.
End Bare.

(** ** Rendering *)
Section RenderBare.
Variable A : arith.
Variable o : lopts A.
Notation bare := (bare A).
(** the renderer of a box writes its text *)
Definition shows (attrs : state) (n : node A) : Prop :=
  n_type n = TBox -> exists i a, n_attr n = Some i /\ nth_error attrs i = Some a /\ concat (attrRender a) = n_value n.
Lemma shows_app a b n : shows a n -> shows (a ++ b) n.
Proof.
  intros H E. destruct (H E) as (i & x & H1 & H2 & H3). exists i, x. split; [exact H1|]. split; [|exact H3].
  rewrite nth_error_app1; [exact H2|]. apply nth_error_Some. congruence.
Qed.
Lemma renderLine_bare attrs r ns : Forall (shows attrs) ns -> forall it w it0,
  (let! x := renderLine A o attrs r ns it w in Ret (fst x)) = (let! x := renderLine A o [] r (map bare ns) it0 w in Ret (fst x)).
Proof.
  induction 1 as [|n ns Hn _ IH]; intros it w it0; [reflexivity|]. cbn [map renderLine]. change (n_type (bare n)) with (n_type n).
  destruct (n_type n) eqn:En.
  - change (n_penalty (bare n)) with (n_penalty n).
    assert (match map bare ns with [] => true | _ => false end = match ns with [] => true | _ => false end) as -> by (destruct ns; reflexivity).
    destruct (l_renderHyphens o && feq A (n_penalty n) (l_hyphenPenalty o) && _); apply IH.
  - change (n_sums (bare n)) with (n_sums n). destruct (repeatSpaces _); cbn [gbind]; [apply IH|reflexivity].
  - destruct (Hn En) as (i & a & E1 & E2 & E3). rewrite E1, E2, E3. change (n_attr (bare n)) with (@None nat).
    change (n_value (bare n)) with (n_value n). apply IH.
Qed.
Definition bareLine (l : F A * list (node A)) : F A * list (node A) := (fst l, map bare (snd l)).
Lemma renderLines_bare attrs lines : Forall plainAttr attrs -> Forall (fun l => Forall (shows attrs) (snd l)) lines -> forall it it0,
  renderLines A o attrs lines it = renderLines A o [] (map bareLine lines) it0.
Proof.
  intros Hp. induction 1 as [|[r ns] lines Hl _ IH]; intros it it0; [reflexivity|]. cbn [map renderLines bareLine fst snd] in *.
  rewrite (proj1 (plain_start _ it Hp)), (proj1 (plain_start [] it0 (Forall_nil _))). cbn [concat].
  pose proof (renderLine_bare attrs r ns Hl it [] it0) as E.
  destruct (renderLine A o attrs r ns it []) as [[w it']|], (renderLine A o [] r (map bare ns) it0 []) as [[w0 it0']|]; cbn [gbind fst] in E; try discriminate;
    cbn [gbind]; [|reflexivity]. injection E as ->. rewrite (IH it' it0').
  destruct (renderLines A o [] (map bareLine lines) it0'); cbn [gbind]; [|reflexivity].
  now rewrite (proj2 (plain_start _ it' Hp)), (proj2 (plain_start [] it0' (Forall_nil _))).
Qed.
End RenderBare.

(** ** Cutting lines *)
Section Cut.
Variable A : arith.
Notation bare := (bare A).
Lemma skip_bare ns : forall j, skip_loop A (map bare ns) j = skip_loop A ns j.
Proof.
  induction ns as [|n ns IH]; intros j; [reflexivity|]. cbn [map skip_loop].
  change (isBox (bare n)) with (isBox n). change (isForcedBreak (bare n)) with (isForcedBreak n). now rewrite IH.
Qed.
Lemma slice_map {S T} (f : S -> T) (l : list S) a b : slice (map f l) a b = let! x := slice l a b in Ret (map f x).
Proof. unfold slice, zlen. rewrite map_length. destruct (_ && _); cbn [gbind]; [|reflexivity]. now rewrite skipn_map, firstn_map. Qed.
Lemma slice_in {T} (l : list T) a b x : slice l a b = Ret x -> forall y, In y x -> In y l.
Proof.
  unfold slice. destruct (_ && _); [|discriminate]. intros [= <-] y Hy.
  assert (forall n (k : list T), In y (firstn n k) -> In y k) as F by (intros n k H; rewrite <- (firstn_skipn n k); apply in_or_app; now left).
  assert (forall n (k : list T), In y (skipn n k) -> In y k) as G by (intros n k H; rewrite <- (firstn_skipn n k); apply in_or_app; now right).
  eauto.
Qed.
Lemma cutLines_bare ns bs : forall s, cutLines A (map bare ns) bs s = let! x := cutLines A ns bs s in Ret (map (bareLine A) x).
Proof.
  induction bs as [|b bs IH]; intros s; [reflexivity|]. cbn [cutLines]. unfold skipNodes. rewrite skipn_map, skip_bare, slice_map.
  destruct (slice ns _ _); cbn [gbind]; [|reflexivity]. rewrite IH. destruct (cutLines A ns bs (b_position b)); reflexivity.
Qed.
Lemma cutLines_in (P : node A -> Prop) ns : Forall P ns -> forall bs s x, cutLines A ns bs s = Ret x -> Forall (fun l => Forall P (snd l)) x.
Proof.
  intros H. induction bs as [|b bs IH]; intros s x; cbn [cutLines]; [intros [= <-]; constructor|].
  destruct (slice ns _ _) as [l|] eqn:E; cbn [gbind]; [|discriminate]. destruct (cutLines A ns bs (b_position b)) as [ls|] eqn:E2; cbn [gbind]; [|discriminate].
  intros [= <-]. constructor; [|now apply IH in E2]. cbn [snd]. rewrite Forall_forall in *. intros n Hn. apply H. eapply slice_in; eassumption.
Qed.
Lemma render_bare (o : lopts A) attrs ns bs : Forall plainAttr attrs -> Forall (shows A attrs) ns ->
  render A o attrs ns bs = render A o [] (map bare ns) bs.
Proof.
  intros Hp Hs. unfold render. rewrite cutLines_bare. destruct (cutLines A ns bs 0) as [ls|] eqn:E; cbn [gbind]; [|reflexivity].
  apply renderLines_bare; [exact Hp|]. eapply cutLines_in; eassumption.
Qed.
End Cut.

(** ** Nodes *)
Section Nodes.
Variable A : arith.
Variable u : unicode.
Variable o : lopts A.
Variable sp hy : F A.
Notation bare := (bare A).
(** two line breakers with different states *)
Variable s1 s2 : state.
Notation lb1 := (mkBreaker o sp hy s1).
Notation lb2 := (mkBreaker o sp hy s2).
Definition okState (s : state) (ns : list (node A)) : Prop := Forall plainAttr s /\ Forall (shows A s) ns.
(** nodes that come before *)
Variable e1 e2 : list (node A).
Definition sim (x y : go (list (node A) * tstate)) : Prop :=
  match x, y with
  | Ret (n1, t1), Ret (n2, t2) => map bare n1 = map bare n2 /\ ts_started t1 = ts_started t2 /\ okState (ts_attrs t1) (e1 ++ n1) /\ okState (ts_attrs t2) (e2 ++ n2)
  | Panic, Panic => True
  | _, _ => False
  end.
Lemma okState_push s ns v w : okState s ns -> okState (s ++ [newAttr v [] []]) (ns ++ [newBox A w v (Some (length s))]).
Proof.
  intros [H1 H2]. split.
  - apply Forall_app. split; [exact H1|]. constructor; [repeat split|constructor].
  - apply Forall_app. split; [eapply Forall_impl; [|exact H2]; intros n; apply shows_app|]. constructor; [|constructor].
    intros _. exists (length s), (newAttr v [] []). split; [reflexivity|]. split; [|apply plain_render].
    rewrite nth_error_app2 by lia. now rewrite Nat.sub_diag.
Qed.
Lemma okState_add s ns ms : okState s ns -> Forall (fun n => n_type n <> TBox) ms -> okState s (ns ++ ms).
Proof.
  intros [H1 H2] Hm. split; [exact H1|]. apply Forall_app. split; [exact H2|]. eapply Forall_impl; [|exact Hm]. intros n Hn E. congruence.
Qed.
(** a box, after and before other nodes *)
Lemma box_sim t1 t2 v n1 n2 (pre post : list (node A)) (Hpre : Forall (fun n => n_type n <> TBox) pre) (Hpost : Forall (fun n => n_type n <> TBox) post) :
  map bare n1 = map bare n2 -> ts_started t1 = ts_started t2 -> okState (ts_attrs t1) (e1 ++ n1) -> okState (ts_attrs t2) (e2 ++ n2) ->
  match startBox A lb1 [] t1 v, startBox A lb2 [] t2 v with
  | Ret (b1, t1'), Ret (b2, t2') => sim (Ret (n1 ++ pre ++ [b1] ++ post, t1')) (Ret (n2 ++ pre ++ [b2] ++ post, t2'))
  | Panic, Panic => True
  | _, _ => False
  end.
Proof.
  intros Hn Hs H1 H2. unfold startBox. cbn [lb_opts]. destruct (measure A o v) as [w|]; cbn [gbind]; [|exact I].
  unfold tsStart. assert (forall b : bool, (if b then [] else []) = (@nil rune)) as Eb by (intros []; reflexivity). rewrite !Eb. cbn [ts_current].
  rewrite (plain_push _ v (proj1 H1)), (plain_push _ v (proj1 H2)). cbn [sim ts_started ts_attrs].
  assert (forall s e n, okState s (e ++ n) -> okState (s ++ [newAttr v [] []]) (e ++ n ++ pre ++ [newBox A w v (Some (length s))] ++ post)) as K.
  { intros s e n H. rewrite !app_assoc. apply okState_add; [|exact Hpost]. apply okState_push. now apply okState_add. }
  split; [|split; [reflexivity|]; split; apply K; assumption]. rewrite !map_app, Hn. reflexivity.
Qed.
Lemma nobox : Forall (fun n : node A => n_type n <> TBox) []. Proof. constructor. Qed.
Ltac nb := repeat (constructor; [discriminate|]); apply nobox.
Definition goon (x y : go (list (node A) * tstate)) (f g : list (node A) * tstate -> go (list (node A) * tstate)) : Prop :=
  sim x y -> (forall n1 t1 n2 t2, sim (Ret (n1, t1)) (Ret (n2, t2)) -> sim (f (n1, t1)) (g (n2, t2))) -> sim (gbind x f) (gbind y g).
Lemma sim_bind x y f g : goon x y f g.
Proof. intros H K. destruct x as [[n1 t1]|], y as [[n2 t2]|]; try destruct H; cbn [gbind]; [now apply K; split|exact I]. Qed.
Lemma partNodes_sim ps : forall p t1 t2 n1 n2, sim (Ret (n1, t1)) (Ret (n2, t2)) -> sim (partNodes A lb1 [] t1 p ps n1) (partNodes A lb2 [] t2 p ps n2).
Proof.
  induction ps as [|q ps IH]; intros p t1 t2 n1 n2 (H1 & H2 & H3 & H4); cbn [partNodes].
  - pose proof (box_sim t1 t2 p n1 n2 [] [] nobox nobox H1 H2 H3 H4) as K.
    destruct (startBox A lb1 [] t1 p) as [[b1 t1']|], (startBox A lb2 [] t2 p) as [[b2 t2']|]; try (now destruct K).
  - assert (Forall (fun n => n_type n <> TBox) (pushHyphen A lb1)) as Hh by (unfold pushHyphen; destruct (l_renderHyphens _); nb).
    pose proof (box_sim t1 t2 p n1 n2 [] (pushHyphen A lb1) nobox Hh H1 H2 H3 H4) as K.
    destruct (startBox A lb1 [] t1 p) as [[b1 t1']|], (startBox A lb2 [] t2 p) as [[b2 t2']|]; try (now destruct K); cbn [gbind]; try exact I.
    apply IH. exact K.
Qed.
Lemma wordNodes_sim ws : forall t1 t2 n1 n2, sim (Ret (n1, t1)) (Ret (n2, t2)) -> sim (wordNodes A lb1 [] t1 ws n1) (wordNodes A lb2 [] t2 ws n2).
Proof.
  induction ws as [|w ws IH]; intros t1 t2 n1 n2 S; cbn [wordNodes]; [exact S|]. cbn [lb_opts]. destruct (isHyphen w).
  - destruct S as (H1 & H2 & H3 & H4).
    pose proof (box_sim t1 t2 w n1 n2 [newPenalty A (fZ A 0) (infinity A) false; newGlue A (fZ A 0) (l_glueStretch o) (fZ A 0)]
      [newPenalty A (fZ A 0) (l_hardHyphenPenalty o) true; newGlue A (fZ A 0) (fopp A (l_glueStretch o)) (fZ A 0)] ltac:(nb) ltac:(nb) H1 H2 H3 H4) as K.
    destruct (startBox A lb1 [] t1 w) as [[b1 t1']|], (startBox A lb2 [] t2 w) as [[b2 t2']|]; try (now destruct K); cbn [gbind]; try exact I.
    apply IH. exact K.
  - destruct (l_hyphenator o w) as [hs|]; cbn [gbind]; [|exact I]. destruct hs as [|p ps]; [exact I|].
    apply sim_bind; [now apply partNodes_sim|]. intros. now apply IH.
Qed.
Lemma pieceNodes_sim ps : forall t1 t2 n1 n2, sim (Ret (n1, t1)) (Ret (n2, t2)) -> sim (pieceNodes A u lb1 [] t1 ps n1) (pieceNodes A u lb2 [] t2 ps n2).
Proof.
  induction ps as [|p ps IH]; intros t1 t2 n1 n2 S; cbn [pieceNodes]; [exact S|]. cbn [lb_opts]. destruct (isPunctuation u p).
  - destruct S as (H1 & H2 & H3 & H4).
    pose proof (box_sim t1 t2 p n1 n2 [newPenalty A (fZ A 0) (infinity A) false; newGlue A (fZ A 0) (l_glueStretch o) (fZ A 0)]
      [newPenalty A (fZ A 0) (l_punctuationPenalty o) true; newGlue A (fZ A 0) (fopp A (l_glueStretch o)) (fZ A 0)] ltac:(nb) ltac:(nb) H1 H2 H3 H4) as K.
    destruct (startBox A lb1 [] t1 p) as [[b1 t1']|], (startBox A lb2 [] t2 p) as [[b2 t2']|]; try (now destruct K); cbn [gbind]; try exact I.
    apply IH. exact K.
  - destruct (negb (l_wordBreak o) || (zlen p <=? l_minHyphenate o)).
    + destruct S as (H1 & H2 & H3 & H4). pose proof (box_sim t1 t2 p n1 n2 [] [] nobox nobox H1 H2 H3 H4) as K.
      destruct (startBox A lb1 [] t1 p) as [[b1 t1']|], (startBox A lb2 [] t2 p) as [[b2 t2']|]; try (now destruct K); cbn [gbind]; try exact I.
      apply IH. exact K.
    + destruct (splitWord p) as [ws|]; cbn [gbind]; [|exact I]. apply sim_bind; [now apply wordNodes_sim|]. intros. now apply IH.
Qed.
Lemma boxNodes_sim token spare1 spare2 a1 a2 : mcap (token ++ spare1) -> mcap (token ++ spare2) -> ~ hasCSI token -> okState a1 e1 -> okState a2 e2 ->
  match boxNodes A u lb1 token spare1 a1, boxNodes A u lb2 token spare2 a2 with
  | Ret (n1, b1), Ret (n2, b2) => map bare n1 = map bare n2 /\ okState b1 (e1 ++ n1) /\ okState b2 (e2 ++ n2)
  | Panic, Panic => True
  | _, _ => False
  end.
Proof.
  intros Hc1 Hc2 Hn O1 O2. unfold boxNodes.
  destruct (strip_plain u token spare1 Hc1 Hn) as (st1 & E1 & F1 & G1 & K1), (strip_plain u token spare2 Hc2 Hn) as (st2 & E2 & F2 & G2 & K2).
  rewrite E1, E2. cbn [gbind strippedNodes]. rewrite F1, F2, G1, G2, K1, K2. cbn [contents lb_opts].
  destruct (l_punctuator o token) as [ps|]; cbn [gbind]; [|exact I].
  pose proof (pieceNodes_sim ps (mkTs a1 None false) (mkTs a2 None false) [] []) as K.
  assert (sim (Ret ([], mkTs a1 None false)) (Ret ([], mkTs a2 None false))) as S0 by (split; [reflexivity|]; split; [reflexivity|]; rewrite !app_nil_r; now split).
  specialize (K S0).
  destruct (pieceNodes A u lb1 [] (mkTs a1 None false) ps []) as [[n1 t1]|], (pieceNodes A u lb2 [] (mkTs a2 None false) ps []) as [[n2 t2]|]; try (now destruct K); cbn [gbind]; try exact I.
  destruct K as (H1 & H2 & H3 & H4). unfold tsStop. cbn [zlen length Z.of_nat Z.eqb].
  destruct (ts_current t1), (ts_current t2); now split.
Qed.
End Nodes.

Section Same.
Variable A : arith.
Variable u : unicode.
Variable o : lopts A.
Variable sp hy : F A.
Notation bare := (bare A).
Variable s1 s2 : state.
Notation lb1 := (mkBreaker o sp hy s1).
Notation lb2 := (mkBreaker o sp hy s2).
Definition simAll (x y : go (list (node A) * state)) : Prop :=
  match x, y with
  | Ret (n1, b1), Ret (n2, b2) => map bare n1 = map bare n2 /\ okState A b1 n1 /\ okState A b2 n2
  | Panic, Panic => True
  | _, _ => False
  end.
Lemma alignedLoop_sim spare1 spare2 tokens : forall token i a1 a2 n1 n2,
  (forall j t, nth_error (token :: tokens) j = Some t -> mcap (t ++ spare1 (i + j)%nat) /\ mcap (t ++ spare2 (i + j)%nat)) ->
  Forall (fun t => ~ hasCSI t) (token :: tokens) -> map bare n1 = map bare n2 -> okState A a1 n1 -> okState A a2 n2 ->
  simAll (alignedLoop A u lb1 token tokens spare1 i a1 n1) (alignedLoop A u lb2 token tokens spare2 i a2 n2).
Proof.
  induction tokens as [|t ts IH]; intros token i a1 a2 n1 n2 Hc Hn Eb O1 O2; cbn [alignedLoop];
    (pose proof (Hc 0%nat token eq_refl) as [Hc1 Hc2]; rewrite Nat.add_0_r in Hc1, Hc2;
     pose proof (boxNodes_sim A u o sp hy s1 s2 n1 n2 token (spare1 i) (spare2 i) a1 a2 Hc1 Hc2 ltac:(now inversion Hn) O1 O2) as K;
     destruct (boxNodes A u lb1 token (spare1 i) a1) as [[m1 b1]|], (boxNodes A u lb2 token (spare2 i) a2) as [[m2 b2]|]; try (now destruct K); cbn [gbind]; try exact I;
     destruct K as (H1 & H2 & H3)).
  - split; [rewrite !map_app, Eb, H1; reflexivity|].
    assert (Forall (fun n : node A => n_type n <> TBox) (finalNodes A)) as Hf by (repeat (constructor; [discriminate|]); constructor).
    split; rewrite app_assoc; now apply okState_add.
  - assert (Forall (fun n : node A => n_type n <> TBox) (spaceNodes A lb1)) as Hf by (repeat (constructor; [discriminate|]); constructor).
    apply IH.
    + intros j t' Hj. replace (S i + j)%nat with (i + S j)%nat by lia. now apply Hc.
    + now inversion Hn.
    + rewrite !map_app, Eb, H1. reflexivity.
    + rewrite app_assoc. now apply okState_add.
    + rewrite app_assoc. now apply okState_add.
Qed.
Theorem align_sim ord spare1 spare2 tokens maxWidth : Forall plainAttr s1 -> Forall plainAttr s2 ->
  plainTokens tokens spare1 -> plainTokens tokens spare2 ->
  (let! x := leftAlignUniform A u ord spare1 lb1 tokens maxWidth in Ret (fst x)) =
  (let! x := leftAlignUniform A u ord spare2 lb2 tokens maxWidth in Ret (fst x)).
Proof.
  intros P1 P2 [T1 C1] [T2 C2]. unfold leftAlignUniform.
  assert (simAll (leftAlignedNodes A u lb1 tokens spare1) (leftAlignedNodes A u lb2 tokens spare2)) as K.
  { unfold leftAlignedNodes. cbn [lb_attrs]. destruct tokens as [|t ts].
    - split; [reflexivity|]. split; (split; [assumption|constructor]).
    - apply alignedLoop_sim; [| |reflexivity|split; [assumption|constructor]|split; [assumption|constructor]].
      + intros j t' Hj. split; [now apply C1|now apply C2].
      + eapply Forall_impl; [|exact T1]. intros t' [H _]. exact H. }
  destruct (leftAlignedNodes A u lb1 tokens spare1) as [[n1 b1]|], (leftAlignedNodes A u lb2 tokens spare2) as [[n2 b2]|]; try (now destruct K); cbn [gbind]; try reflexivity.
  destruct K as (E & [Q1 R1] & [Q2 R2]). cbn [lb_opts]. rewrite <- (breakPoints_bare A (l_search o) ord n1), <- (breakPoints_bare A (l_search o) ord n2), E.
  destruct (breakPoints A (l_search o) ord (map bare n2) [scale A o maxWidth]) as [[bs|]|]; cbn [gbind]; try reflexivity.
  rewrite (render_bare A o b1 n1 bs Q1 R1), (render_bare A o b2 n2 bs Q2 R2), E. destruct (render A o [] (map bare n2) bs); reflexivity.
Qed.
End Same.

(** C54 *)
Lemma align_reuse A u o lb1 lb2 ord spare1 spare2 tokens maxWidth : usable A u o lb1 -> usable A u o lb2 ->
  plainTokens tokens spare1 -> plainTokens tokens spare2 ->
  (let! x := leftAlignUniform A u ord spare1 lb1 tokens maxWidth in Ret (fst x)) =
  (let! x := leftAlignUniform A u ord spare2 lb2 tokens maxWidth in Ret (fst x)).
Proof.
  intros U1 U2 T1 T2. destruct (usable_ok _ _ _ _ U1) as (sp & hy & E & s1 & -> & P1), (usable_ok _ _ _ _ U2) as (sp' & hy' & E' & s2 & -> & P2).
  rewrite E in E'. injection E' as <- <-. now apply align_sim.
Qed.
