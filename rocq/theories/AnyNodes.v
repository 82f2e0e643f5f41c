(** Nodes built for any tokens. *)
From Verif Require Import Base Arith Unicode Split SpecSplit SplitProofs Ansi SpecAnsi AnsiProofs Attr KP Nodes Render SpecKP KPProofs
  Tokens Align SpecFormat Format SpecAny.

(** ** The formatting kept in the state *)
Section Keeps.
Variable A : arith.
Variable u : unicode.
Variable lb : breaker A.
Variable seqs : list (list rune).
Notation o := (lb_opts lb).
Notation kept := (Forall (inSeqs seqs)).
Definition orNone (l : list rune) : Prop := l = [] \/ In l seqs.

Lemma push_kept s t st : kept s -> orNone st -> kept (push s (Some (newAttr t st []))).
Proof.
  intros Hs Hst. unfold push. apply Forall_app. split; [exact Hs|]. constructor; [|constructor].
  split; unfold hasStart, hasStop, setLevel, newAttr; cbn; [|discriminate]. destruct Hst as [->|H]; [discriminate|auto].
Qed.
Lemma startBox_kept st ts v x : kept (ts_attrs ts) -> orNone st -> startBox A lb st ts v = Ret x -> kept (ts_attrs (snd x)).
Proof.
  intros H Hst. unfold startBox. destruct (measure A o v); cbn [gbind]; [|discriminate]. intros [= <-]. unfold tsStart. cbn [snd ts_attrs].
  apply push_kept; [exact H|]. destruct (ts_started ts); [now left|exact Hst].
Qed.
Ltac box H := match goal with |- gbind (startBox A lb ?st ?ts ?v) _ = _ -> _ =>
  let E := fresh "E" in destruct (startBox A lb st ts v) as [[? ?]|] eqn:E; cbn [gbind]; [|discriminate];
  apply startBox_kept in E; [|exact H|assumption]; cbn [snd] in E end.
Lemma partNodes_kept st (Hst : orNone st) ps : forall p ts nodes x, kept (ts_attrs ts) -> partNodes A lb st ts p ps nodes = Ret x ->
  kept (ts_attrs (snd x)).
Proof.
  induction ps as [|q ps IH]; intros p ts nodes x H; cbn [partNodes]; box H.
  - intros [= <-]. exact E.
  - intros E'. apply (IH _ _ _ _ E E').
Qed.
Lemma wordNodes_kept st (Hst : orNone st) ws : forall ts nodes x, kept (ts_attrs ts) -> wordNodes A lb st ts ws nodes = Ret x ->
  kept (ts_attrs (snd x)).
Proof.
  induction ws as [|w ws IH]; intros ts nodes x H; cbn [wordNodes]; [intros [= <-]; exact H|].
  destruct (isHyphen w); [box H; apply IH; exact E|].
  destruct (l_hyphenator o w) as [hs|]; cbn [gbind]; [|discriminate]. destruct hs as [|p ps]; [discriminate|].
  destruct (partNodes A lb st ts p ps nodes) as [[n' ts']|] eqn:E; cbn [gbind]; [|discriminate].
  apply partNodes_kept in E; [|exact Hst|exact H]. now apply IH.
Qed.
Lemma pieceNodes_kept st (Hst : orNone st) ps : forall ts nodes x, kept (ts_attrs ts) -> pieceNodes A u lb st ts ps nodes = Ret x ->
  kept (ts_attrs (snd x)).
Proof.
  induction ps as [|p ps IH]; intros ts nodes x H; cbn [pieceNodes]; [intros [= <-]; exact H|].
  destruct (isPunctuation u p); [box H; apply IH; exact E|].
  destruct (negb (l_wordBreak o) || (zlen p <=? l_minHyphenate o)); [box H; apply IH; exact E|].
  destruct (splitWord p) as [ws|]; cbn [gbind]; [|discriminate].
  destruct (wordNodes A lb st ts ws nodes) as [[n' ts']|] eqn:E; cbn [gbind]; [|discriminate].
  apply wordNodes_kept in E; [|exact Hst|exact H]. now apply IH.
Qed.
Lemma updAt_Forall {T} (P : T -> Prop) f (l : list T) i : Forall P l -> (forall x, P x -> P (f x)) -> Forall P (updAt l i f).
Proof. intros H Hf. revert i. induction H as [|x l Hx Hl IH]; intros [|i]; cbn [updAt]; constructor; auto. Qed.
Lemma tsStop_kept e ts : kept (ts_attrs ts) -> orNone e -> kept (ts_attrs (tsStop e ts)).
Proof.
  intros H He. unfold tsStop. destruct (ts_current ts); [|exact H]. destruct (zlen e =? 0) eqn:E; [exact H|]. cbn [ts_attrs].
  apply updAt_Forall; [exact H|]. intros a [H1 H2]. split; unfold setStop; [exact H1|]. cbn. intros _.
  destruct He as [->|He]; [discriminate E|exact He].
Qed.
Lemma strippedNodes_kept mem ps : forall attrs nodes x,
  Forall (fun p => orNone (contents mem (s_start p)) /\ orNone (contents mem (s_stop p))) ps -> kept attrs ->
  strippedNodes A u lb mem ps attrs nodes = Ret x -> kept (snd x).
Proof.
  induction ps as [|p ps IH]; intros attrs nodes x Hps H; cbn [strippedNodes]; [intros [= <-]; exact H|].
  inversion Hps as [|? ? [H1 H2] Hps']; subst.
  destruct (l_punctuator o (contents mem (s_text p))) as [pieces|]; cbn [gbind]; [|discriminate].
  destruct (pieceNodes A u lb (contents mem (s_start p)) (mkTs attrs None false) pieces nodes) as [[n' ts']|] eqn:E; cbn [gbind]; [|discriminate].
  apply pieceNodes_kept in E; [|exact H1|exact H]. apply IH; [exact Hps'|]. now apply tsStop_kept.
Qed.
End Keeps.

(** The parts of a token that can be read *)
Lemma strip_parts u tok spare items : mcap (tok ++ spare) -> lexed u tok items ->
  exists ps, stripToken u (tok ++ spare) (zlen tok) = Ret (tok ++ spare, ps) /\
    concat (map (fun p => contents (tok ++ spare) (s_text p)) ps) = keptText items /\
    Forall (fun p => orNone (formatting items) (contents (tok ++ spare) (s_start p)) /\
                     orNone (formatting items) (contents (tok ++ spare) (s_stop p))) ps.
Proof.
  intros Hm Hl. destruct (stripToken_good u tok spare items Hm Hl) as (ps & its & H1 & H2 & H3 & _ & _).
  exists ps. split; [exact H1|]. rewrite (lexed_unique u tok items (concat its) Hl H2). clear - H3. set (mem := tok ++ spare) in *.
  assert (forall g p, partCovers mem g p -> contents mem (s_text p) = keptText g /\ orNone (formatting g) (contents mem (s_start p)) /\
    orNone (formatting g) (contents mem (s_stop p))) as K.
  { intros g p Hc. assert (Ec := covers_partOf _ _ _ _ Hc). injection Ec as _ E2 _. split; [rewrite <- E2; reflexivity|].
    unfold partCovers in Hc. remember (contents mem (s_start p)) as a. remember (contents mem (s_text p)) as b. remember (contents mem (s_stop p)) as c.
    clear - Hc. destruct Hc as [st tx sp Hst _ Hsp]. unfold formatting. split.
    - destruct Hst as [->|[l ->]]; [now left|right]. cbn. rewrite app_nil_r. now left.
    - destruct Hsp as [->|[l ->]]; [now left|right]. cbn. rewrite app_nil_r, !flat_map_app. apply in_or_app. right. apply in_or_app. right. now left. }
  induction H3 as [|g p its ps Hc _ IH]; [split; [reflexivity|constructor]|]. destruct IH as [I1 I2]. destruct (K g p Hc) as (K1 & K2 & K3).
  cbn [map concat]. split; [unfold keptText in *; rewrite flat_map_app; now rewrite K1, I1|].
  unfold formatting in *. rewrite flat_map_app. constructor.
  - split; [destruct K2 as [K2|K2]|destruct K3 as [K3|K3]]; try (now left); right; apply in_or_app; now left.
  - eapply Forall_impl; [|exact I2]. intros q [Q1 Q2]. split; [destruct Q1 as [Q|Q]|destruct Q2 as [Q|Q]]; try (now left); right; apply in_or_app; now right.
Qed.

Section Build.
Variable A : arith.
Variable L : laws A.
Variable u : unicode.
Variable lb : breaker A.
Notation o := (lb_opts lb).
Notation rh := (l_renderHyphens o).
Notation fZ := (fZ A).
Notation rep := (rep A L).
Notation node := (node A).
Notation zw := (zw A).
Notation sumW := (sumW A).
Notation sumS := (sumS A).
Variable m M : list rune -> Z.
Variable hy : Z.
Hypothesis Hglue : l_glueStretch o = fZ 6.
Hypothesis Hhard : l_hardHyphenPenalty o = fZ 200.
Hypothesis Hmark : l_punctuationPenalty o = fZ 400.
Hypothesis Hmin : l_minHyphenate o = 4.
Hypothesis Hpen : bnd A L 100 (l_hyphenPenalty o).
Hypothesis Hcollide : rh = true -> feq A (fZ 0) (l_hyphenPenalty o) = false /\
    feq A (fZ 200) (l_hyphenPenalty o) = false /\ feq A (fZ 400) (l_hyphenPenalty o) = false.
Hypothesis Hpunct : forall w, exists ps, l_punctuator o w = Ret ps /\ concat ps = w.
Hypothesis Hparts : l_wordBreak o = true -> forall w, w <> [] -> exists p ps, l_hyphenator o w = Ret (p :: ps) /\ concat (p :: ps) = w.
Hypothesis Hm : forall t, 0 <= m t /\ (Forall okRune t -> m t <= 2 ^ 50 -> exists x, measure A o t = Ret x /\ rep x (m t)).
Hypothesis HM : forall t, m t <= M t.
Hypothesis HMa : forall a b, M (a ++ b) = M a + M b.
Hypothesis Hsp : rep (lb_spaceWidth lb) (m [32]).
Hypothesis Hhy : rep (lb_hyphenWidth lb) hy.
Hypothesis Hhy0 : 0 <= hy <= 2 ^ 50.
Hypothesis Hhyw : l_wordBreak o = true -> hy = m [45].

Lemma M_pos t : 0 <= M t. Proof. pose proof (HM t). pose proof (proj1 (Hm t)). lia. Qed.
Lemma M_nil : M [] = 0. Proof. pose proof (HMa [] []) as H. cbn in H. lia. Qed.
Lemma M_in ps p : In p ps -> M p <= M (concat ps).
Proof.
  induction ps as [|q ps IH]; intros H; [destruct H|]. cbn [concat]. rewrite HMa. pose proof (M_pos q). pose proof (M_pos (concat ps)).
  destruct H as [->|H]; [lia|]. specialize (IH H). lia.
Qed.

(** What is known of every node, [attrs] being the state *)
Record fine (attrs : state) (n : node) : Prop := {
  fi_good : goodNode A L n;
  fi_box : isBox n = true -> zw n = m (n_value n) /\ exists i a, n_attr n = Some i /\ nth_error attrs i = Some a /\ a_text a = n_value n;
  fi_glue : isGlue n = true -> zw n = 0 \/ zw n = m [32];
  fi_pen : isPenalty n = true -> feq A (n_penalty n) (infinity A) = false -> rh = true ->
    feq A (n_penalty n) (l_hyphenPenalty o) = true -> zw n = m [45];
  fi_small : isPenalty n = true -> zw n <= 2 ^ 50
}.
Definition grows (s s' : state) : Prop := forall i a, nth_error s i = Some a -> exists a', nth_error s' i = Some a' /\ a_text a' = a_text a.
Lemma grows_refl s : grows s s. Proof. intros i a H. eauto. Qed.
Lemma grows_trans s1 s2 s3 : grows s1 s2 -> grows s2 s3 -> grows s1 s3.
Proof. intros H1 H2 i a H. destruct (H1 i a H) as (b & Hb & E). destruct (H2 i b Hb) as (c & Hc & E'). exists c. split; [exact Hc|congruence]. Qed.
Lemma fine_grows s s' n : grows s s' -> fine s n -> fine s' n.
Proof.
  intros Hg []. constructor; auto. intros Hb. destruct (fi_box0 Hb) as (E & i & a & H1 & H2 & H3). split; [exact E|].
  destruct (Hg i a H2) as (a' & H4 & H5). exists i, a'. repeat split; [exact H1|exact H4|congruence].
Qed.

(** The stretch of nodes is undone at their end; a glue after a box has no width. *)
Definition balanced (ns : list node) : Prop := sumS ns = 0 /\ forall i, 0 <= sumS (firstn i ns) <= 6.
Fixpoint adj (b : bool) (ns : list node) : Prop :=
  match ns with [] => True | n :: ns' => (b = true -> isGlue n = true -> zw n = 0) /\ adj (isBox n) ns' end.
Lemma adj_mono ns : adj true ns -> forall b, adj b ns.
Proof. destruct ns as [|n ns]; [reflexivity|]. cbn [adj]. intros [H1 H2] b. split; [|exact H2]. intros _. now apply H1. Qed.
Lemma adj_app a c : forall b, adj b a -> adj true c -> adj b (a ++ c).
Proof.
  induction a as [|n a IH]; intros b H1 H2; [now apply adj_mono|]. cbn [app adj] in *. destruct H1 as [H1 H3]. split; [exact H1|]. now apply IH.
Qed.
Lemma balanced_app a b : balanced a -> balanced b -> balanced (a ++ b).
Proof.
  intros [A1 A2] [B1 B2]. unfold balanced, KPProofs.sumS in *. split; [rewrite map_app, zsum_app; lia|]. intros i.
  rewrite firstn_app, map_app, zsum_app. destruct (Nat.le_gt_cases i (length a)) as [H|H].
  - replace (i - length a)%nat with 0%nat by lia. cbn [firstn map zsum]. specialize (A2 i). lia.
  - rewrite firstn_all2 by lia. specialize (B2 (i - length a)%nat). lia.
Qed.
Definition boxText (ns : list node) : list rune := concat (map n_value (filter isBox ns)).
Lemma boxText_app a b : boxText (a ++ b) = boxText a ++ boxText b.
Proof. unfold boxText. now rewrite filter_app, map_app, concat_app. Qed.
Lemma sumW_app a b : sumW (a ++ b) = sumW a + sumW b.
Proof. unfold KPProofs.sumW. now rewrite map_app, zsum_app. Qed.

(** [chunk attrs ns t w]: nodes for the text [t], at most [w] wide *)
Record chunk (attrs : state) (ns : list node) (t : list rune) (w : Z) : Prop := {
  ch_fine : Forall (fine attrs) ns;
  ch_open : Forall (fun n => isForcedBreak n = false) ns;
  ch_balanced : balanced ns;
  ch_adj : adj true ns;
  ch_text : boxText ns = t;
  ch_width : sumW ns <= w
}.
Lemma chunk_nil attrs w : 0 <= w -> chunk attrs [] [] w.
Proof. intros Hw. constructor; try constructor; try reflexivity; try exact Hw. intros [|i]; cbn; lia. Qed.
Lemma chunk_app attrs a b x y w v : chunk attrs a x w -> chunk attrs b y v -> chunk attrs (a ++ b) (x ++ y) (w + v).
Proof.
  intros [] []. constructor.
  - now apply Forall_app.
  - now apply Forall_app.
  - now apply balanced_app.
  - now apply adj_app.
  - rewrite boxText_app. congruence.
  - rewrite sumW_app. lia.
Qed.
Lemma chunk_grows s s' ns t w : grows s s' -> chunk s ns t w -> chunk s' ns t w.
Proof. intros Hg []. constructor; try assumption. eapply Forall_impl; [|exact ch_fine0]. intros n. now apply fine_grows. Qed.

(** Nodes start with a box, or with a punctuation mark or a hyphen *)
Definition starts (ns : list node) : Prop := exists bx rest, isBox bx = true /\
  (ns = bx :: rest \/ exists g, isGlue g = true /\ ns = newPenalty A (fZ 0) (infinity A) false :: g :: bx :: rest).
Definition opens (ns : list node) : Prop := ns = [] \/ starts ns.
Lemma starts_app a b : starts a -> starts (a ++ b).
Proof.
  intros (bx & rest & Hb & [->|(g & Hg & ->)]); exists bx, (rest ++ b); (split; [exact Hb|]); [now left|right].
  exists g. now split.
Qed.
Lemma opens_app a b : opens a -> opens b -> opens (a ++ b).
Proof. intros [->|H] Hb; [exact Hb|right; now apply starts_app]. Qed.

(** ** The nodes of a box *)
Lemma rep0 : rep (fZ 0) 0. Proof. apply rep_small; lia. Qed.
Lemma penalty_good w p fl z : rep w z -> 0 <= z -> bnd A L 100 p -> goodNode A L (newPenalty A w p fl) /\ isForcedBreak (newPenalty A w p fl) = false.
Proof.
  intros Rw Hz Bp. assert (isForcedBreak (newPenalty A w p fl) = false) as Nf.
  { unfold isForcedBreak, newPenalty. cbn. unfold minusInfinity. apply (bnd_neg A L 100 _ _ Bp). lia. }
  split; [|exact Nf]. constructor; unfold KPProofs.zw, KPProofs.zs, newPenalty; cbn [n_sums su_width su_stretch su_shrink n_penalty].
  - now rewrite (rep_int A L _ _ Rw).
  - now rewrite (rep_int A L _ _ Rw).
  - rewrite (rep_int A L _ _ rep0). exact rep0.
  - exact rep0.
  - intros _. exact Bp.
  - intros H. unfold newPenalty in Nf. congruence.
Qed.
Lemma glue_good w s zw' zs' : rep w zw' -> 0 <= zw' -> rep s zs' -> goodNode A L (newGlue A w s (fZ 0)) /\ zw (newGlue A w s (fZ 0)) = zw' /\
  addS A (newGlue A w s (fZ 0)) = zs'.
Proof.
  intros Rw Hw Rs. split; [|split; [apply (rep_int A L _ _ Rw)|apply (rep_int A L _ _ Rs)]].
  constructor; unfold KPProofs.zw, KPProofs.zs, newGlue; cbn [n_sums su_width su_stretch su_shrink n_penalty].
  - now rewrite (rep_int A L _ _ Rw).
  - now rewrite (rep_int A L _ _ Rw).
  - now rewrite (rep_int A L _ _ Rs).
  - exact rep0.
  - intros _. apply (bnd_mono A L 0); [apply zero_bnd|lia].
  - intros H. discriminate H.
Qed.
Lemma rep6 : rep (l_glueStretch o) 6. Proof. rewrite Hglue. apply rep_small; lia. Qed.
Lemma rep_6 : rep (fopp A (l_glueStretch o)) (-6). Proof. apply (rep_opp A L _ 6 rep6). Qed.
Lemma bndZ n : 0 <= n <= 1000 -> bnd A L 100 (fZ n).
Proof. intros H. apply (bnd_mono A L 10); [|lia]. apply (bnd_rep A L _ _ n); [apply rep_small; lia|lia|lia]. Qed.
Lemma bndInf : bnd A L 100 (infinity A).
Proof. apply (bnd_mono A L 14); [|lia]. apply (bnd_rep A L _ _ 10000); [apply rep_small; lia|lia|lia]. Qed.

Lemma fine_pen attrs w p fl z : rep w z -> 0 <= z <= 2 ^ 50 -> bnd A L 100 p ->
  (feq A p (infinity A) = false -> rh = true -> feq A p (l_hyphenPenalty o) = true -> z = m [45]) -> fine attrs (newPenalty A w p fl).
Proof.
  intros Rw Hz Bp H. constructor; try discriminate; [apply (penalty_good w p fl z Rw (proj1 Hz) Bp)| |].
  - intros _ H1 H2 H3. rewrite <- (H H1 H2 H3). apply (rep_int A L _ _ Rw).
  - intros _. unfold KPProofs.zw. cbn [newPenalty n_sums su_width]. rewrite (rep_int A L _ _ Rw). lia.
Qed.
Lemma fine_inf attrs fl : fine attrs (newPenalty A (fZ 0) (infinity A) fl).
Proof.
  apply (fine_pen attrs _ _ _ 0 rep0); [lia|exact bndInf|]. intros H. exfalso. rewrite (bnd_refl A L 100 _ bndInf) in H. discriminate.
Qed.
Lemma fine_glue0 attrs s zs' : rep s zs' -> fine attrs (newGlue A (fZ 0) s (fZ 0)).
Proof. intros Rs. destruct (glue_good _ _ 0 zs' rep0 ltac:(lia) Rs) as (G & E & _). constructor; try discriminate; [exact G|]. intros _. now left. Qed.

Definition box (attrs : state) (bx : node) (v : list rune) : Prop := isBox bx = true /\ n_value bx = v /\ fine attrs bx.
Lemma nf_box (n : node) : isBox n = true -> isForcedBreak n = false.
Proof. unfold isBox, isForcedBreak, isPenalty. destruct (n_type n); try discriminate. reflexivity. Qed.
Lemma box_add attrs bx v : box attrs bx v -> addW A bx = m v /\ addS A bx = 0 /\ isGlue bx = false.
Proof.
  intros (H1 & H2 & H3). destruct (isBox_types A bx H1) as [E1 E2]. unfold addW, addS. rewrite E1, E2.
  destruct (fi_box _ _ H3 H1) as [E _]. rewrite E, H2. auto.
Qed.
Lemma chunk_box attrs bx v : box attrs bx v -> chunk attrs [bx] v (M v).
Proof.
  intros H. destruct (box_add attrs bx v H) as (E1 & E2 & E3). destruct H as (H1 & H2 & H3).
  constructor.
  - now constructor.
  - constructor; [now apply nf_box|constructor].
  - unfold balanced, KPProofs.sumS. cbn [map zsum]. rewrite E2. split; [reflexivity|]. intros [|i]; cbn [firstn map zsum]; [lia|]. rewrite firstn_nil. cbn [map zsum]. lia.
  - cbn. split; [|exact I]. congruence.
  - unfold boxText. cbn [filter]. rewrite H1. cbn. rewrite H2. apply app_nil_r.
  - unfold KPProofs.sumW. cbn [map zsum]. rewrite E1. pose proof (HM v). lia.
Qed.
Lemma addW_pen w p fl : addW A (newPenalty A w p fl) = 0. Proof. reflexivity. Qed.
Lemma addS_pen w p fl : addS A (newPenalty A w p fl) = 0. Proof. reflexivity. Qed.
Lemma add_glue' w s z z' : rep w z -> rep s z' -> addW A (newGlue A w s (fZ 0)) = z /\ addS A (newGlue A w s (fZ 0)) = z'.
Proof. intros Rw Rs. split; [apply (rep_int A L _ _ Rw)|apply (rep_int A L _ _ Rs)]. Qed.

Lemma chunk_mark attrs bx v n : 0 < n <= 1000 -> box attrs bx v -> (rh = true -> feq A (fZ n) (l_hyphenPenalty o) = false) ->
  chunk attrs (markNodes A lb bx (fZ n)) v (M v).
Proof.
  intros Hn H Hne. destruct (box_add attrs bx v H) as (E1 & E2 & E3). destruct H as (H1 & H2 & H3). unfold markNodes.
  destruct (add_glue' _ _ _ _ rep0 rep6) as [G1 G2]. destruct (add_glue' _ _ _ _ rep0 rep_6) as [G3 G4].
  constructor.
  - repeat (apply Forall_cons || apply Forall_nil); try apply fine_inf; try (eapply fine_glue0; apply rep6); try (eapply fine_glue0; apply rep_6); try assumption; try (apply H3).
    apply (fine_pen attrs _ _ _ 0 rep0); [lia|apply bndZ; lia|]. intros _ Hrh E. rewrite (Hne Hrh) in E. discriminate.
  - repeat (apply Forall_cons || apply Forall_nil); try reflexivity; try (apply (penalty_good _ _ _ 0 rep0); [lia|]); try apply bndInf; try (apply bndZ; lia). now apply nf_box.
  - unfold balanced, KPProofs.sumS. cbn [map zsum]. rewrite addS_pen, addS_pen, G2, G4, E2. split; [lia|].
    intros i. do 5 (destruct i as [|i]; [cbn [firstn map zsum]; rewrite ?addS_pen, ?G2, ?G4, ?E2; lia|]).
    cbn [firstn map zsum]. rewrite firstn_nil. cbn [map zsum]. rewrite ?addS_pen, ?G2, ?G4, ?E2. lia.
  - cbn. repeat split; try discriminate; try congruence.
  - unfold boxText. cbn [filter isBox newPenalty newGlue n_type]. rewrite H1. cbn. rewrite H2. apply app_nil_r.
  - unfold KPProofs.sumW. cbn [map zsum]. rewrite !addW_pen, G1, G3, E1. pose proof (HM v). lia.
Qed.
Lemma starts_mark bx p : isBox bx = true -> starts (markNodes A lb bx p).
Proof. intros H. eexists bx, _. split; [exact H|]. right. eexists. split; [|reflexivity]. reflexivity. Qed.

Lemma chunk_hyphen attrs : l_wordBreak o = true -> chunk attrs (pushHyphen A lb) [] 0.
Proof.
  intros Hwb. unfold pushHyphen. destruct (add_glue' _ _ _ _ rep0 rep6) as [G1 G2]. destruct (add_glue' _ _ _ _ rep0 rep_6) as [G3 G4].
  destruct rh eqn:Erh.
  - constructor.
    + repeat (apply Forall_cons || apply Forall_nil); try apply fine_inf; try (eapply fine_glue0; apply rep6); try (eapply fine_glue0; apply rep_6).
      apply (fine_pen attrs _ _ _ hy Hhy); [exact Hhy0|exact Hpen|]. intros _ _ _. now apply Hhyw.
    + repeat (apply Forall_cons || apply Forall_nil); try reflexivity; [apply (penalty_good _ _ _ 0 rep0); [lia|apply bndInf]|apply (penalty_good _ _ _ hy Hhy); [lia|assumption]].
    + unfold balanced, KPProofs.sumS. cbn [map zsum]. rewrite !addS_pen, G2, G4. split; [lia|].
      intros i. do 4 (destruct i as [|i]; [cbn [firstn map zsum]; rewrite ?addS_pen, ?G2, ?G4; lia|]).
      cbn [firstn map zsum]. rewrite firstn_nil. cbn [map zsum]. rewrite ?addS_pen, ?G2, ?G4. lia.
    + cbn. repeat split; try discriminate; try congruence.
    + reflexivity.
    + unfold KPProofs.sumW. cbn [map zsum]. rewrite !addW_pen, G1, G3. lia.
  - constructor.
    + repeat (apply Forall_cons || apply Forall_nil). apply (fine_pen attrs _ _ _ 0 rep0); [lia|exact Hpen|]. congruence.
    + repeat (apply Forall_cons || apply Forall_nil). apply (penalty_good _ _ _ 0 rep0); [lia|exact Hpen].
    + unfold balanced, KPProofs.sumS. cbn [map zsum]. rewrite addS_pen. split; [lia|].
      intros i. destruct i as [|i]; [cbn; lia|]. cbn [firstn map zsum]. rewrite firstn_nil. cbn [map zsum]. rewrite addS_pen. lia.
    + cbn. repeat split; discriminate.
    + reflexivity.
    + unfold KPProofs.sumW. cbn [map zsum]. rewrite addW_pen. lia.
Qed.
Lemma chunk_space attrs : chunk attrs (spaceNodes A lb) [] (m [32]).
Proof.
  unfold spaceNodes. destruct (add_glue' _ _ _ _ rep0 rep6) as [G1 G2]. destruct (add_glue' _ _ _ _ Hsp rep_6) as [G3 G4].
  pose proof (proj1 (Hm [32])) as P. constructor.
  - repeat (apply Forall_cons || apply Forall_nil); try (eapply fine_glue0; apply rep6).
    + apply (fine_pen attrs _ _ _ 0 rep0); [lia|apply bndZ; lia|]. intros _ Hrh E. rewrite (proj1 (Hcollide Hrh)) in E. discriminate.
    + constructor; try discriminate; [apply (glue_good _ _ _ _ Hsp P rep_6)|]. intros _. right. apply G3.
  - repeat (apply Forall_cons || apply Forall_nil); try reflexivity. apply (penalty_good _ _ _ 0 rep0); [lia|apply bndZ; lia].
  - unfold balanced, KPProofs.sumS. cbn [map zsum]. rewrite !addS_pen, G2, G4. split; [lia|].
    intros i. do 3 (destruct i as [|i]; [cbn [firstn map zsum]; rewrite ?addS_pen, ?G2, ?G4; lia|]).
    cbn [firstn map zsum]. rewrite firstn_nil. cbn [map zsum]. rewrite ?addS_pen, ?G2, ?G4. lia.
  - cbn [adj]. split; [|split; [|split; [|exact I]]]; try discriminate. intros _ _. apply G1.
  - reflexivity.
  - unfold KPProofs.sumW. cbn [map zsum]. rewrite !addW_pen, G1, G3. lia.
Qed.

(** ** The nodes of tokens *)
Definition makes (s : state) (nodes : list node) (t : list rune) (r : go (list node * state)) : Prop :=
  exists ns s', r = Ret (nodes ++ ns, s') /\ grows s s' /\ chunk s' ns t (M t) /\ opens ns.
Definition fits (t : list rune) : Prop := Forall okRune t /\ M t <= 2 ^ 50.
Lemma fits_app a b : fits (a ++ b) -> fits a /\ fits b.
Proof.
  intros [H1 H2]. apply Forall_app in H1 as [H1 H3]. rewrite HMa in H2. pose proof (M_pos a). pose proof (M_pos b).
  split; split; try assumption; lia.
Qed.
Lemma grows_push s r : grows s (push s (Some r)).
Proof. intros i a H. unfold push. exists a. split; [|reflexivity]. rewrite nth_error_app1; [exact H|]. apply nth_error_Some. congruence. Qed.
Lemma startBox_any st ts v : fits v -> exists bx ts', startBox A lb st ts v = Ret (bx, ts') /\ box (ts_attrs ts') bx v /\
  grows (ts_attrs ts) (ts_attrs ts').
Proof.
  intros [H1 H2]. destruct (Hm v) as [H3 H4]. pose proof (HM v) as H5. destruct (H4 H1 ltac:(lia)) as (x & Ex & Rx).
  unfold startBox. rewrite Ex. cbn [gbind]. eexists _, _. split; [reflexivity|]. cbn [tsStart ts_attrs ts_current]. split; [|apply grows_push].
  split; [reflexivity|split; [reflexivity|]]. constructor; try discriminate.
  - constructor; unfold KPProofs.zw, KPProofs.zs, newBox; cbn [n_sums su_width su_stretch su_shrink n_penalty].
    + now rewrite (rep_int A L _ _ Rx).
    + now rewrite (rep_int A L _ _ Rx).
    + rewrite (rep_int A L _ _ rep0). exact rep0.
    + exact rep0.
    + intros _. apply (bnd_mono A L 0); [apply zero_bnd|lia].
    + discriminate.
  - intros _. split; [apply (rep_int A L _ _ Rx)|]. eexists _, _. split; [reflexivity|].
    unfold push. rewrite nth_error_app2 by lia. rewrite Nat.sub_diag. split; [reflexivity|reflexivity].
Qed.
Lemma opens_box bx ns : isBox bx = true -> opens (bx :: ns).
Proof. intros H. right. exists bx, ns. split; [exact H|now left]. Qed.
Definition tsRes (r : go (list node * tstate)) : go (list node * state) := let! x := r in Ret (fst x, ts_attrs (snd x)).
Definition makesT (ts : tstate) (nodes : list node) (t : list rune) (r : go (list node * tstate)) : Prop :=
  exists ns ts', r = Ret (nodes ++ ns, ts') /\ grows (ts_attrs ts) (ts_attrs ts') /\ chunk (ts_attrs ts') ns t (M t) /\ opens ns.
(** Nodes before others *)
Lemma makes_cons ts ts1 nodes a x y r : grows (ts_attrs ts) (ts_attrs ts1) -> chunk (ts_attrs ts1) a x (M x) -> opens a ->
  makesT ts1 (nodes ++ a) y r -> makesT ts nodes (x ++ y) r.
Proof.
  intros Hg Hc Ho (ns & ts' & E & Hg' & Hc' & Ho'). exists (a ++ ns), ts'. split; [now rewrite app_assoc|].
  split; [now apply grows_trans with (ts_attrs ts1)|]. split; [|now apply opens_app].
  rewrite HMa. apply chunk_app; [|exact Hc']. now apply chunk_grows with (ts_attrs ts1).
Qed.
Lemma partNodes_any st ps : l_wordBreak o = true -> forall p ts nodes, fits (concat (p :: ps)) ->
  makesT ts nodes (concat (p :: ps)) (partNodes A lb st ts p ps nodes).
Proof.
  intros Hwb. induction ps as [|q ps IH]; intros p ts nodes H; cbn [partNodes]; cbn [concat] in *; destruct (fits_app _ _ H) as [H1 H2];
    destruct (startBox_any st ts p H1) as (bx & ts' & E & Hb & Hg); rewrite E; cbn [gbind].
  - rewrite app_nil_r. exists [bx], ts'. repeat split; try exact Hg; try apply (chunk_box _ _ _ Hb). apply opens_box, Hb.
  - apply makes_cons with (ts1 := ts') (a := [bx] ++ pushHyphen A lb); [exact Hg| |apply opens_box, Hb|].
    + rewrite <- (app_nil_r p), HMa. rewrite M_nil. rewrite app_nil_r. replace p with (p ++ []) at 1 by apply app_nil_r.
      apply chunk_app; [now apply chunk_box|now apply chunk_hyphen].
    + apply (IH q ts' _ H2).
Qed.
Lemma wordNodes_any st ws : l_wordBreak o = true -> forall ts nodes, fits (concat ws) -> Forall (fun w => w <> []) ws ->
  makesT ts nodes (concat ws) (wordNodes A lb st ts ws nodes).
Proof.
  intros Hwb. induction ws as [|w ws IH]; intros ts nodes H Hne; cbn [wordNodes].
  - exists [], ts. cbn [concat]. rewrite app_nil_r, M_nil. split; [reflexivity|]. split; [apply grows_refl|]. split; [apply chunk_nil; lia|now left].
  - cbn [concat] in *. destruct (fits_app _ _ H) as [H1 H2]. inversion Hne as [|? ? Hw Hne']; subst. destruct (isHyphen w).
    + destruct (startBox_any st ts w H1) as (bx & ts' & E & Hb & Hg). rewrite E. cbn [gbind].
      apply makes_cons with (ts1 := ts') (a := markNodes A lb bx (l_hardHyphenPenalty o)); [exact Hg| | |now apply IH].
      * rewrite Hhard. apply chunk_mark; [lia|exact Hb|]. intros Hrh. apply (Hcollide Hrh).
      * right. apply starts_mark, Hb.
    + destruct (Hparts Hwb w Hw) as (p & ps & E & Ec). rewrite E. cbn [gbind]. rewrite <- Ec in H1.
      destruct (partNodes_any st ps Hwb p ts nodes H1) as (ns & ts' & E' & Hg & Hc & Ho). rewrite E'. cbn [gbind concat] in Hc |- *. cbn [concat] in Ec. rewrite Ec in Hc.
      apply makes_cons with (ts1 := ts') (a := ns); [exact Hg|exact Hc|exact Ho|now apply IH].
Qed.
Lemma pieceNodes_any st ps : forall ts nodes, fits (concat ps) -> makesT ts nodes (concat ps) (pieceNodes A u lb st ts ps nodes).
Proof.
  induction ps as [|p ps IH]; intros ts nodes H; cbn [pieceNodes].
  - exists [], ts. cbn [concat]. rewrite app_nil_r, M_nil. split; [reflexivity|]. split; [apply grows_refl|]. split; [apply chunk_nil; lia|now left].
  - cbn [concat] in *. destruct (fits_app _ _ H) as [H1 H2]. destruct (isPunctuation u p).
    + destruct (startBox_any st ts p H1) as (bx & ts' & E & Hb & Hg). rewrite E. cbn [gbind].
      apply makes_cons with (ts1 := ts') (a := markNodes A lb bx (l_punctuationPenalty o)); [exact Hg| | |now apply IH].
      * rewrite Hmark. apply chunk_mark; [lia|exact Hb|]. intros Hrh. apply (Hcollide Hrh).
      * right. apply starts_mark, Hb.
    + destruct (negb (l_wordBreak o) || (zlen p <=? l_minHyphenate o)) eqn:Ew.
      * destruct (startBox_any st ts p H1) as (bx & ts' & E & Hb & Hg). rewrite E. cbn [gbind].
        apply makes_cons with (ts1 := ts') (a := [bx]); [exact Hg|now apply chunk_box|apply opens_box, Hb|now apply IH].
      * apply orb_false_iff in Ew as [Ew _]. apply negb_false_iff in Ew.
        destruct (splitWord_full p) as (ws & E & Ec & P & _). assert (Forall (fun w => w <> []) ws) as Hne by (clear - P; induction P; constructor; auto; discriminate). rewrite E. cbn [gbind]. rewrite <- Ec in H1.
        destruct (wordNodes_any st ws Ew ts nodes H1 Hne) as (ns & ts' & E' & Hg & Hc & Ho). rewrite E'. cbn [gbind]. rewrite Ec in Hc.
        apply makes_cons with (ts1 := ts') (a := ns); [exact Hg|exact Hc|exact Ho|now apply IH].
Qed.
Lemma grows_stop e ts : grows (ts_attrs ts) (ts_attrs (tsStop e ts)).
Proof.
  unfold tsStop. destruct (ts_current ts) as [i|]; [|apply grows_refl]. destruct (zlen e =? 0); [apply grows_refl|]. cbn [ts_attrs].
  generalize (ts_attrs ts) as s. clear. intros s. revert i. induction s as [|x s IH]; intros i j a H; [destruct j; discriminate|].
  destruct i as [|i], j as [|j]; cbn [updAt nth_error] in *.
  - injection H as <-. eexists. split; [reflexivity|]. reflexivity.
  - eauto.
  - eauto.
  - now apply IH.
Qed.
Lemma strippedNodes_any mem ps : forall attrs nodes, fits (concat (map (fun p => contents mem (s_text p)) ps)) ->
  makes attrs nodes (concat (map (fun p => contents mem (s_text p)) ps)) (strippedNodes A u lb mem ps attrs nodes).
Proof.
  induction ps as [|p ps IH]; intros attrs nodes H; cbn [strippedNodes].
  - exists [], attrs. cbn [map concat]. rewrite app_nil_r, M_nil. split; [reflexivity|]. split; [apply grows_refl|]. split; [apply chunk_nil; lia|now left].
  - cbn [map concat] in *. destruct (fits_app _ _ H) as [H1 H2]. destruct (Hpunct (contents mem (s_text p))) as (pieces & E & Ec).
    rewrite E. cbn [gbind]. rewrite <- Ec in H1 |- *.
    destruct (pieceNodes_any (contents mem (s_start p)) pieces (mkTs attrs None false) nodes H1) as (ns & ts & E' & Hg & Hc & Ho).
    rewrite E'. cbn [gbind]. pose proof (grows_stop (contents mem (s_stop p)) ts) as Hs. set (s1 := ts_attrs (tsStop (contents mem (s_stop p)) ts)) in *.
    destruct (IH s1 (nodes ++ ns) H2) as (ns' & s' & E2 & Hg' & Hc' & Ho'). exists (ns ++ ns'), s'.
    split; [rewrite E2; now rewrite app_assoc|]. cbn [ts_attrs] in Hg.
    split; [eauto using grows_trans|]. split; [|now apply opens_app]. rewrite HMa. apply chunk_app; [|exact Hc'].
    apply chunk_grows with (ts_attrs ts); [eauto using grows_trans|exact Hc].
Qed.

Variable seqs : list (list rune).
Notation kept := (Forall (inSeqs seqs)).
Lemma orNone_incl l a : incl l seqs -> orNone l a -> orNone seqs a.
Proof. intros H [->|H1]; [now left|right; now apply H]. Qed.
Lemma boxNodes_any tok spare items attrs : mcap (tok ++ spare) -> lexed u tok items -> fits (keptText items) -> incl (formatting items) seqs ->
  kept attrs -> exists ns s', boxNodes A u lb tok spare attrs = Ret (ns, s') /\ grows attrs s' /\ chunk s' ns (keptText items) (M (keptText items)) /\
    opens ns /\ kept s'.
Proof.
  intros Hc Hl Hf Hi Hk. destruct (strip_parts u tok spare items Hc Hl) as (ps & E & Et & Hp). unfold boxNodes. rewrite E. cbn [gbind].
  rewrite <- Et in Hf |- *. destruct (strippedNodes_any (tok ++ spare) ps attrs [] Hf) as (ns & s' & E' & Hg & Hch & Ho). cbn [app] in E'.
  exists ns, s'. repeat split; try assumption; try apply Hch. eapply (strippedNodes_kept A u lb seqs (tok ++ spare) ps attrs [] (ns, s')); [|exact Hk|exact E'].
  eapply Forall_impl; [|exact Hp]. intros p [H1 H2]. eauto using orNone_incl.
Qed.
Definition tokenOk (tok spare : list rune) (items : list SpecAnsi.item) : Prop :=
  mcap (tok ++ spare) /\ lexed u tok items /\ fits (keptText items) /\ incl (formatting items) seqs.
(** Nodes of tokens, the first [k] of which have none *)
Definition lead (k : nat) : list node := concat (repeat (spaceNodes A lb) k).
Definition startsAt (k count : nat) (ns : list node) : Prop := exists rest, ns = lead k ++ rest /\ (starts rest \/ rest = [] /\ S k = count).
(** The nodes of all tokens, but the last two *)
Lemma alignedLoop_any spare tokens : forall tok itemss items i attrs nodes,
  (forall j t is, nth_error (tok :: tokens) j = Some t -> nth_error (items :: itemss) j = Some is -> tokenOk t (spare (i + j)%nat) is) ->
  length tokens = length itemss -> kept attrs ->
  exists ns s' k, alignedLoop A u lb tok tokens spare i attrs nodes = Ret (nodes ++ ns ++ finalNodes A, s') /\ grows attrs s' /\
    chunk s' ns (concat (map keptText (items :: itemss))) (zsum (map (fun is => M (keptText is)) (items :: itemss)) + zlen tokens * m [32]) /\
    (S k <= length (items :: itemss))%nat /\ startsAt k (length (items :: itemss)) ns /\ (forall j is, nth_error (items :: itemss) j = Some is -> keptText is <> [] -> (k <= j)%nat) /\ kept s'.
Proof.
  induction tokens as [|t tokens IH]; intros tok itemss items i attrs nodes Hok Hlen Hk; cbn [alignedLoop];
    destruct (Hok 0%nat tok items eq_refl eq_refl) as (H1 & H2 & H3 & H4); rewrite Nat.add_0_r in H1;
    destruct (boxNodes_any tok (spare i) items attrs H1 H2 H3 H4 Hk) as (ns & s1 & E & Hg & Hc & Ho & Hk1); rewrite E; cbn [gbind].
  - destruct itemss as [|]; [|discriminate]. exists ns, s1, 0%nat. split; [reflexivity|]. split; [exact Hg|]. cbn [map concat zsum length].
    rewrite app_nil_r. split; [|split; [lia|split; [|split; [lia|exact Hk1]]]].
    + replace (M (keptText items) + 0 + zlen (@nil (list rune)) * m [32]) with (M (keptText items)) by (cbn; lia). exact Hc.
    + exists ns. split; [reflexivity|]. destruct Ho as [->|Ho]; [right; auto|now left].
  - destruct itemss as [|items' itemss]; [discriminate|]. injection Hlen as Hlen.
    destruct (IH t itemss items' (S i) s1 (nodes ++ ns ++ spaceNodes A lb)) as (ns' & s' & k & E' & Hg' & Hc' & Hkc & (rest & Er & Hr) & Hj & Hk'); [|exact Hlen|exact Hk1|].
    { intros j t' is Ht' His. replace (S i + j)%nat with (i + S j)%nat by lia. now apply Hok. }
    exists (ns ++ spaceNodes A lb ++ ns'), s', (match ns with [] => S k | _ => 0%nat end).
    split; [rewrite E'; now rewrite <- !app_assoc|]. split; [eauto using grows_trans|].
    split; [|split; [cbn [length] in *; destruct ns; lia|split; [|split; [|exact Hk']]]].
    + replace (concat (map keptText (items :: items' :: itemss))) with (keptText items ++ [] ++ concat (map keptText (items' :: itemss))) by reflexivity.
      replace (zsum (map (fun is => M (keptText is)) (items :: items' :: itemss)) + zlen (t :: tokens) * m [32])
        with (M (keptText items) + (m [32] + (zsum (map (fun is => M (keptText is)) (items' :: itemss)) + zlen tokens * m [32])))
        by (unfold zlen; cbn [map zsum length]; nia).
      apply chunk_app; [now apply chunk_grows with s1|]. apply chunk_app; [|exact Hc']. apply chunk_space.
    + destruct ns as [|n0 ns].
      * exists rest. cbn [app]. split; [rewrite Er; unfold lead; cbn [repeat concat]; now rewrite <- app_assoc|].
        destruct Hr as [Hr|[-> Hr]]; [now left|right]. split; [reflexivity|]. cbn [length] in *. lia.
      * exists ((n0 :: ns) ++ spaceNodes A lb ++ ns'). split; [reflexivity|]. left. apply starts_app. destruct Ho as [Ho|Ho]; [discriminate|exact Ho].
    + intros [|j] is Hn Hne; destruct ns as [|n0 ns]; try lia.
      * cbn in Hn. injection Hn as ->. exfalso. apply Hne. rewrite <- (ch_text _ _ _ _ Hc). reflexivity.
      * specialize (Hj j is Hn Hne). lia.
Qed.
End Build.
