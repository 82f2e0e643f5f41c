(** LeftAlignUniform on tokens with escape sequences. *)
From Verif Require Import Base Arith Unicode Split Ansi SpecAnsi AnsiProofs Attr SpecAttr AttrProofs SpecFormat KP Nodes Render Tokens Reuse.

(** ** The parts of a formatted token *)
Definition textItems (l : list rune) : list SpecAnsi.item := map (fun c => Chr [c]) l.
Definition ctl (k : skind) (s : list rune) : list SpecAnsi.item := match s with [] => [] | _ => [Ctl k s] end.
Definition runItems (r : run) : list SpecAnsi.item := ctl Start (r_start r) ++ textItems (r_text r) ++ ctl Stop (r_stop r).
Section Strip.
Variable u : unicode.
Lemma sequence_csi k l rest : sequence u k l -> k <> Other -> csi u rest l k.
Proof. intros (ps & first & f & -> & Hp & Hf) Hk. now apply csi_of with (first := first). Qed.
Lemma sequence_ne k l : sequence u k l -> exists c x, l = c :: x.
Proof. intros (ps & first & f & -> & _ & _). eauto. Qed.
Lemma lexed_text t l is : ~ In ESC t -> lexed u l is -> lexed u (t ++ l) (textItems t ++ is).
Proof.
  intros Ht Hl. induction t as [|c t IH]; [exact Hl|]. cbn [app textItems map]. apply lx_chr.
  - intros ->. apply Ht. now left.
  - apply IH. intros H. apply Ht. now right.
Qed.
Lemma lexed_ctl k s l is : k <> Other -> s = [] \/ sequence u k s -> lexed u l is -> lexed u (s ++ l) (ctl k s ++ is).
Proof.
  intros Hk [->|Hs] Hl; [exact Hl|]. unfold ctl. destruct (sequence_ne _ _ Hs) as (c & x & E). rewrite E. rewrite <- E. cbn [app].
  apply lx_csi; [|exact Hl]. now apply sequence_csi.
Qed.
Lemma lexed_run r l is : okRun u r -> lexed u l is -> lexed u (runRunes r ++ l) (runItems r ++ is).
Proof.
  intros [s t e Hs He Ht Hn] Hl; unfold runRunes, runItems; cbn [r_start r_text r_stop].
  rewrite <- !app_assoc. apply lexed_ctl; [discriminate|exact Hs|]. apply lexed_text; [exact Hn|]. now apply lexed_ctl; [discriminate| |].
Qed.
Lemma lexed_token t : Forall (okRun u) t -> lexed u (tokenRunes t) (flat_map runItems t).
Proof.
  induction 1 as [|r t Hr _ IH]; [constructor|]. cbn [tokenRunes flat_map]. now apply lexed_run.
Qed.
Lemma text_items_chr t : Forall (fun i => exists l, i = Chr l) (textItems t).
Proof. induction t; constructor; eauto. Qed.
Lemma groups_run r rs : okRun u r -> Forall (okRun u) rs -> alternating (r :: rs) ->
  groupsFrom Fresh [] (runItems r ++ flat_map runItems rs) = runItems r :: groupsFrom Fresh [] (flat_map runItems rs).
Proof.
  intros Hr Hrs [Ha _]. destruct Hr as [s t e Hs He Ht Hn]. unfold runItems at 1 3. cbn [r_start r_text r_stop] in *.
  assert (forall rest, groupsFrom Fresh [] ((ctl Start s ++ textItems t) ++ rest) = groupsFrom InText (ctl Start s ++ textItems t) rest) as K.
  { intros rest. rewrite <- app_assoc. destruct s as [|c s]; cbn [ctl app groupsFrom];
      (rewrite groups_chars by (try apply text_items_chr; discriminate)); (destruct t as [|c' t]; [contradiction|]); reflexivity. }
  rewrite !app_assoc. rewrite <- (app_assoc _ (ctl Stop e)). rewrite K. destruct e as [|c e].
  - cbn [ctl app]. rewrite app_nil_r. destruct rs as [|r' rs]; [destruct s, t; try contradiction; reflexivity|]. destruct Ha as [Ha|Ha]; [congruence|].
    cbn [flat_map]. unfold runItems at 1 3. destruct (r_start r') as [|c s']; [congruence|]. reflexivity.
  - reflexivity.
Qed.
Lemma groups_token t : okToken u t -> groups (flat_map runItems t) = map runItems t.
Proof.
  intros (Hne & Hok & Hal).
  assert (groupsFrom Fresh [] (flat_map runItems t) = map runItems t) as E.
  { clear Hne. induction Hok as [|r t Hr Ht IH]; [reflexivity|]. cbn [flat_map map]. rewrite groups_run by assumption. f_equal. apply IH. apply Hal. }
  destruct t as [|r t]; [contradiction|]. rewrite <- E. unfold groups. destruct (flat_map runItems (r :: t)); [discriminate|reflexivity].
Qed.
Lemma flat_ctl {T} (f : SpecAnsi.item -> list T) k s : flat_map f (ctl k s) = match s with [] => [] | _ => f (Ctl k s) end.
Proof. destruct s; [reflexivity|]. cbn. apply app_nil_r. Qed.
Lemma flat_text {T} (f : SpecAnsi.item -> list T) (g : rune -> list T) t : (forall c, f (Chr [c]) = g c) -> flat_map f (textItems t) = flat_map g t.
Proof. intros H. induction t as [|c t IH]; [reflexivity|]. cbn [textItems map flat_map]. rewrite H. f_equal. exact IH. Qed.
Lemma part_run r : okRun u r -> partOf (runItems r) = (r_start r, r_text r, r_stop r).
Proof.
  assert (forall t : list rune, flat_map (fun _ => @nil rune) t = []) as Z by (induction t; auto).
  assert (forall t : list rune, flat_map (fun c => [c]) t = t) as I by (induction t as [|c t IH]; cbn; now rewrite ?IH).
  intros [s t e Hs He Ht Hn]; unfold partOf, runItems; cbn [r_start r_text r_stop]. rewrite !flat_map_app, !flat_ctl.
  rewrite (flat_text _ (fun _ => [])), (flat_text _ (fun c => [c])), (flat_text _ (fun _ => [])) by reflexivity. rewrite Z, I.
  destruct s, e; cbn [app]; rewrite ?app_nil_r; reflexivity.
Qed.
Lemma strip_formatted t spare : okToken u t -> mcap (tokenRunes t ++ spare) ->
  exists ps, stripToken u (tokenRunes t ++ spare) (zlen (tokenRunes t)) = Ret (tokenRunes t ++ spare, ps) /\
    map (fun p => mkRun (contents (tokenRunes t ++ spare) (s_start p)) (contents (tokenRunes t ++ spare) (s_text p))
                        (contents (tokenRunes t ++ spare) (s_stop p))) ps = t.
Proof.
  intros Ht Hm. pose proof Ht as (_ & Hok & _).
  destruct (stripToken_exact u (tokenRunes t) spare _ Hm (lexed_token t Hok)) as (ps & E & Hp). exists ps. split; [exact E|].
  rewrite groups_token, map_map in Hp by exact Ht.
  assert (map (fun r => partOf (runItems r)) t = map (fun r => (r_start r, r_text r, r_stop r)) t) as Ep.
  { clear - Hok. induction Hok as [|r t Hr _ IH]; [reflexivity|]. cbn [map]. now rewrite IH, part_run. }
  rewrite Ep in Hp. apply (f_equal (map (fun x => mkRun (fst (fst x)) (snd (fst x)) (snd x)))) in Hp. rewrite !map_map in Hp. cbn [fst snd] in Hp.
  rewrite Hp. clear. induction t as [|[a b c] t IH]; [reflexivity|]. cbn [map r_start r_text r_stop]. now rewrite IH.
Qed.
End Strip.

(** ** Words pushed on a state *)
Definition pushWords (s : state) (ws : list word) : state := pushAll s (map (fun w => Some (ofWord w)) ws).
Lemma pushWords_app s a b : pushWords s (a ++ b) = pushWords (pushWords s a) b.
Proof. unfold pushWords, pushAll. now rewrite map_app, fold_left_app. Qed.
Lemma pushWords_len s ws : length (pushWords s ws) = (length s + length ws)%nat.
Proof.
  revert s. induction ws as [|w ws IH]; intros s; [cbn; lia|]. change (pushWords s (w :: ws)) with (pushWords (push s (Some (ofWord w))) ws).
  rewrite IH. cbn [push]. rewrite app_length. cbn [length]. lia.
Qed.
Lemma setLevel_stop t s e l : setStop (setLevel (ofWord (t, s, [])) l) e = setLevel (ofWord (t, s, e)) l.
Proof. reflexivity. Qed.
Lemma updAt_last {T} (l : list T) x f : updAt (l ++ [x]) (length l) f = l ++ [f x].
Proof. induction l as [|y l IH]; [reflexivity|]. cbn [app length updAt]. now rewrite IH. Qed.
Lemma stop_word s ws t st e : updAt (pushWords s (ws ++ [(t, st, [])])) (length s + length ws) (fun a => setStop a e) = pushWords s (ws ++ [(t, st, e)]).
Proof.
  rewrite !pushWords_app. set (q := pushWords s ws). assert (length s + length ws = length q)%nat as -> by (unfold q; now rewrite pushWords_len).
  unfold pushWords at 1 2, pushAll. cbn [map fold_left push]. rewrite updAt_last. reflexivity.
Qed.
(** the words of a run, not closed and closed *)
Definition bareWords (vs : list (list rune)) : list word := map (fun v => (v, [], [])) vs.
Definition boxWords (st : list rune) (vs : list (list rune)) : list word :=
  match vs with [] => [] | v :: vs' => (v, st, []) :: bareWords vs' end.
Definition runWords (st : list rune) (vs : list (list rune)) (e : list rune) : list word :=
  match vs with [] => [] | v :: vs' => tailWords v vs' st e end.
Lemma boxWords_nil vs : boxWords [] vs = bareWords vs. Proof. destruct vs; reflexivity. Qed.
Lemma boxWords_snoc st vs v : boxWords st (vs ++ [v]) = boxWords st vs ++ [(v, match vs with [] => st | _ => [] end, [])].
Proof. destruct vs as [|x vs]; [reflexivity|]. cbn [app boxWords]. unfold bareWords. now rewrite map_app. Qed.
Lemma boxWords_len st vs : length (boxWords st vs) = length vs.
Proof. destruct vs; [reflexivity|]. cbn [boxWords length]. unfold bareWords. now rewrite map_length. Qed.
Lemma runWords_snoc st vs v e : runWords st (vs ++ [v]) e = boxWords st vs ++ [(v, match vs with [] => st | _ => [] end, e)].
Proof.
  destruct vs as [|x vs]; [reflexivity|]. cbn [app runWords boxWords]. revert st x. induction vs as [|y vs IH]; intros st x; [reflexivity|].
  cbn [app tailWords]. rewrite IH. reflexivity.
Qed.
Lemma runWords_open st vs : runWords st vs [] = boxWords st vs.
Proof. destruct vs as [|x vs] using rev_ind; [reflexivity|]. now rewrite runWords_snoc, boxWords_snoc. Qed.
Lemma runWords_len st vs e : length (runWords st vs e) = length vs.
Proof. destruct vs; [reflexivity|]. cbn [runWords]. apply tail_nth_last. Qed.

Section Sim.
Variable A : arith.
Variable u : unicode.
Variable o : lopts A.
Variable sp hy : F A.
Variable s1 s2 : state.
Notation lb1 := (mkBreaker o sp hy s1).
Notation lb2 := (mkBreaker o sp hy s2).

Fixpoint numbering (k : nat) (vs : list (list rune)) : list (option nat * list rune) :=
  match vs with [] => [] | v :: vs' => (Some k, v) :: numbering (S k) vs' end.
Definition numbered (k : nat) (ns : list (node A)) (vs : list (list rune)) : Prop :=
  map (fun n => (n_attr n, n_value n)) (filter isBox ns) = numbering k vs.
Lemma numbering_app k a b : numbering k (a ++ b) = numbering k a ++ numbering (k + length a) b.
Proof.
  revert k. induction a as [|v a IH]; intros k; cbn [app numbering length]; [now rewrite Nat.add_0_r|].
  rewrite IH. now replace (S k + length a)%nat with (k + S (length a))%nat by lia.
Qed.
Lemma numbered_app k a b vs ws : numbered k a vs -> numbered (k + length vs) b ws -> numbered k (a ++ b) (vs ++ ws).
Proof. unfold numbered. intros H1 H2. rewrite filter_app, map_app, numbering_app. congruence. Qed.
Lemma numbered_none k ns : Forall (fun n => isBox n = false) ns -> numbered k ns [].
Proof. unfold numbered. induction 1 as [|n ns H _ IH]; [reflexivity|]. cbn [filter]. now rewrite H. Qed.
Lemma numbered_pad k a b vs : numbered k a vs -> Forall (fun n => isBox n = false) b -> numbered k (a ++ b) vs.
Proof. intros H Hb. rewrite <- (app_nil_r vs). apply numbered_app; [exact H|now apply numbered_none]. Qed.

(** one part of a token, [st] its start sequence, from the states [b1] and [b2] *)
Section Part.
Variable st : list rune.
Variable b1 b2 : state.
Hypothesis Hlen : length b1 = length b2.
Variable n0 : list (node A).
Definition inv (vs : list (list rune)) (n1 n2 : list (node A)) (t1 t2 : tstate) : Prop :=
  n1 = n2 /\ (exists new, n1 = n0 ++ new /\ numbered (length b1) new vs) /\
  ts_attrs t1 = pushWords b1 (boxWords st vs) /\ ts_attrs t2 = pushWords b2 (bareWords vs) /\
  ts_started t1 = match vs with [] => false | _ => true end /\
  ts_current t1 = match vs with [] => None | _ => Some (length b1 + (length vs - 1))%nat end.
Definition psim (x y : go (list (node A) * tstate)) : Prop :=
  match x, y with
  | Ret (n1, t1), Ret (n2, t2) => exists vs, inv vs n1 n2 t1 t2
  | Panic, Panic => True
  | _, _ => False
  end.
Lemma box_psim t1 t2 v n1 n2 (pre post : list (node A)) (Hpre : Forall (fun n => isBox n = false) pre) (Hpost : Forall (fun n => isBox n = false) post) :
  psim (Ret (n1, t1)) (Ret (n2, t2)) ->
  match startBox A lb1 st t1 v, startBox A lb2 [] t2 v with
  | Ret (x1, t1'), Ret (x2, t2') => psim (Ret (n1 ++ pre ++ [x1] ++ post, t1')) (Ret (n2 ++ pre ++ [x2] ++ post, t2'))
  | Panic, Panic => True
  | _, _ => False
  end.
Proof.
  intros (vs & -> & (new & -> & Hn) & Ha & Hb & Hs & Hc). unfold startBox. cbn [lb_opts]. destruct (measure A o v) as [w|]; cbn [gbind]; [|exact I].
  exists (vs ++ [v]). unfold tsStart. cbn [ts_current ts_attrs ts_started].
  assert (length (ts_attrs t1) = length b1 + length vs)%nat as L1 by (rewrite Ha, pushWords_len, boxWords_len; reflexivity).
  assert (length (ts_attrs t2) = length b1 + length vs)%nat as L2 by (rewrite Hb, pushWords_len; unfold bareWords; rewrite map_length; lia).
  rewrite L1, L2. split; [reflexivity|]. split.
  { exists (new ++ pre ++ [newBox A w v (Some (length b1 + length vs)%nat)] ++ post). split; [now rewrite <- !app_assoc|].
    apply numbered_app; [exact Hn|]. change [v] with ([] ++ [v]). apply numbered_app; [now apply numbered_none|].
    apply numbered_pad; [|exact Hpost]. unfold numbered. cbn. now rewrite Nat.add_0_r. }
  split.
  { rewrite boxWords_snoc, pushWords_app, <- Ha, Hs. destruct vs; reflexivity. }
  split.
  { unfold bareWords. rewrite map_app, pushWords_app. fold (bareWords vs). rewrite <- Hb. destruct (ts_started t2); reflexivity. }
  rewrite app_length. cbn [length]. split; [destruct vs; reflexivity|].
  replace (length b1 + (length vs + 1 - 1))%nat with (length b1 + length vs)%nat by lia. destruct vs; reflexivity.
Qed.
Lemma nobx : Forall (fun n : node A => isBox n = false) []. Proof. constructor. Qed.
Ltac nb := repeat (constructor; [reflexivity|]); apply nobx.
Lemma psim_bind x y f g : psim x y -> (forall n1 t1 n2 t2, psim (Ret (n1, t1)) (Ret (n2, t2)) -> psim (f (n1, t1)) (g (n2, t2))) -> psim (gbind x f) (gbind y g).
Proof. intros H K. destruct x as [[n1 t1]|], y as [[n2 t2]|]; try (now destruct H); cbn [gbind]. now apply K. Qed.
Ltac box K := match type of K with match ?x with _ => _ end => destruct x as [[?b ?t]|] end;
  match type of K with match ?x with _ => _ end => destruct x as [[?b ?t]|] end; try (now destruct K); cbn [gbind]; try exact I.
Lemma partNodes_psim ps : forall p t1 t2 n1 n2, psim (Ret (n1, t1)) (Ret (n2, t2)) -> psim (partNodes A lb1 st t1 p ps n1) (partNodes A lb2 [] t2 p ps n2).
Proof.
  induction ps as [|q ps IH]; intros p t1 t2 n1 n2 S; cbn [partNodes].
  - pose proof (box_psim t1 t2 p n1 n2 [] [] nobx nobx S) as K. box K. exact K.
  - assert (Forall (fun n => isBox n = false) (pushHyphen A lb1)) as Hh by (unfold pushHyphen; destruct (l_renderHyphens _); nb).
    pose proof (box_psim t1 t2 p n1 n2 [] (pushHyphen A lb1) nobx Hh S) as K. box K. apply IH. exact K.
Qed.
Lemma wordNodes_psim ws : forall t1 t2 n1 n2, psim (Ret (n1, t1)) (Ret (n2, t2)) -> psim (wordNodes A lb1 st t1 ws n1) (wordNodes A lb2 [] t2 ws n2).
Proof.
  induction ws as [|w ws IH]; intros t1 t2 n1 n2 S; cbn [wordNodes]; [exact S|]. cbn [lb_opts]. destruct (isHyphen w).
  - pose proof (box_psim t1 t2 w n1 n2 [newPenalty A (fZ A 0) (infinity A) false; newGlue A (fZ A 0) (l_glueStretch o) (fZ A 0)]
      [newPenalty A (fZ A 0) (l_hardHyphenPenalty o) true; newGlue A (fZ A 0) (fopp A (l_glueStretch o)) (fZ A 0)] ltac:(nb) ltac:(nb) S) as K.
    box K. apply IH. exact K.
  - destruct (l_hyphenator o w) as [hs|]; cbn [gbind]; [|exact I]. destruct hs as [|p ps]; [exact I|].
    apply psim_bind; [now apply partNodes_psim|]. intros. now apply IH.
Qed.
Lemma pieceNodes_psim ps : forall t1 t2 n1 n2, psim (Ret (n1, t1)) (Ret (n2, t2)) -> psim (pieceNodes A u lb1 st t1 ps n1) (pieceNodes A u lb2 [] t2 ps n2).
Proof.
  induction ps as [|p ps IH]; intros t1 t2 n1 n2 S; cbn [pieceNodes]; [exact S|]. cbn [lb_opts]. destruct (isPunctuation u p).
  - pose proof (box_psim t1 t2 p n1 n2 [newPenalty A (fZ A 0) (infinity A) false; newGlue A (fZ A 0) (l_glueStretch o) (fZ A 0)]
      [newPenalty A (fZ A 0) (l_punctuationPenalty o) true; newGlue A (fZ A 0) (fopp A (l_glueStretch o)) (fZ A 0)] ltac:(nb) ltac:(nb) S) as K.
    box K. apply IH. exact K.
  - destruct (negb (l_wordBreak o) || (zlen p <=? l_minHyphenate o)).
    + pose proof (box_psim t1 t2 p n1 n2 [] [] nobx nobx S) as K. box K. apply IH. exact K.
    + destruct (splitWord p) as [ws|]; cbn [gbind]; [|exact I]. apply psim_bind; [now apply wordNodes_psim|]. intros. now apply IH.
Qed.
End Part.

Lemma pieceNodes_app lb st p : forall q ts n, pieceNodes A u lb st ts (p ++ q) n =
  let! x := pieceNodes A u lb st ts p n in pieceNodes A u lb st (snd x) q (fst x).
Proof.
  induction p as [|v p IH]; intros q ts n; cbn [app pieceNodes]; [reflexivity|]. destruct (isPunctuation u v).
  - destruct (startBox A lb st ts v) as [[b t]|]; cbn [gbind]; [apply IH|reflexivity].
  - destruct (negb _ || _).
    + destruct (startBox A lb st ts v) as [[b t]|]; cbn [gbind]; [apply IH|reflexivity].
    + destruct (splitWord v) as [l|]; cbn [gbind]; [|reflexivity]. destruct (wordNodes A lb st ts l n) as [[b t]|]; cbn [gbind]; [apply IH|reflexivity].
Qed.

(** ** A token *)
Fixpoint runsNodes (lb : breaker A) (rs : list run) (attrs : state) (nodes : list (node A)) : go (list (node A) * state) :=
  match rs with
  | [] => Ret (nodes, attrs)
  | r :: rs' =>
      let! pieces := l_punctuator (lb_opts lb) (r_text r) in
      let! x := pieceNodes A u lb (r_start r) (mkTs attrs None false) pieces nodes in
      let (nodes', ts) := x in
      runsNodes lb rs' (ts_attrs (tsStop (r_stop r) ts)) nodes'
  end.
Lemma strippedNodes_runs lb mem ps : forall attrs nodes, strippedNodes A u lb mem ps attrs nodes =
  runsNodes lb (map (fun p => mkRun (contents mem (s_start p)) (contents mem (s_text p)) (contents mem (s_stop p))) ps) attrs nodes.
Proof.
  induction ps as [|p ps IH]; intros attrs nodes; [reflexivity|]. cbn [strippedNodes map runsNodes r_text r_start r_stop].
  destruct (l_punctuator _ _); cbn [gbind]; [|reflexivity]. destruct (pieceNodes _ _ _ _ _ _ _) as [[n t]|]; cbn [gbind]; [apply IH|reflexivity].
Qed.
Lemma boxNodes_runs lb t spare attrs : okToken u t -> mcap (tokenRunes t ++ spare) ->
  boxNodes A u lb (tokenRunes t) spare attrs = runsNodes lb t attrs [].
Proof.
  intros Ht Hm. destruct (strip_formatted u t spare Ht Hm) as (ps & E & Ep). unfold boxNodes. rewrite E. cbn [gbind].
  rewrite strippedNodes_runs, Ep. reflexivity.
Qed.
Lemma token_clean t : Forall (okRun u) t -> ~ In ESC (tokenText t).
Proof.
  induction 1 as [|r t Hr _ IH]; [intros []|]. cbn [tokenText flat_map]. intros H. apply in_app_or in H. destruct H as [H|H]; [|now apply IH].
  destruct Hr; contradiction.
Qed.
Lemma boxNodes_text lb t spare attrs : Forall (okRun u) t -> mcap (tokenText t ++ spare) ->
  boxNodes A u lb (tokenText t) spare attrs =
  let! ps := l_punctuator (lb_opts lb) (tokenText t) in
  let! x := pieceNodes A u lb [] (mkTs attrs None false) ps [] in Ret (fst x, ts_attrs (snd x)).
Proof.
  intros Ht Hm.
  assert (~ hasCSI (tokenText t)) as Hn.
  { intros (a & b & E). apply (token_clean t Ht). rewrite E. apply in_or_app. right. now left. }
  destruct (strip_plain u _ spare Hm Hn) as (x & E & E1 & E2 & E3). unfold boxNodes. rewrite E. cbn [gbind strippedNodes]. rewrite E1, E2, E3.
  destruct (l_punctuator _ _); cbn [gbind]; [|reflexivity]. cbn [contents]. destruct (pieceNodes _ _ _ _ _ _ _) as [[n ts]|]; cbn [gbind fst snd]; [|reflexivity].
  unfold tsStop. destruct (ts_current ts); reflexivity.
Qed.
(** the pieces of a token are those of its runs *)
Fixpoint punctAll (ts : list (list rune)) : go (list (list rune)) :=
  match ts with
  | [] => Ret []
  | t :: ts' => let! a := l_punctuator o t in let! b := punctAll ts' in Ret (a ++ b)
  end.
(** words of the runs [rs], cut into [vss] *)
Definition docOf (rs : list run) (vss : list (list (list rune))) : list word :=
  flat_map (fun x => runWords (r_start (fst x)) (snd x) (r_stop (fst x))) (combine rs vss).
(** the fragments [vs] of a run, as read from its text alone *)
Definition cutsInto (r : run) (vs : list (list rune)) : Prop :=
  exists ps t n t' n', l_punctuator o (r_text r) = Ret ps /\ pieceNodes A u lb2 [] t ps n = Ret (n', t') /\
    Forall plainAttr (ts_attrs t) /\ ts_attrs t' = pushWords (ts_attrs t) (bareWords vs).
Definition tsim (b1 b2 : state) (n0 : list (node A)) (rs : list run) (x : go (list (node A) * state)) (y : go (list (node A) * tstate)) : Prop :=
  match x, y with
  | Ret (n1, a1), Ret (n2, t2) => n1 = n2 /\ exists vss new, Forall2 cutsInto rs vss /\ n1 = n0 ++ new /\ numbered (length b1) new (concat vss) /\
      a1 = pushWords b1 (docOf rs vss) /\ ts_attrs t2 = pushWords b2 (bareWords (concat vss))
  | Panic, Panic => True
  | _, _ => False
  end.
Lemma docOf_len rs : forall vss, length vss = length rs -> length (docOf rs vss) = length (concat vss).
Proof.
  unfold docOf. induction rs as [|r rs IH]; intros [|vs vss] E; try discriminate; [reflexivity|]. cbn [combine flat_map concat fst snd].
  rewrite !app_length, runWords_len, IH by (now injection E). reflexivity.
Qed.
Lemma tsStop_words b1 st vs e t1 : ts_attrs t1 = pushWords b1 (boxWords st vs) ->
  ts_current t1 = match vs with [] => None | _ => Some (length b1 + (length vs - 1))%nat end ->
  ts_attrs (tsStop e t1) = pushWords b1 (runWords st vs e).
Proof.
  intros Ha Hc. unfold tsStop. rewrite Hc. destruct vs as [|v vs _] using rev_ind; [exact Ha|].
  assert (match vs ++ [v] with [] => @None nat | _ => Some (length b1 + (length (vs ++ [v]) - 1))%nat end = Some (length b1 + length vs)%nat) as ->.
  { rewrite app_length. cbn [length]. replace (length vs + 1 - 1)%nat with (length vs) by lia. destruct vs; reflexivity. }
  destruct (zlen e =? 0) eqn:Ez.
  - destruct e; [|apply Z.eqb_eq in Ez; rewrite zlen_cons in Ez; pose proof (zlen_nonneg e); lia]. now rewrite runWords_open.
  - cbn [ts_attrs]. rewrite Ha, boxWords_snoc, runWords_snoc. rewrite <- (stop_word _ _ _ _ e). now rewrite boxWords_len.
Qed.
Lemma pushBare_plain vs : forall s, Forall plainAttr s -> pushWords s (bareWords vs) = s ++ map (fun v => newAttr v [] []) vs /\ Forall plainAttr (pushWords s (bareWords vs)).
Proof.
  induction vs as [|v vs IH]; intros s Hs; [split; [cbn; now rewrite app_nil_r|exact Hs]|].
  change (pushWords s (bareWords (v :: vs))) with (pushWords (push s (Some (newAttr v [] []))) (bareWords vs)).
  rewrite plain_push by exact Hs. assert (Forall plainAttr (s ++ [newAttr v [] []])) as H by (apply Forall_app; split; [exact Hs|]; repeat constructor).
  destruct (IH _ H) as [E P]. split; [|exact P]. rewrite E, <- app_assoc. reflexivity.
Qed.
Lemma runsNodes_tsim rs : forall b1 b2 n0 t2, length b1 = length b2 -> ts_attrs t2 = b2 -> Forall plainAttr b2 ->
  tsim b1 b2 n0 rs (runsNodes lb1 rs b1 n0) (let! ps := punctAll (map r_text rs) in pieceNodes A u lb2 [] t2 ps n0).
Proof.
  induction rs as [|r rs IH]; intros b1 b2 n0 t2 Hl H2 Hpl.
  - cbn [map punctAll gbind pieceNodes runsNodes tsim]. split; [reflexivity|]. exists [], []. rewrite app_nil_r. split; [constructor|]. repeat split. exact H2.
  - cbn [map punctAll runsNodes]. cbn [lb_opts]. destruct (l_punctuator o (r_text r)) as [ps|] eqn:Ep; cbn [gbind]; [|exact I].
    assert (psim (r_start r) b1 b2 n0 (Ret (n0, mkTs b1 None false)) (Ret (n0, t2))) as S0.
    { exists []. split; [reflexivity|]. split; [exists []; rewrite app_nil_r; now repeat split|]. repeat split. exact H2. }
    pose proof (pieceNodes_psim (r_start r) b1 b2 Hl n0 ps _ _ _ _ S0) as K.
    destruct (pieceNodes A u lb1 (r_start r) (mkTs b1 None false) ps n0) as [[n1 t1]|] eqn:E1.
    + destruct (pieceNodes A u lb2 [] t2 ps n0) as [[n2 t2']|] eqn:E2; [|now destruct K]. cbn [gbind].
      destruct K as (vs & <- & (new & -> & Hn) & Ha & Hb & _ & Hc).
      rewrite (tsStop_words b1 (r_start r) vs (r_stop r) t1 Ha Hc).
      pose proof (IH (pushWords b1 (runWords (r_start r) vs (r_stop r))) (ts_attrs t2') (n0 ++ new) t2') as K.
      assert (length (pushWords b1 (runWords (r_start r) vs (r_stop r))) = length (ts_attrs t2')) as Hl'.
      { rewrite Hb, !pushWords_len, runWords_len. unfold bareWords. rewrite map_length. lia. }
      assert (Forall plainAttr (ts_attrs t2')) as Hpl' by (rewrite Hb; now apply pushBare_plain).
      specialize (K Hl' eq_refl Hpl').
      destruct (punctAll (map r_text rs)) as [qs|]; cbn [gbind] in *.
      2: { destruct (runsNodes lb1 rs _ _) as [[? ?]|]; [now destruct K|exact I]. }
      rewrite pieceNodes_app, E2. cbn [gbind fst snd].
      destruct (runsNodes lb1 rs _ _) as [[n3 a3]|], (pieceNodes A u lb2 [] t2' qs (n0 ++ new)) as [[n4 t4]|]; try (now destruct K); try exact I.
      destruct K as (<- & vss & new2 & Hv & -> & Hn2 & Ha2 & Hb2). split; [reflexivity|]. exists (vs :: vss), (new ++ new2).
      split; [constructor; [|exact Hv]; exists ps, t2, n0, t2', (n0 ++ new); rewrite H2; repeat split; assumption|]. split; [now rewrite app_assoc|]. cbn [concat]. split.
      { apply numbered_app; [exact Hn|]. rewrite pushWords_len, runWords_len in Hn2. exact Hn2. }
      split; [rewrite Ha2; unfold docOf; cbn [combine flat_map fst snd]; now rewrite pushWords_app|].
      unfold bareWords. rewrite map_app, pushWords_app. fold (bareWords vs) (bareWords (concat vss)). now rewrite <- Hb.
    + destruct (pieceNodes A u lb2 [] t2 ps n0) as [[n2 t2']|] eqn:E2; [now destruct K|]. cbn [gbind].
      destruct (punctAll (map r_text rs)); cbn [gbind]; [|exact I]. rewrite pieceNodes_app, E2. exact I.
Qed.

(** ** A paragraph *)
Definition cutAtRuns (t : list run) : Prop := l_punctuator o (tokenText t) = punctAll (map r_text t).
Definition nsim (b1 b2 : state) (n0 : list (node A)) (rs : list run) (x y : go (list (node A) * state)) : Prop :=
  match x, y with
  | Ret (n1, a1), Ret (n2, a2) => n1 = n2 /\ exists vss new, Forall2 cutsInto rs vss /\ n1 = n0 ++ new /\ numbered (length b1) new (concat vss) /\
      a1 = pushWords b1 (docOf rs vss) /\ a2 = pushWords b2 (bareWords (concat vss))
  | Panic, Panic => True
  | _, _ => False
  end.
Definition token (t : list run) (spare1 spare2 : list rune) : Prop :=
  okToken u t /\ cutAtRuns t /\ mcap (tokenRunes t ++ spare1) /\ mcap (tokenText t ++ spare2).
Lemma cuts_len rs vss : Forall2 cutsInto rs vss -> length vss = length rs.
Proof. induction 1; cbn [length]; congruence. Qed.
Lemma boxNodes_nsim t spare1 spare2 b1 b2 : token t spare1 spare2 -> length b1 = length b2 -> Forall plainAttr b2 ->
  nsim b1 b2 [] t (boxNodes A u lb1 (tokenRunes t) spare1 b1) (boxNodes A u lb2 (tokenText t) spare2 b2).
Proof.
  intros (Ht & Hc & H1 & H2) Hl Hpl. rewrite boxNodes_runs by assumption. rewrite boxNodes_text by (try apply Ht; assumption).
  cbn [lb_opts]. rewrite Hc. pose proof (runsNodes_tsim t b1 b2 [] (mkTs b2 None false) Hl eq_refl Hpl) as K.
  destruct (punctAll (map r_text t)) as [ps|]; cbn [gbind] in *; [|exact K].
  destruct (runsNodes lb1 t b1 []) as [[n1 a1]|], (pieceNodes A u lb2 [] (mkTs b2 None false) ps []) as [[n2 t2]|]; exact K.
Qed.
Lemma docOf_app a b va vb : length va = length a -> docOf (a ++ b) (va ++ vb) = docOf a va ++ docOf b vb.
Proof.
  unfold docOf. revert va. induction a as [|r a IH]; intros [|v va] E; try discriminate; [reflexivity|].
  cbn [app combine flat_map]. rewrite IH by (now injection E). now rewrite app_assoc.
Qed.
Lemma alignedLoop_nsim spare1 spare2 ts : forall t i b1 b2 n0,
  (forall j x, nth_error (t :: ts) j = Some x -> token x (spare1 (i + j)%nat) (spare2 (i + j)%nat)) -> length b1 = length b2 -> Forall plainAttr b2 ->
  nsim b1 b2 n0 (concat (t :: ts)) (alignedLoop A u lb1 (tokenRunes t) (map tokenRunes ts) spare1 i b1 n0)
                                   (alignedLoop A u lb2 (tokenText t) (map tokenText ts) spare2 i b2 n0).
Proof.
  induction ts as [|t2 ts IH]; intros t i b1 b2 n0 Ht Hl Hpl; cbn [map alignedLoop];
    (pose proof (Ht 0%nat t eq_refl) as H0; rewrite Nat.add_0_r in H0;
     pose proof (boxNodes_nsim t (spare1 i) (spare2 i) b1 b2 H0 Hl Hpl) as K;
     destruct (boxNodes A u lb1 (tokenRunes t) (spare1 i) b1) as [[m1 c1]|], (boxNodes A u lb2 (tokenText t) (spare2 i) b2) as [[m2 c2]|]; try (now destruct K); cbn [gbind]; try exact I;
     destruct K as (<- & vss & new & Hv & E & Hn & Ha & Hb); cbn [app] in E; subst new; pose proof (cuts_len _ _ Hv) as Hvl).
  - cbn [nsim]. split; [reflexivity|]. exists vss, (m1 ++ finalNodes A). cbn [concat]. rewrite app_nil_r.
    split; [exact Hv|]. split; [reflexivity|]. split; [|now split]. apply numbered_pad; [exact Hn|]. repeat (constructor; [reflexivity|]). constructor.
  - change (spaceNodes A lb2) with (spaceNodes A lb1).
    assert (length c1 = length c2) as Hl2.
    { rewrite Ha, Hb, !pushWords_len, docOf_len by exact Hvl. unfold bareWords. rewrite map_length. lia. }
    pose proof (IH t2 (S i) c1 c2 (n0 ++ m1 ++ spaceNodes A lb1)) as K.
    assert (forall j x, nth_error (t2 :: ts) j = Some x -> token x (spare1 (S i + j)%nat) (spare2 (S i + j)%nat)) as Ht'.
    { intros j x Hj. replace (S i + j)%nat with (i + S j)%nat by lia. now apply Ht. }
    assert (Forall plainAttr c2) as Hpl2 by (rewrite Hb; now apply pushBare_plain).
    specialize (K Ht' Hl2 Hpl2).
    destruct (alignedLoop A u lb1 (tokenRunes t2) _ _ _ _ _) as [[n3 a3]|], (alignedLoop A u lb2 (tokenText t2) _ _ _ _ _) as [[n4 a4]|]; try (now destruct K); try exact I.
    destruct K as (<- & vss2 & new2 & Hv2 & -> & Hn2 & Ha2 & Hb2). split; [reflexivity|]. exists (vss ++ vss2), (m1 ++ spaceNodes A lb1 ++ new2).
    change (concat (t :: t2 :: ts)) with (t ++ concat (t2 :: ts)). split; [now apply Forall2_app|].
    split; [now rewrite <- !app_assoc|]. rewrite concat_app, docOf_app by exact Hvl. split.
    { rewrite app_assoc. apply numbered_app.
      - apply numbered_pad; [exact Hn|]. repeat (constructor; [reflexivity|]). constructor.
      - rewrite Ha, pushWords_len, docOf_len in Hn2 by exact Hvl. exact Hn2. }
    rewrite pushWords_app, <- Ha. split; [exact Ha2|]. unfold bareWords. rewrite map_app, pushWords_app. fold (bareWords (concat vss)) (bareWords (concat vss2)).
    now rewrite <- Hb.
Qed.
Lemma nodes_nsim spare1 spare2 ts : length s1 = length s2 -> Forall plainAttr s2 ->
  (forall j x, nth_error ts j = Some x -> token x (spare1 j) (spare2 j)) ->
  nsim s1 s2 [] (concat ts) (leftAlignedNodes A u lb1 (map tokenRunes ts) spare1) (leftAlignedNodes A u lb2 (map tokenText ts) spare2).
Proof.
  intros Hl Hpl Ht. destruct ts as [|t ts]; cbn [map leftAlignedNodes].
  - cbn. split; [reflexivity|]. exists [], []. split; [constructor|]. repeat split.
  - apply alignedLoop_nsim; [exact Ht|exact Hl|exact Hpl].
Qed.
End Sim.

(** ** Rendering *)
Section Dec.
Variable seqs : list (list rune).
Notation dec := (decorated seqs).
Lemma dec_app a b : forall x y, dec a x -> dec b y -> dec (a ++ b) (x ++ y).
Proof.
  intros x y H Hb. induction H as [|c l p _ IH|s l p Hs _ IH]; [exact Hb|now constructor|]. rewrite <- app_assoc. now constructor.
Qed.
Lemma dec_same l : dec l l.
Proof. induction l; constructor; assumption. Qed.
Lemma dec_seqs ws : Forall (fun w => In w seqs) ws -> dec (concat ws) [].
Proof. induction 1 as [|w ws Hw _ IH]; [constructor|]. cbn [concat]. now constructor. Qed.
Definition inSeqs (a : attr) : Prop := (hasStart a = true -> In (a_start a) seqs) /\ (hasStop a = true -> In (a_stop a) seqs).
Lemma inSeqs_start a : inSeqs a -> Forall (fun w => In w seqs) (attrStart a).
Proof. intros [H _]. unfold attrStart. destruct (hasStart a); [|constructor]. constructor; [now apply H|constructor]. Qed.
Lemma inSeqs_stop a : inSeqs a -> Forall (fun w => In w seqs) (attrStop a).
Proof. intros [_ H]. unfold attrStop. destruct (hasStop a); [|constructor]. constructor; [now apply H|constructor]. Qed.
Lemma dec_render a : inSeqs a -> dec (concat (attrRender a)) (a_text a).
Proof.
  intros H. unfold attrRender. rewrite !concat_app.
  apply (dec_app _ _ [] (a_text a)); [apply dec_seqs, inSeqs_start, H|].
  rewrite <- (app_nil_r (a_text a)). apply dec_app; [|apply dec_seqs, inSeqs_stop, H]. rewrite app_nil_r.
  destruct (a_text a); cbn; [constructor|]. rewrite app_nil_r. apply dec_same.
Qed.
Lemma startOfLine_in s it : Forall inSeqs s -> Forall (fun w => In w seqs) (startOfLine s it).
Proof.
  intros H. unfold startOfLine. destruct (i_cur it) as [n|]; [|constructor]. destruct (nth_error s n); [|constructor]. destruct (lineLevel a =? 0); [constructor|].
  apply Forall_flat_map. apply Forall_forall. intros x Hx. apply inSeqs_start. rewrite Forall_forall in H. apply H.
  assert (forall k (l : list attr), In x (firstn k l) -> In x l) as F by (intros k l Hk; rewrite <- (firstn_skipn k l); apply in_or_app; now left).
  assert (forall k (l : list attr), In x (skipn k l) -> In x l) as G by (intros k l Hk; rewrite <- (firstn_skipn k l); apply in_or_app; now right).
  eauto.
Qed.
Lemma stops_in l s : Forall inSeqs s -> Forall (fun w => In w seqs) (stops_while l s).
Proof.
  induction 1 as [|a s Ha _ IH]; [constructor|]. cbn [stops_while]. destruct (a_level a <? l); [constructor|]. apply Forall_app. split; [now apply inSeqs_stop|exact IH].
Qed.
Lemma endOfLine_in s it : Forall inSeqs s -> Forall (fun w => In w seqs) (endOfLine s it).
Proof.
  intros H. unfold endOfLine. destruct (i_cur it) as [n|]; [|constructor]. destruct (nth_error s n); [|constructor]. destruct (lineLevel a =? 0); [constructor|].
  apply stops_in. rewrite Forall_forall in *. intros x Hx. apply H. rewrite <- (firstn_skipn (backtrack s (lineLevel a) n) s). apply in_or_app. now right.
Qed.
Section Rend.
Variable A : arith.
Variable o : lopts A.
Variable a1 a2 : state.
Hypothesis Ha : Forall2 (fun x y => a_text x = a_text y /\ inSeqs x /\ plainAttr y) a1 a2.
Lemma a1_in : Forall inSeqs a1. Proof. generalize Ha. generalize a1 a2. induction 1 as [|x y l k (_ & H & _) _ IH]; constructor; auto. Qed.
Lemma a2_plain : Forall plainAttr a2. Proof. generalize Ha. generalize a1 a2. induction 1 as [|x y l k (_ & _ & H) _ IH]; constructor; auto. Qed.
Lemma nth_both i : match nth_error a1 i, nth_error a2 i with
  | Some x, Some y => a_text x = a_text y /\ inSeqs x /\ plainAttr y | None, None => True | _, _ => False end.
Proof. revert i. generalize Ha. generalize a1 a2. induction 1 as [|x y l k H _ IH]; intros [|i]; cbn [nth_error]; auto. apply IH. Qed.
Lemma renderLine_dec r ns : forall it1 it2 w1 w2, dec w1 w2 ->
  match renderLine A o a1 r ns it1 w1, renderLine A o a2 r ns it2 w2 with
  | Ret (v1, _), Ret (v2, _) => dec v1 v2 | Panic, Panic => True | _, _ => False end.
Proof.
  induction ns as [|n ns IH]; intros it1 it2 w1 w2 H; cbn [renderLine]; [exact H|]. destruct (n_type n).
  - destruct (_ && _ && _); apply IH; [apply dec_app; [exact H|apply dec_same]|exact H].
  - destruct (repeatSpaces _); cbn [gbind]; [|exact I]. apply IH. apply dec_app; [exact H|apply dec_same].
  - destruct (n_attr n) as [i|]; [|apply IH; apply dec_app; [exact H|apply dec_same]].
    pose proof (nth_both i) as K. destruct (nth_error a1 i) as [x|], (nth_error a2 i) as [y|]; try (now destruct K); try exact I.
    apply IH. apply dec_app; [exact H|]. destruct K as (Et & Hi & (P1 & P2 & P3)). assert (concat (attrRender y) = a_text y) as ->.
    { clear - P1 P2. destruct y as [t s e l]. cbn in P1, P2. subst s e. destruct t; cbn; [reflexivity|]. now rewrite app_nil_r. }
    rewrite <- Et. now apply dec_render.
Qed.
Lemma renderLines_dec lines : forall it1 it2,
  match renderLines A o a1 lines it1, renderLines A o a2 lines it2 with
  | Ret l1, Ret l2 => Forall2 dec l1 l2 | Panic, Panic => True | _, _ => False end.
Proof.
  induction lines as [|[r ns] lines IH]; intros it1 it2; cbn [renderLines]; [constructor|].
  pose proof (renderLine_dec r ns it1 it2 (concat (startOfLine a1 it1)) (concat (startOfLine a2 it2))) as K.
  assert (dec (concat (startOfLine a1 it1)) (concat (startOfLine a2 it2))) as K0.
  { rewrite (proj1 (plain_start _ it2 a2_plain)). apply dec_seqs, startOfLine_in, a1_in. }
  specialize (K K0). destruct (renderLine A o a1 r ns it1 _) as [[v1 j1]|], (renderLine A o a2 r ns it2 _) as [[v2 j2]|]; try (now destruct K); cbn [gbind]; try exact I.
  pose proof (IH j1 j2) as K2. destruct (renderLines A o a1 lines j1), (renderLines A o a2 lines j2); try (now destruct K2); cbn [gbind]; try exact I.
  constructor; [|exact K2]. apply dec_app; [exact K|]. rewrite (proj2 (plain_start _ j2 a2_plain)). apply dec_seqs, endOfLine_in, a1_in.
Qed.
End Rend.
End Dec.

Lemma words_sim seqs (ws : list word) : forall s1 s2, Forall2 (fun x y => a_text x = a_text y /\ inSeqs seqs x /\ plainAttr y) s1 s2 ->
  Forall (fun w => (snd (fst w) = [] \/ In (snd (fst w)) seqs) /\ (snd w = [] \/ In (snd w) seqs)) ws ->
  Forall2 (fun x y => a_text x = a_text y /\ inSeqs seqs x /\ plainAttr y) (pushWords s1 ws) (pushWords s2 (bareWords (map (fun w => fst (fst w)) ws))).
Proof.
  induction ws as [|[[t st] e] ws IH]; intros s1 s2 Hs Hw; [exact Hs|]. inversion Hw as [|? ? [H1 H2] Hw']; subst. cbn [fst snd] in *. cbn [map bareWords].
  change (pushWords s1 ((t, st, e) :: ws)) with (pushWords (push s1 (Some (ofWord (t, st, e)))) ws).
  change (pushWords s2 ((t, [], []) :: map (fun v => (v, [], [])) (map (fun w => fst (fst w)) ws))) with
    (pushWords (push s2 (Some (newAttr t [] []))) (bareWords (map (fun w => fst (fst w)) ws))).
  apply IH; [|exact Hw']. match goal with |- Forall2 _ _ ?x => change x with (push s2 (Some (newAttr t [] []))) end. rewrite plain_push by (eapply a2_plain; exact Hs). cbn [push]. apply Forall2_app; [exact Hs|]. constructor; [|constructor].
  split; [reflexivity|]. split; [|repeat split]. split; cbn.
  - intros H. destruct H1 as [->|H1]; [discriminate H|exact H1].
  - intros H. destruct H2 as [->|H2]; [discriminate H|exact H2].
Qed.
Lemma docOf_text rs : forall vss, length vss = length rs -> map (fun w => fst (fst w)) (docOf rs vss) = concat vss.
Proof.
  unfold docOf. induction rs as [|r rs IH]; intros [|vs vss] E; try discriminate; [reflexivity|]. cbn [combine flat_map concat fst snd].
  rewrite map_app, IH by (now injection E). f_equal. destruct vs as [|v vs]; [reflexivity|]. cbn [runWords].
  generalize (r_start r). clear. revert v. induction vs as [|y vs IH]; intros v st; [reflexivity|]. cbn [tailWords map fst]. now rewrite IH.
Qed.
Lemma docOf_seqs rs : forall vss, Forall (fun w => (snd (fst w) = [] \/ In (snd (fst w)) (sequencesOf rs)) /\ (snd w = [] \/ In (snd w) (sequencesOf rs))) (docOf rs vss).
Proof.
  unfold docOf. induction rs as [|r rs IH]; intros [|vs vss]; try constructor. cbn [combine flat_map fst snd]. apply Forall_app. split.
  - destruct vs as [|v vs]; [constructor|]. cbn [runWords].
    assert (forall vs v st, st = [] \/ st = r_start r -> Forall (fun w : word => (snd (fst w) = [] \/ In (snd (fst w)) (sequencesOf (r :: rs))) /\ (snd w = [] \/ In (snd w) (sequencesOf (r :: rs)))) (tailWords v vs st (r_stop r))) as K.
    { clear. induction vs as [|y vs IH]; intros v st Hs; cbn [tailWords]; constructor; cbn [fst snd].
      - split; [destruct Hs as [->| ->]; [now left|right; now left]|right; right; now left].
      - constructor.
      - split; [destruct Hs as [->| ->]; [now left|right; now left]|now left].
      - apply IH. now left. }
    apply K. now right.
  - eapply Forall_impl; [|apply IH]. intros w [H1 H2]. cbn [sequencesOf flat_map app In]. unfold sequencesOf in *. split; [destruct H1|destruct H2]; tauto.
Qed.

(** C64 *)
Section Formatted.
Variable A : arith.
Variable u : unicode.
Variable lb : breaker A.
Hypothesis Hp : Forall plainAttr (lb_attrs lb).
Lemma plain_self seqs s : Forall plainAttr s -> Forall2 (fun x y => a_text x = a_text y /\ inSeqs seqs x /\ plainAttr y) s s.
Proof.
  induction 1 as [|a s Ha _ IH]; constructor; [|exact IH]. split; [reflexivity|]. split; [|exact Ha]. destruct Ha as (H1 & H2 & _). split; intros H.
  - unfold hasStart in H. now rewrite H1 in H.
  - unfold hasStop in H. now rewrite H2 in H.
Qed.
Theorem format_sim ord spare1 spare2 (ts : list (list run)) maxWidth :
  (forall j x, nth_error ts j = Some x -> token A u (lb_opts lb) x (spare1 j) (spare2 j)) ->
  match leftAlignUniform A u ord spare1 lb (map tokenRunes ts) maxWidth, leftAlignUniform A u ord spare2 lb (map tokenText ts) maxWidth with
  | Ret (Some l1, _), Ret (Some l2, _) => Forall2 (decorated (sequencesOf (concat ts))) l1 l2
  | Ret (None, _), Ret (None, _) => True
  | Panic, Panic => True
  | _, _ => False
  end.
Proof.
  intros Ht. destruct lb as [o sp hy s]. cbn [lb_opts lb_attrs] in *. unfold leftAlignUniform.
  pose proof (nodes_nsim A u o sp hy s s spare1 spare2 ts eq_refl Hp Ht) as K.
  destruct (leftAlignedNodes A u _ (map tokenRunes ts) spare1) as [[n1 a1]|], (leftAlignedNodes A u _ (map tokenText ts) spare2) as [[n2 a2]|]; try (now destruct K); cbn [gbind]; try exact I.
  destruct K as (<- & vss & new & Hv0 & _ & _ & Ha & Hb). cbn [lb_opts]. pose proof (cuts_len _ _ _ _ _ _ _ _ Hv0) as Hv.
  destruct (breakPoints A (l_search o) ord n1 [scale A o maxWidth]) as [[bs|]|]; cbn [gbind]; try exact I.
  assert (Forall2 (fun x y => a_text x = a_text y /\ inSeqs (sequencesOf (concat ts)) x /\ plainAttr y) a1 a2) as Hs.
  { rewrite Ha, Hb, <- (docOf_text (concat ts) vss Hv). apply words_sim; [now apply plain_self|apply docOf_seqs]. }
  unfold render. destruct (cutLines A n1 bs 0) as [ls|]; cbn [gbind]; [|exact I].
  pose proof (renderLines_dec (sequencesOf (concat ts)) A o a1 a2 Hs ls (iterator a1) (iterator a2)) as K.
  destruct (renderLines A o a1 ls (iterator a1)), (renderLines A o a2 ls (iterator a2)); try (now destruct K); cbn [gbind]; exact K.
Qed.
End Formatted.

(** The sequences put aside, a line is the line of the plain text. *)
Lemma decorated_reads u seqs l p : Forall (fun s => s = [] \/ sequence u Start s \/ sequence u Stop s) seqs -> ~ In ESC p ->
  decorated seqs l p -> reads u l p.
Proof.
  intros Hs Hp H. induction H as [|c l p H IH|s l p Hin H IH].
  - exists []. split; [constructor|reflexivity].
  - destruct IH as (is & H1 & H2); [intros Hc; apply Hp; now right|]. exists (Chr [c] :: is). split; [|change (c :: visible is = c :: p); now rewrite H2].
    apply lx_chr; [|exact H1]. intros ->. apply Hp. now left.
  - destruct (IH Hp) as (is & H1 & H2). rewrite Forall_forall in Hs. destruct (Hs s Hin) as [->|[Hk|Hk]]; [exists is; split; assumption| |];
      (eexists (Ctl _ s :: is); split; [apply lx_csi; [apply sequence_csi; [exact Hk|discriminate]|exact H1]|exact H2]).
Qed.
Lemma sequences_kinds u t : Forall (okRun u) t -> Forall (fun s => s = [] \/ sequence u Start s \/ sequence u Stop s) (sequencesOf t).
Proof.
  induction 1 as [|r t Hr _ IH]; [constructor|]. unfold sequencesOf in *. cbn [flat_map app].
  destruct Hr as [s x e Hs He _ _]; cbn [r_start r_stop]; constructor; [tauto|]. constructor; [tauto|exact IH].
Qed.
Theorem format_neutral A u o lb : Call.usable A u o lb -> forall ord spare1 spare2 (ts : list (list run)) maxWidth,
  (forall j x, nth_error ts j = Some x -> token A u o x (spare1 j) (spare2 j)) ->
  match leftAlignUniform A u ord spare1 lb (map tokenRunes ts) maxWidth, leftAlignUniform A u ord spare2 lb (map tokenText ts) maxWidth with
  | Ret (Some l1, _), Ret (Some l2, _) =>
      Forall2 (fun l p => decorated (sequencesOf (concat ts)) l p /\ (~ In ESC p -> reads u l p)) l1 l2
  | Ret (None, _), Ret (None, _) => True
  | Panic, Panic => True
  | _, _ => False
  end.
Proof.
  intros U ord spare1 spare2 ts maxWidth Ht. destruct (Call.usable_ok A u o lb U) as (sp & hy & _ & attrs & -> & Hp).
  pose proof (format_sim A u (mkBreaker o sp hy attrs) Hp ord spare1 spare2 ts maxWidth Ht) as K.
  destruct (leftAlignUniform A u ord spare1 _ _ _) as [[[l1|] x1]|], (leftAlignUniform A u ord spare2 _ _ _) as [[[l2|] x2]|]; try exact K.
  assert (Forall (okRun u) (concat ts)) as Hr.
  { apply Forall_concat, Forall_forall. intros t Hin. apply In_nth_error in Hin. destruct Hin as [j Hj]. now destruct (Ht j t Hj) as ((_ & H & _) & _). }
  induction K as [|a b la lb0 H K IH]; constructor; [|exact IH]. split; [exact H|]. intros He. eapply decorated_reads; [|exact He|exact H].
  now apply sequences_kinds.
Qed.
