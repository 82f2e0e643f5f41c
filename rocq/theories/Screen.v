(** The lines of formatted tokens as shown on a terminal. *)
From Verif Require Import Base Unicode SpecAnsi SpecAttr SpecKP SpecFormat SpecLines SpecScreen Tokens Format FormatLines.

Section Shows.
Variable u : unicode.

(** [shows act l cells act']: from [act], [l] shows [cells] and leaves [act'], whatever comes next *)
Definition shows (act : formats) (l : list rune) (cells : list (list rune * formats)) (act' : formats) : Prop :=
  exists items, (forall rest is, lexed u rest is -> lexed u (l ++ rest) (items ++ is)) /\ screen act items = (cells, act').
Lemma screen_app i j : forall act, screen act (i ++ j) =
  let (d, a) := screen act i in let (d', a') := screen a j in (d ++ d', a').
Proof.
  induction i as [|x i IH]; intros act; [cbn; now destruct (screen act j)|]. cbn [app screen].
  destruct x as [l|[| |] s]; cbn [screen]; try apply IH. rewrite IH. destruct (screen act i) as [d a]. destruct (screen a j). reflexivity.
Qed.
Lemma shows_app a l c a' l2 c2 a'' : shows a l c a' -> shows a' l2 c2 a'' -> shows a (l ++ l2) (c ++ c2) a''.
Proof.
  intros (i & L1 & S1) (j & L2 & S2). exists (i ++ j). split.
  - intros rest is H. rewrite <- !app_assoc. apply L1, L2, H.
  - rewrite screen_app, S1, S2. reflexivity.
Qed.
Lemma shows_nil a : shows a [] [] a. Proof. exists []. split; [intros; assumption|reflexivity]. Qed.
Lemma shows_text a t : ~ In ESC t -> shows a t (map (fun c => ([c], a)) t) a.
Proof.
  intros H. exists (textItems t). split; [intros rest is; now apply lexed_text|]. clear H. induction t as [|c t IH]; [reflexivity|].
  unfold textItems in *. cbn [map screen]. rewrite IH. reflexivity.
Qed.
Lemma shows_start a s : sequence u Start s -> shows a s [] (turnOn a s).
Proof.
  intros H. exists [Ctl Start s]. split; [|reflexivity]. intros rest is Hl. cbn [app]. apply lx_csi; [|exact Hl]. apply sequence_csi; [exact H|discriminate].
Qed.
Lemma shows_stop a s : sequence u Stop s -> shows a s [] [].
Proof.
  intros H. exists [Ctl Stop s]. split; [|reflexivity]. intros rest is Hl. cbn [app]. apply lx_csi; [|exact Hl]. apply sequence_csi; [exact H|discriminate].
Qed.
Lemma in_turnOn s act x : In x (turnOn act s) <-> x = s \/ In x act.
Proof.
  unfold turnOn. destruct (in_dec (list_eq_dec Z.eq_dec) s act) as [H|H].
  - split; [tauto|intros [->|E]; auto].
  - rewrite in_app_iff. cbn. intuition.
Qed.
Lemma shows_starts rs : Forall (okPassage u) rs -> Forall (fun r => isPlain r = false) rs -> forall act, exists act',
  shows act (flat_map p_start rs) [] act' /\ (forall x, In x act' <-> In x (map p_start rs) \/ In x act).
Proof.
  induction 1 as [|r rs Hr _ IH]; intros Hp act; [exists act; split; [apply shows_nil|cbn; tauto]|].
  inversion Hp as [|? ? Hr2 Hp2]; subst. destruct (okPassage_seqs u r Hr Hr2) as [Hs _].
  destruct (IH Hp2 (turnOn act (p_start r))) as (act' & H1 & H2). exists act'. split; [exact (shows_app _ _ _ _ _ _ _ (shows_start act _ Hs) H1)|].
  intros x. rewrite H2, in_turnOn. cbn [map In]. intuition.
Qed.
Lemma shows_stops rs : Forall (okPassage u) rs -> forall act, exists act', shows act (flat_map p_stop rs) [] act' /\
  (Exists (fun r => isPlain r = false) rs \/ act = [] -> act' = []).
Proof.
  induction 1 as [|r rs Hr _ IH]; intros act; [exists act; split; [apply shows_nil|intros [H|H]; [inversion H|exact H]]|].
  destruct (isPlain r) eqn:E.
  - destruct (IH act) as (a & H1 & H2). exists a. destruct (okPassage_plain u r Hr E) as [_ E2]. cbn [flat_map]. rewrite E2. split; [exact H1|].
    intros [H|H]; apply H2; [|now right]. left. inversion H; subst; [congruence|assumption].
  - destruct (okPassage_seqs u r Hr E) as [_ He]. destruct (IH []) as (a & H1 & H2). exists a.
    split; [exact (shows_app _ _ _ _ _ _ _ (shows_stop act _ He) H1)|]. intros _. apply H2. now right.
Qed.

(** ** Pieces in a row *)
Notation triple := ((frag * mark) * origin)%type.
Notation tfrag t := (fst (fst t)).
Notation tmark t := (snd (fst t)).
Notation torig t := (snd t).
Definition okOrigin (w : origin) : Prop := okPassage u (o_passage w) /\ Forall (okPassage u) (o_before w).
Definition samePassage (w w' : origin) : Prop := o_before w = o_before w' /\ o_passage w = o_passage w'.
Lemma same_good w w' act : samePassage w w' -> goodFormats w act -> goodFormats w' act.
Proof. intros [E1 E2]. unfold goodFormats, groupStarts. now rewrite E1, E2. Qed.
Definition opening (w : origin) : list rune := if isPlain (o_passage w) then [] else flat_map p_start (trailingPassages (o_before w) ++ [o_passage w]).
Fixpoint chain (st : option origin) (l : list triple) : Prop :=
  match l with
  | [] => True
  | t :: l' =>
      ~ In ESC (f_text (tfrag t)) /\ okOrigin (torig t) /\
      match st with None => m_before (tmark t) = p_start (o_passage (torig t)) | Some w => samePassage w (torig t) /\ m_before (tmark t) = [] end /\
      ((o_last (torig t) = true /\ isSoft (tfrag t) = false /\ m_after (tmark t) = p_stop (o_passage (torig t)) /\ m_resume (tmark t) = [] /\ m_suspend (tmark t) = [] /\ chain None l') \/
       (o_last (torig t) = false /\ m_after (tmark t) = [] /\ m_resume (tmark t) = opening (torig t) /\
        (exists rs, Forall (okPassage u) rs /\ In (o_passage (torig t)) rs /\
           m_suspend (tmark t) = if isPlain (o_passage (torig t)) then [] else flat_map p_stop rs) /\ chain (Some (torig t)) l'))
  end.
Definition enter (st : option origin) (act : formats) (l : list triple) : Prop :=
  match st with
  | None => match l with t :: _ => incl act (groupStarts (torig t)) | [] => act = [] end
  | Some w => goodFormats w act
  end.
Lemma leading_okd rs : Forall (okPassage u) rs -> Forall (okPassage u) (leadingPassages rs) /\ Forall (fun r => isPlain r = false) (leadingPassages rs).
Proof.
  induction 1 as [|r rs Hr _ [IH1 IH2]]; [split; constructor|]. cbn [leadingPassages]. destruct (isPlain r) eqn:E; split; constructor; assumption.
Qed.
Lemma trailing_okd rs : Forall (okPassage u) rs -> Forall (okPassage u) (trailingPassages rs) /\ Forall (fun r => isPlain r = false) (trailingPassages rs).
Proof. intros H. apply Forall_rev in H. destruct (leading_okd _ H) as [H1 H2]. unfold trailingPassages. split; now apply Forall_rev. Qed.
Lemma shows_opening w : okOrigin w -> exists act', shows [] (opening w) [] act' /\ goodFormats w act'.
Proof.
  intros [H1 H2]. unfold opening, goodFormats, groupStarts. destruct (isPlain (o_passage w)) eqn:E.
  - exists []. split; [apply shows_nil|]. split; [apply incl_refl|discriminate].
  - destruct (trailing_okd _ H2) as [K1 K2].
    destruct (shows_starts (trailingPassages (o_before w) ++ [o_passage w])) with (act := @nil (list rune)) as (a & S & I).
    + apply Forall_app. split; [exact K1|now constructor].
    + apply Forall_app. split; [exact K2|now constructor].
    + exists a. split; [exact S|]. split.
      * intros x Hx. apply I in Hx. now destruct Hx.
      * intros _. apply I. left. rewrite map_app, in_app_iff. right. now left.
Qed.
(** a piece, up to its stop sequence *)
Lemma piece_shows t l st act : chain st (t :: l) -> enter st act (t :: l) -> exists act1 act2,
  goodFormats (torig t) act1 /\
  shows act (pieceText (fst t)) (map (fun c => ([c], act1)) (f_text (tfrag t))) act2 /\
  ((act2 = [] /\ o_last (torig t) = true /\ isSoft (tfrag t) = false /\ m_resume (tmark t) = [] /\ m_suspend (tmark t) = [] /\ chain None l) \/
   (act2 = act1 /\ o_last (torig t) = false /\ m_resume (tmark t) = opening (torig t) /\
    (exists rs, Forall (okPassage u) rs /\ In (o_passage (torig t)) rs /\
       m_suspend (tmark t) = if isPlain (o_passage (torig t)) then [] else flat_map p_stop rs) /\ chain (Some (torig t)) l)).
Proof.
  intros (Ht & [Hr Hpre] & Hb & Ha) He.
  assert (exists act1, goodFormats (torig t) act1 /\ shows act (m_before (tmark t)) [] act1) as (act1 & G & S1).
  { destruct st as [w|].
    - destruct Hb as [Hw ->]. exists act. split; [exact (same_good _ _ _ Hw He)|apply shows_nil].
    - rewrite Hb. cbn [enter] in He. unfold goodFormats. destruct (isPlain (o_passage (torig t))) eqn:E.
      + exists act. split; [split; [exact He|discriminate]|]. destruct (okPassage_plain u _ Hr E) as [-> _]. apply shows_nil.
      + destruct (okPassage_seqs u _ Hr E) as [Hs _].
        exists (turnOn act (p_start (o_passage (torig t)))). split; [|now apply shows_start]. split.
        * intros y Hy. apply in_turnOn in Hy. destruct Hy as [->|Hy]; [|now apply He]. unfold groupStarts. rewrite E, map_app, in_app_iff. right. now left.
        * intros _. apply in_turnOn. now left. }
  pose proof (shows_text act1 _ Ht) as S2.
  destruct Ha as [(A0 & A5 & A1 & A2 & A3 & A4)|(A0 & A1 & A2 & A3 & A4)].
  - assert (shows act1 (m_after (tmark t)) [] []) as S3.
    { rewrite A1. destruct (isPlain (o_passage (torig t))) eqn:E.
      - destruct G as [G _]. unfold groupStarts in G. rewrite E in G. assert (act1 = []) as -> by (destruct act1 as [|y ys]; [reflexivity|destruct (G y); now left]).
        destruct (okPassage_plain u _ Hr E) as [_ ->]. apply shows_nil.
      - apply shows_stop. now apply okPassage_seqs. }
    exists act1, []. split; [exact G|]. split; [|left; auto 8].
    pose proof (shows_app _ _ _ _ _ _ _ S1 (shows_app _ _ _ _ _ _ _ S2 S3)) as S. rewrite app_nil_r in S. exact S.
  - exists act1, act1. split; [exact G|]. split; [|right; auto 8].
    pose proof (shows_app _ _ _ _ _ _ _ S1 S2) as S. unfold pieceText. rewrite A1, app_nil_r. exact S.
Qed.
Lemma goodCells w act t : goodFormats w act -> Forall2 goodCell (map (fun c => ([c], act)) t) (map (fun c => (c, Some w)) t).
Proof. intros H. induction t as [|c t IH]; constructor; [|exact IH]. split; [reflexivity|exact H]. Qed.
Variable rh : bool.
Notation untag l := (map (fun t : triple => (tfrag t, torig t)) l).
Lemma enter_none act l : act = [] -> enter None act l.
Proof. intros ->. destruct l; [reflexivity|]. apply incl_nil_l. Qed.
Lemma suspend_shows w act su : okOrigin w -> goodFormats w act ->
  (exists rs, Forall (okPassage u) rs /\ In (o_passage w) rs /\ su = if isPlain (o_passage w) then [] else flat_map p_stop rs) -> shows act su [] [].
Proof.
  intros _ [G _] (rs & R1 & R2 & ->). unfold groupStarts in G. destruct (isPlain (o_passage w)) eqn:E.
  - assert (act = []) as -> by (destruct act as [|y ys]; [reflexivity|destruct (G y); now left]). apply shows_nil.
  - destruct (shows_stops rs R1 act) as (a & S & H). rewrite H in S; [exact S|]. left. apply Exists_exists. eauto.
Qed.
Lemma line_shows l : forall st act rest, l <> [] -> chain st (l ++ rest) -> enter st act (l ++ rest) -> exists cells st' act',
  shows act (lineBody rh (map fst l)) cells [] /\ Forall2 goodCell cells (lineCells rh (untag l)) /\
  shows [] (nextOpening (map fst l)) [] act' /\ chain st' rest /\ enter st' act' rest.
Proof.
  induction l as [|t l IH]; intros st act rest Hne Hc He; [congruence|]. cbn [app] in Hc, He.
  destruct (piece_shows t _ st act Hc He) as (a1 & a2 & G & S & K). assert (okOrigin (torig t)) as Hw by apply Hc. clear Hne. destruct l as [|t2 l].
  - clear IH. cbn [app] in K. cbn [map lineBody lineCells]. unfold nextOpening. cbn [rev app].
    destruct K as [(-> & _ & K0 & K1 & K2 & K3)|(-> & K0 & K1 & K2 & K3)].
    + rewrite K0, andb_false_r, K1, K2, app_nil_r. cbn [app]. rewrite app_nil_r.
      eexists _, None, []. split; [exact S|]. split; [now apply goodCells|]. split; [apply shows_nil|]. split; [exact K3|now apply enter_none].
    + destruct (shows_opening _ Hw) as (ao & O1 & O2). rewrite K1. set (hyp := if rh && isSoft (tfrag t) then [45] else []).
      assert (~ In ESC hyp) as Hh by (unfold hyp; destruct (rh && isSoft (tfrag t)); cbn; [intros [E|[]]; discriminate E|tauto]).
      eexists _, (Some (torig t)), ao.
      split; [exact (shows_app _ _ _ _ _ _ _ S (shows_app _ _ _ _ _ _ _ (shows_text a1 _ Hh) (suspend_shows _ _ _ Hw G K2)))|].
      rewrite app_nil_r, <- map_app. split; [now apply goodCells|]. split; [exact O1|]. split; [exact K3|exact O2].
  - assert (forall st2, chain st2 ((t2 :: l) ++ rest) -> enter st2 a2 ((t2 :: l) ++ rest) -> (if o_last (torig t) then a2 = [] else a2 = a1) ->
      exists cells st' act', shows act (lineBody rh (map fst (t :: t2 :: l))) cells [] /\ Forall2 goodCell cells (lineCells rh (untag (t :: t2 :: l))) /\
      shows [] (nextOpening (map fst (t :: t2 :: l))) [] act' /\ chain st' rest /\ enter st' act' rest) as Go.
    { intros st2 Hc2 He2 Hsp. destruct (IH st2 a2 rest ltac:(discriminate) Hc2 He2) as (cells & st' & act' & I1 & I2 & I3 & I4 & I5).
      assert (exists cs, shows a2 (if isSpaced (tfrag t) then [32] else []) cs a2 /\ Forall2 goodCell cs (if isSpaced (tfrag t) then [(32, if o_last (torig t) then None else Some (torig t))] else [])) as (cs & X1 & X2).
      { destruct (isSpaced (tfrag t)).
        - eexists. split; [apply shows_text; cbn; intros [E|[]]; discriminate E|]. constructor; [|constructor]. split; [reflexivity|]. cbn [snd]. destruct (o_last (torig t)); [exact Hsp|]. rewrite Hsp. exact G.
        - exists []. split; [apply shows_nil|constructor]. }
      eexists _, st', act'. split; [exact (shows_app _ _ _ _ _ _ _ S (shows_app _ _ _ _ _ _ _ X1 I1))|].
      split; [apply Forall2_app; [now apply goodCells|]; apply Forall2_app; [exact X2|exact I2]|].
      split; [|now split]. replace (nextOpening (map fst (t :: t2 :: l))) with (nextOpening (map fst (t2 :: l))); [exact I3|].
      unfold nextOpening. cbn [map rev]. destruct (rev (map fst l) ++ [fst t2]) as [|x y] eqn:E; [now destruct (rev (map fst l))|reflexivity]. }
    destruct K as [(E2 & K4 & K0 & K1 & K2 & K3)|(E2 & K0 & K1 & K2 & K3)].
    + apply (Go None); [exact K3|apply enter_none; exact E2|]. rewrite K4. exact E2.
    + apply (Go (Some (torig t))); [exact K3|rewrite E2; exact G|]. rewrite K0. exact E2.
Qed.
Lemma lines_shows lines : forall st op act, Forall (fun l => l <> []) lines -> chain st (concat lines) -> shows [] op [] act -> enter st act (concat lines) ->
  Forall2 (lineShown u rh) (markedLines rh op (map (map fst) lines)) (map (fun l => untag l) lines).
Proof.
  induction lines as [|l lines IH]; intros st op act Hne Hc Ho He; [constructor|]. inversion Hne as [|? ? Hl Hls]; subst.
  cbn [concat] in Hc, He. destruct (line_shows l st act (concat lines) Hl Hc He) as (cells & st' & act' & S1 & S2 & S3 & S4 & S5).
  cbn [map markedLines]. constructor; [|now apply (IH st' _ act')].
  destruct (shows_app _ _ _ _ _ _ _ Ho S1) as (items & Lx & Sc). exists items, cells. split; [|split; [exact Sc|exact S2]].
  specialize (Lx [] [] (lx_nil u)). now rewrite !app_nil_r in Lx.
Qed.

(** ** The pieces of a document *)
Variable cnt : passage -> nat.
Definition okBlock (b : passage * list frag) : Prop :=
  okPassage u (fst b) /\ cnt (fst b) = length (snd b) /\ Forall (fun f => ~ In ESC (f_text f)) (snd b) /\
  exists ini f, snd b = ini ++ [f] /\ isSoft f = false.
Lemma combine_app {T U} (a : list T) : forall b (c d : list U), length a = length c -> combine (a ++ b) (c ++ d) = combine a c ++ combine b d.
Proof. induction a as [|x a IH]; intros b [|y c] d E; try discriminate; [reflexivity|]. cbn. f_equal. apply IH. now injection E. Qed.
Lemma block_chain pre p resume suspend f ini : forall st start rest, okPassage u p -> Forall (okPassage u) pre ->
  Forall (fun f => ~ In ESC (f_text f)) (ini ++ [f]) -> isSoft f = false ->
  resume = opening (mkOrigin pre p true) ->
  (exists rs, Forall (okPassage u) rs /\ In p rs /\ suspend = if isPlain p then [] else flat_map p_stop rs) ->
  match st with None => start = p_start p | Some w' => samePassage w' (mkOrigin pre p true) /\ start = [] end -> chain None rest ->
  chain st (combine (combine (ini ++ [f]) (marksFrom start (p_stop p) resume suspend (length (ini ++ [f])))) (originsFrom pre p (length (ini ++ [f]))) ++ rest).
Proof.
  induction ini as [|g ini IH]; intros st start rest Hw Hpre Ht Hf Hr Hs Hst Hc.
  - cbn [app length marksFrom originsFrom combine]. cbn [chain fst snd m_before m_after m_resume m_suspend o_passage o_last o_before]. inversion Ht; subst.
    split; [assumption|]. split; [split; assumption|]. split; [exact Hst|]. left. auto 9.
  - assert (exists k, length (ini ++ [f]) = S k) as (k & Ek) by (rewrite app_length; cbn; exists (length ini); lia).
    inversion Ht; subst.
    change ((g :: ini) ++ [f]) with (g :: (ini ++ [f])). cbn [length].
    specialize (IH (Some (mkOrigin pre p false)) [] rest Hw Hpre ltac:(assumption) Hf eq_refl Hs (conj (conj eq_refl eq_refl) eq_refl) Hc).
    rewrite Ek in *. set (op := opening (mkOrigin pre p true)) in *. change (marksFrom start (p_stop p) op suspend (S (S k))) with
      (mkMark start [] op suspend :: marksFrom [] (p_stop p) op suspend (S k)).
    change (originsFrom pre p (S (S k))) with (mkOrigin pre p false :: originsFrom pre p (S k)). cbn [combine app].
    cbn [chain fst snd m_before m_after m_resume m_suspend o_passage o_last o_before].
    split; [assumption|]. split; [split; assumption|]. split; [exact Hst|]. right. split; [reflexivity|]. split; [reflexivity|]. split; [reflexivity|]. split; [exact Hs|]. exact IH.
Qed.
Lemma originsFrom_len pre p k : length (originsFrom pre p k) = k.
Proof. induction k as [|k IH]; [reflexivity|]. cbn [originsFrom length]. now rewrite IH. Qed.
Lemma passageMarks_eq pre r post : okPassage u r -> passageMarks cnt pre r post = marksFrom (p_start r) (p_stop r) (opening (mkOrigin pre r true))
  (if isPlain r then [] else flat_map p_stop (trailingPassages pre ++ r :: leadingPassages post)) (cnt r).
Proof.
  intros Hr. unfold passageMarks, opening. cbn [o_passage o_before]. destruct (isPlain r) eqn:E; [|reflexivity].
  destruct (okPassage_plain u r Hr E) as [-> ->]. reflexivity.
Qed.
Lemma doc_chain bs : forall pre, Forall (okPassage u) pre -> Forall okBlock bs ->
  chain None (combine (combine (concat (map snd bs)) (docMarks cnt pre (map fst bs))) (origins cnt pre (map fst bs))).
Proof.
  induction bs as [|[r fs] bs IH]; intros pre Hpre Hb; [exact I|]. inversion Hb as [|? ? (B1 & B2 & B3 & ini & f & B4 & B5) Hb']; subst.
  cbn [fst snd] in *. cbn [map fst snd concat docMarks origins].
  assert (Forall (okPassage u) (map fst bs)) as Hpost by (rewrite Forall_map; eapply Forall_impl; [|exact Hb']; intros b Hb2; apply Hb2).
  pose proof (passageMarks_len cnt pre r (map fst bs)) as El.
  rewrite (combine_app fs) by congruence.
  rewrite combine_app by (rewrite combine_length, El, originsFrom_len; lia).
  rewrite passageMarks_eq, B2 by assumption. rewrite B4 in *. apply block_chain; auto.
  - exists (trailingPassages pre ++ r :: leadingPassages (map fst bs)). split; [|split; [rewrite in_app_iff; right; now left|reflexivity]].
    apply Forall_app. split; [now apply trailing_okd|]. constructor; [exact B1|now apply leading_okd].
  - apply IH; [|exact Hb']. apply Forall_app. split; [exact Hpre|now constructor].
Qed.
Lemma origins_len rs : forall pre, length (origins cnt pre rs) = length (docMarks cnt pre rs).
Proof. induction rs as [|r rs IH]; intros pre; [reflexivity|]. cbn [origins docMarks]. now rewrite !app_length, originsFrom_len, passageMarks_len, IH. Qed.
End Shows.

Section Paragraph.
Variable u : unicode.
Variable punct dashes parts : list rune -> list (list rune).
Variable isMark isDash breakable : list rune -> bool.
Notation tokenFrags := (tokenFrags punct dashes parts isMark isDash breakable).
Notation runsFrags := (runsFrags punct dashes parts isMark isDash breakable).
Notation paragraph := (formattedParagraph punct dashes parts isMark isDash breakable).
Definition cleanFrags (t : list rune) : Prop := lastGlued (tokenFrags t) /\ Forall (fun f => ~ In ESC (f_text f)) (tokenFrags t).
Notation cnt := (fun p => length (flat_map tokenFrags (p_texts p))).
(** a run and its fragments *)
Definition runBlock (b : run * list frag) : Prop :=
  length (snd b) = length (tokenFrags (r_text (fst b))) /\ Forall (fun f => ~ In ESC (f_text f)) (snd b) /\
  exists ini f, snd b = ini ++ [f] /\ isSoft f = false.
Lemma block_ok r j : cleanFrags (r_text r) -> j <> Soft -> runBlock (r, endWith j (tokenFrags (r_text r))).
Proof.
  intros [(ini & f & E & Hi) He] Hj. unfold runBlock. cbn [fst snd]. rewrite E in *. rewrite endWith_snoc.
  split; [now rewrite !app_length|]. apply Forall_app in He. destruct He as [He1 He2]. inversion He2; subst. split.
  - apply Forall_app. split; [exact He1|]. constructor; [assumption|constructor].
  - eexists ini, _. split; [reflexivity|]. destruct j; cbn; congruence.
Qed.
Lemma endWith_glued fs : lastGlued fs -> endWith Glued fs = fs.
Proof. intros (ini & f & -> & _). rewrite endWith_snoc. reflexivity. Qed.
Lemma endWith_app j a b : b <> [] -> endWith j (a ++ b) = a ++ endWith j b.
Proof. intros H. destruct (exists_last H) as (c & x & ->). rewrite app_assoc, !endWith_snoc, <- app_assoc. reflexivity. Qed.
Lemma token_blocks t j : t <> [] -> Forall (fun r => cleanFrags (r_text r)) t -> j <> Soft ->
  exists bs, Forall runBlock bs /\ map fst bs = t /\ concat (map snd bs) = endWith j (runsFrags t).
Proof.
  intros Hne Hc Hj. induction t as [|r t IH]; [congruence|]. inversion Hc as [|? ? Hc1 Hc2]; subst. destruct t as [|r2 t].
  - exists [(r, endWith j (tokenFrags (r_text r)))]. split; [constructor; [now apply block_ok|constructor]|]. split; [reflexivity|].
    unfold SpecLines.runsFrags. cbn [map snd concat flat_map]. now rewrite !app_nil_r.
  - destruct IH as (bs & B1 & B2 & B3); [discriminate|assumption|].
    exists ((r, tokenFrags (r_text r)) :: bs). split; [|split].
    + constructor; [|exact B1]. rewrite <- (endWith_glued (tokenFrags (r_text r))) by apply Hc1.
      apply block_ok; [assumption|discriminate].
    + cbn [map fst]. now rewrite B2.
    + cbn [map snd concat]. rewrite B3. change (runsFrags (r :: r2 :: t)) with (tokenFrags (r_text r) ++ runsFrags (r2 :: t)).
      rewrite endWith_app; [reflexivity|]. inversion Hc2 as [|? ? [(ini & f & E & _) _] _]; subst. unfold SpecLines.runsFrags. cbn [flat_map]. rewrite E. now destruct ini.
Qed.
Lemma run_blocks ts : Forall (fun t => t <> []) ts -> Forall (Forall (fun r => cleanFrags (r_text r))) ts ->
  exists bs, Forall runBlock bs /\ map fst bs = concat ts /\ concat (map snd bs) = paragraph ts.
Proof.
  intros Ht Hc. induction ts as [|t ts IH]; [exists []; repeat split; constructor|]. inversion Ht as [|? ? T1 Ht']; subst. inversion Hc; subst.
  destruct ts as [|t2 ts].
  - destruct (token_blocks t End_ T1 ltac:(assumption) ltac:(discriminate)) as (bs & B1 & B2 & B3). exists bs. split; [exact B1|]. cbn [concat]. rewrite app_nil_r. split; [exact B2|exact B3].
  - destruct (token_blocks t Space T1 ltac:(assumption) ltac:(discriminate)) as (bs & B1 & B2 & B3).
    destruct IH as (bs2 & C1 & C2 & C3); [assumption|assumption|].
    exists (bs ++ bs2). split; [now apply Forall_app|]. rewrite !map_app, concat_app, B2, C2, B3, C3. split; reflexivity.
Qed.
(** the runs of a passage together *)
Lemma span_block l : forall st e bs, l <> [] -> Forall runBlock bs -> map fst bs = spanRuns st l e ->
  length (concat (map snd bs)) = length (flat_map tokenFrags l) /\ Forall (fun f => ~ In ESC (f_text f)) (concat (map snd bs)) /\
  exists ini f, concat (map snd bs) = ini ++ [f] /\ isSoft f = false.
Proof.
  induction l as [|t l IH]; intros st e bs Hne Hb E; [congruence|]. destruct l as [|t2 l].
  - destruct bs as [|b [|b2 bs]]; try discriminate E. injection E as E. inversion Hb as [|? ? (H1 & H2 & H3) _]; subst.
    cbn [map concat flat_map]. rewrite !app_nil_r. rewrite E in H1. auto.
  - change (spanRuns st (t :: t2 :: l) e) with (mkRun st t [] :: spanRuns [] (t2 :: l) e) in E. destruct bs as [|b bs]; [discriminate E|].
    injection E as E1 E2. inversion Hb as [|? ? (H1 & H2 & H3) Hb']; subst. destruct (IH [] e bs ltac:(discriminate) Hb' E2) as (I1 & I2 & ini & f & I3 & I4).
    change (flat_map tokenFrags (t :: t2 :: l)) with (tokenFrags t ++ flat_map tokenFrags (t2 :: l)). cbn [map concat]. rewrite !app_length, H1, I1, E1.
    split; [reflexivity|]. split; [now apply Forall_app|]. exists (snd b ++ ini), f. split; [rewrite I3; apply app_assoc|exact I4].
Qed.
Lemma passage_blocks ps : Forall (okPassage u) ps -> forall bs, Forall runBlock bs -> map fst bs = flat_map runsOf ps ->
  exists cs, Forall (okBlock u cnt) cs /\ map fst cs = ps /\ concat (map snd cs) = concat (map snd bs).
Proof.
  induction 1 as [|p ps Hp _ IH]; intros bs Hb E; [exists []; destruct bs; [repeat split; constructor|discriminate E]|].
  cbn [flat_map] in E. apply map_eq_app in E. destruct E as (b1 & b2 & -> & E1 & E2). apply Forall_app in Hb. destruct Hb as [Hb1 Hb2].
  destruct (IH b2 Hb2 E2) as (cs & C1 & C2 & C3). exists ((p, concat (map snd b1)) :: cs). split; [|split].
  - constructor; [|exact C1]. destruct (span_block (p_texts p) (p_start p) (p_stop p) b1 ltac:(apply Hp) Hb1 E1) as (K1 & K2 & K3).
    split; [exact Hp|]. cbn [fst snd]. auto.
  - cbn [map fst]. now rewrite C2.
  - cbn [map snd concat]. now rewrite C3, map_app, concat_app.
Qed.
Lemma paragraph_blocks ts ps : Forall (fun t => t <> []) ts -> Forall (Forall (fun r => cleanFrags (r_text r))) ts ->
  Forall (okPassage u) ps -> concat ts = flat_map runsOf ps ->
  exists bs, Forall (okBlock u cnt) bs /\ map fst bs = ps /\ concat (map snd bs) = paragraph ts.
Proof.
  intros Ht Hc Hp E. destruct (run_blocks ts Ht Hc) as (bs & B1 & B2 & B3).
  destruct (passage_blocks ps Hp bs B1 ltac:(now rewrite B2)) as (cs & C1 & C2 & C3). exists cs. rewrite C3, B3. auto.
Qed.
End Paragraph.
