(** What line breaks write in any document without nesting. *)
From Verif Require Import Base Attr SpecAttr SpecBlocks AttrProofs.

Lemma leading_split gs : exists rest, gs = leading gs ++ rest /\ Forall (fun g => isCtx g = true) (leading gs) /\
  match rest with [] => True | g :: _ => isCtx g = false end.
Proof.
  induction gs as [|g gs (rest & E & H & R)]; [exists []; repeat split; constructor|]. cbn [leading]. destruct (isCtx g) eqn:Eg.
  - exists rest. split; [cbn [app]; now rewrite <- E|]. split; [now constructor|exact R].
  - exists (g :: gs). split; [reflexivity|]. split; [constructor|exact Eg].
Qed.
Lemma trailing_split gs : exists rest, gs = rest ++ trailing gs /\ Forall (fun g => isCtx g = true) (trailing gs) /\
  (rest = [] \/ exists rest' g, rest = rest' ++ [g] /\ isCtx g = false).
Proof.
  destruct (leading_split (rev gs)) as (rest & E & H & R). unfold trailing. exists (rev rest). split.
  - rewrite <- (rev_involutive gs) at 1. rewrite E at 1. now rewrite rev_app_distr.
  - split; [now apply Forall_rev|]. destruct rest as [|g rest]; [now left|]. right. exists (rev rest), g. split; [reflexivity|exact R].
Qed.
Lemma docLv_len l : length (docLv l) = length (docWords l).
Proof.
  induction l as [|x l IH]; [reflexivity|]. unfold docLv, docWords. cbn [flat_map]. rewrite !app_length.
  unfold docLv, docWords in IH. rewrite IH. unfold segLv. rewrite map_length. reflexivity.
Qed.
Lemma docWords_app a b : docWords (a ++ b) = docWords a ++ docWords b.
Proof. apply flat_map_app. Qed.

Lemma tail_len g : isCtx g = true -> exists st w ws e, g = Ctx st w ws e. Proof. destruct g; [discriminate|]. eauto. Qed.
Lemma starts_all C : Forall okSeg C -> Forall (fun g => isCtx g = true) C -> flat_map attrStart (docLv C) = map startOf C.
Proof.
  intros Ho Hc. induction Hc as [|g C Hg _ IH]; [reflexivity|]. inversion Ho; subst. unfold docLv. cbn [flat_map map]. rewrite flat_map_app. fold (docLv C). rewrite IH by assumption.
  destruct (tail_len g Hg) as (st & w & ws & e & ->). unfold segLv. cbn [isCtx segWords startOf].
  pose proof (starts_tail ws w st e (length ws) (proj1 H1)) as E. rewrite firstn_all2 in E by (rewrite map_length, tail_nth_last; lia). now rewrite E.
Qed.
Lemma stops_run ws : forall w st e rest, e <> [] -> stops_while 1 (map (lv 1) (tailWords w ws st e) ++ rest) = e :: stops_while 1 rest.
Proof.
  induction ws as [|w' ws IH]; intros w st e rest He; cbn [tailWords map app stops_while].
  - cbn [lv setLevel a_level ofWord]. change (1 <? 1) with false. cbv iota. unfold attrStop. change (hasStop _) with (0 <? zlen e). rewrite (zlen_pos _ He). reflexivity.
  - cbn [lv setLevel a_level ofWord]. change (1 <? 1) with false. cbv iota. now rewrite IH.
Qed.
Lemma stops_all C rest : Forall okSeg C -> Forall (fun g => isCtx g = true) C -> stops_while 1 (docLv C ++ rest) = map stopOf C ++ stops_while 1 rest.
Proof.
  intros Ho Hc. induction Hc as [|g C Hg _ IH]; [reflexivity|]. inversion Ho; subst. unfold docLv. cbn [flat_map map app]. fold (docLv C). rewrite <- app_assoc.
  destruct (tail_len g Hg) as (st & w & ws & e & ->). unfold segLv. cbn [isCtx segWords stopOf]. rewrite stops_run by apply H1. now rewrite IH.
Qed.
Lemma level_all C k : Forall (fun g => isCtx g = true) C -> (k < length (docLv C))%nat -> levelAt (docLv C) k = 1.
Proof.
  intros Hc. revert k. induction Hc as [|g C Hg _ IH]; intros k Hk; [cbn in Hk; lia|]. unfold docLv in *. cbn [flat_map] in *. rewrite app_length in Hk.
  destruct (Nat.lt_ge_cases k (length (segLv g))) as [H|H].
  - rewrite levelAt_app1 by exact H. unfold segLv in *. rewrite Hg in *. rewrite levelAt_lv; [reflexivity|]. now rewrite map_length in H.
  - replace k with (length (segLv g) + (k - length (segLv g)))%nat by lia. rewrite levelAt_app2. apply IH. lia.
Qed.

Lemma break_any pre g post k :
  let gs := pre ++ g :: post in
  Forall okSeg gs -> (k < length (segWords g))%nat ->
  forall i, i_cur i = Some (length (docWords pre) + k)%nat ->
  endOfLine (docState gs) i = match openAfter g k with Some _ => map stopOf (trailing pre ++ g :: leading post) | None => [] end /\
  startOfLine (docState gs) i = match openAfter g k with Some _ => map startOf (trailing pre ++ [g]) | None => [] end.
Proof.
  intros gs Hok Hk i Hi. rewrite (docState_eq gs Hok). subst gs.
  destruct (trailing_split pre) as (pre0 & Epre & HC & Hpre0). destruct (leading_split post) as (post0 & Epost & HD & Hpost0).
  assert (Forall okSeg (trailing pre)) as HoC by (rewrite Epre in Hok; rewrite !Forall_app in Hok; tauto).
  assert (Forall okSeg (leading post)) as HoD.
  { rewrite Epost in Hok. apply Forall_app in Hok. destruct Hok as [_ Hok]. inversion Hok as [|? ? _ Hok2]; subst. apply Forall_app in Hok2. tauto. }
  assert (okSeg g) as Hg by (rewrite Forall_app in Hok; destruct Hok as [_ Hok]; inversion Hok; auto).
  rewrite docLv_app. change (docLv (g :: post)) with (segLv g ++ docLv post).
  unfold endOfLine, startOfLine. rewrite Hi.
  rewrite nth_error_app2 by (rewrite docLv_len; lia). rewrite docLv_len.
  replace (length (docWords pre) + k - length (docWords pre))%nat with k by lia.
  assert (length (segLv g) = length (segWords g)) as Hsl by (unfold segLv; apply map_length).
  rewrite nth_error_app1 by lia.
  destruct g as [t|st w ws e].
  - cbn in Hk. destruct k; [|lia]. cbn. auto.
  - destruct Hg as [Hst He]. cbn [segWords] in Hk. rewrite tail_nth_last in Hk.
    cbn [openAfter].
    assert (nth_error (segLv (Ctx st w ws e)) k = option_map (lv 1) (nth_error (tailWords w ws st e) k)) as -> by apply nth_lv.
    destruct (nth_error (tailWords w ws st e) k) as [a|] eqn:E;
      [|apply nth_error_None in E; rewrite tail_nth_last in E; lia].
    cbn [option_map]. pose proof (nth_tail_stop _ _ _ _ _ _ E) as Hstop.
    unfold lineLevel. replace (hasStop (lv 1 a)) with (0 <? zlen (snd a)) by (destruct a as [[? ?] ?]; reflexivity).
    replace (a_level (lv 1 a)) with 1 by (destruct a as [[? ?] ?]; reflexivity).
    destruct (Nat.ltb_spec k (length ws)) as [Hlt|Hge].
    + rewrite Hstop. change (0 <? zlen (@nil rune)) with false. cbv iota. change (1 =? 0) with false. cbv iota.
      set (G := segLv (Ctx st w ws e)) in *. set (C := trailing pre) in *. set (D := leading post) in *.
      assert (length (docWords pre) = length (docLv pre0) + length (docLv C))%nat as Elen.
      { rewrite Epre. rewrite docWords_app, app_length, !docLv_len. reflexivity. }
      assert (docLv pre = docLv pre0 ++ docLv C) as Edoc by (rewrite Epre; apply docLv_app).
      assert (docLv post = docLv D ++ docLv post0) as Epo by (rewrite Epost; apply docLv_app).
      assert (backtrack (docLv pre ++ G ++ docLv post) 1 (length (docWords pre) + k) = length (docLv pre0)) as ->.
      { rewrite Elen, <- Nat.add_assoc. apply backtrack_stop.
        - intros j Hj. rewrite Edoc, <- app_assoc. replace j with (length (docLv pre0) + (j - length (docLv pre0)))%nat by lia.
          rewrite levelAt_app2. destruct (Nat.lt_ge_cases (j - length (docLv pre0)) (length (docLv C))) as [H|H].
          + rewrite levelAt_app1 by exact H. rewrite level_all by assumption. lia.
          + replace (j - length (docLv pre0))%nat with (length (docLv C) + (j - length (docLv pre0) - length (docLv C)))%nat by lia.
            rewrite levelAt_app2. unfold G, segLv. cbn [isCtx segWords]. rewrite levelAt_app1 by (rewrite map_length, tail_nth_last; lia).
            rewrite levelAt_lv by (rewrite tail_nth_last; lia). lia.
        - destruct Hpre0 as [->|(q & x & -> & Hx)]; [left; reflexivity|]. right. destruct x as [t|]; [|discriminate].
          rewrite Edoc, docLv_app, app_length. cbn [docLv flat_map segLv isCtx segWords map app length].
          replace (length (docLv q) + 1 - 1)%nat with (length (docLv q) + 0)%nat by lia. rewrite <- !app_assoc, levelAt_app2. reflexivity. }
      rewrite Edoc, <- app_assoc, skipn_app, skipn_all, Nat.sub_diag. cbn [skipn app].
      split.
      * rewrite stops_all by assumption. unfold G, segLv. cbn [isCtx segWords]. rewrite stops_run by exact He.
        rewrite Epo, stops_all by assumption.
        assert (stops_while 1 (docLv post0) = []) as ->.
        { destruct post0 as [|[t|? ? ? ?] post0]; [reflexivity|reflexivity|discriminate]. }
        rewrite app_nil_r, map_app. reflexivity.
      * rewrite Elen. replace (length (docLv pre0) + length (docLv C) + k + 1 - length (docLv pre0))%nat with (length (docLv C) + S k)%nat by lia.
        match goal with |- context [firstn ?n (?a ++ ?b)] => replace (firstn n (a ++ b)) with (a ++ firstn (S k) b) by (symmetry; apply (firstn_app_2 (S k) a b)) end.
        rewrite flat_map_app, starts_all, map_app by assumption. f_equal.
        rewrite firstn_app. unfold G, segLv. cbn [isCtx segWords]. rewrite map_length, tail_nth_last.
        replace (S k - S (length ws))%nat with 0%nat by lia. cbn [firstn]. rewrite app_nil_r. apply starts_tail, Hst.
    + rewrite Hstop, (zlen_pos _ He). change (1 - 1 =? 0) with true. auto.
Qed.

(** ** What is displayed *)
Section Display.
Variable cls : list rune -> kind.
Lemma overlies_nil : overlies [] []. Proof. split; [intros x []|reflexivity]. Qed.
Lemma turnOn_in act w : In w (turnOn act w) /\ incl act (turnOn act w).
Proof.
  unfold turnOn. destruct (in_dec (list_eq_dec Z.eq_dec) w act) as [H|H]; [split; [exact H|apply incl_refl]|]. split; [apply in_or_app; right; now left|].
  intros x Hx. apply in_or_app. now left.
Qed.
Lemma overlies_on act fmt w : overlies act fmt -> overlies (turnOn act w) (turnOn fmt w).
Proof.
  intros [H1 H2]. destruct (turnOn_in act w) as [H3 H4]. split.
  - intros x Hx. unfold turnOn in Hx. destruct (in_dec (list_eq_dec Z.eq_dec) w fmt) as [H|H]; [auto|]. apply in_app_or in Hx. destruct Hx as [Hx|[<-|[]]]; auto.
  - intros E. destruct (turnOn_in fmt w) as [H5 _]. rewrite E in H5. destruct H5.
Qed.
Lemma display_overlies ws : forall act fmt, overlies act fmt ->
  Forall2 shownOver (fst (display cls act ws)) (fst (display cls fmt ws)) /\ overlies (snd (display cls act ws)) (snd (display cls fmt ws)).
Proof.
  induction ws as [|w ws IH]; intros act fmt H; [split; [constructor|exact H]|]. cbn [display]. destruct (cls w).
  - destruct (IH act fmt H) as [I1 I2]. destruct (display cls act ws), (display cls fmt ws). cbn [fst snd] in *. split; [|exact I2].
    constructor; [|exact I1]. split; [reflexivity|exact H].
  - apply IH, overlies_on, H.
  - apply IH, overlies_nil.
Qed.
Lemma display_starts l : Forall (fun w => cls w = KStart) l -> forall act, exists act', display cls act l = ([], act') /\ incl act act' /\ incl l act'.
Proof.
  induction 1 as [|w l Hw _ IH]; intros act; [exists act; split; [reflexivity|split; [apply incl_refl|intros x []]]|].
  cbn [display]. rewrite Hw. destruct (turnOn_in act w) as [T1 T2]. destruct (IH (turnOn act w)) as (act' & E & H1 & H2). exists act'. split; [exact E|].
  split; [intros x Hx; auto|]. intros x [<-|Hx]; auto.
Qed.
Lemma display_stops l act : Forall (fun w => cls w = KStop) l -> (l = [] -> act = []) -> display cls act l = ([], []).
Proof.
  intros H. revert act. induction H as [|w l Hw _ IH]; intros act Ha; [now rewrite Ha|]. cbn [display]. rewrite Hw. apply IH. reflexivity.
Qed.
Variable gs : list seg.
Hypothesis Hok : Forall okSeg gs.
Hypothesis Hcls : Forall (segOk cls) gs.
Let s := docState gs.
Let items := docItems gs.

Lemma break_over n x i : nth_error items n = Some x -> i_cur i = Some n ->
  (exists act, display cls [] (startOfLine s i) = ([], act) /\ overlies act (snd x)) /\
  (forall act, overlies act (snd x) -> display cls act (endOfLine s i) = ([], [])).
Proof.
  intros H Hi. destruct (docItems_split _ _ _ H) as (pre & g & post & k & E & Hn & Hk & Hx). rewrite Hn in Hi.
  pose proof (break_any pre g post k) as B. cbv zeta in B. rewrite <- E in B. destruct (B Hok Hk i Hi) as [B1 B2]. fold s in B1, B2.
  rewrite B1, B2, (segItems_after _ _ _ Hx). clear B1 B2 B.
  destruct g as [t|st w ws e]; cbn [openAfter].
  - split; [exists []; split; [reflexivity|apply overlies_nil]|]. intros act [_ Ha]. rewrite Ha by reflexivity. reflexivity.
  - destruct (k <? length ws)%nat.
    2: { split; [exists []; split; [reflexivity|apply overlies_nil]|]. intros act [_ Ha]. rewrite Ha by reflexivity. reflexivity. }
    assert (Forall (segOk cls) (trailing pre ++ Ctx st w ws e :: leading post)) as Hc.
    { destruct (trailing_split pre) as (p0 & Ep & _ & _). destruct (leading_split post) as (q0 & Eq & _ & _).
      pose proof Hcls as Hc. rewrite E, Ep, Eq in Hc. rewrite <- app_assoc in Hc. apply Forall_app in Hc. destruct Hc as [_ Hc].
      apply Forall_app in Hc. destruct Hc as [H1 H2]. apply Forall_app. split; [exact H1|]. inversion H2 as [|? ? H3 H4]; subst. constructor; [exact H3|].
      apply Forall_app in H4. tauto. }
    assert (Forall (fun g => isCtx g = true) (trailing pre ++ Ctx st w ws e :: leading post)) as Hx2.
    { destruct (trailing_split pre) as (p0 & Ep & H1 & _). destruct (leading_split post) as (q0 & Eq & H2 & _).
      apply Forall_app. split; [exact H1|]. constructor; [reflexivity|exact H2]. }
    split.
    + destruct (display_starts (map startOf (trailing pre ++ [Ctx st w ws e]))) with (act := @nil (list rune)) as (act & D & _ & D2).
      { rewrite Forall_map. rewrite Forall_forall in *. intros g Hg.
        assert (In g (trailing pre ++ Ctx st w ws e :: leading post)) as Hin by (apply in_app_or in Hg; apply in_or_app; destruct Hg as [Hg|[<-|[]]]; [now left|right; now left]).
        specialize (Hc g Hin). specialize (Hx2 g Hin). destruct g; [discriminate|]. apply Hc. }
      exists act. split; [exact D|]. split; [|discriminate]. intros y [<-|[]]. apply D2. apply in_map_iff. exists (Ctx st w ws e). split; [reflexivity|].
      apply in_or_app. right. now left.
    + intros act _. apply display_stops.
      * rewrite Forall_map. rewrite Forall_forall in *. intros g Hg. specialize (Hc g Hg). specialize (Hx2 g Hg). destruct g; [discriminate|]. apply Hc.
      * intros E0. apply map_eq_nil in E0. now destruct (trailing pre).
Qed.
Notation itAt := (itAt gs).
Lemma drive_over k : forall n act, (n + k <= length s)%nat -> overlies act (aft items n) ->
  exists w, drive s (itAt n) (firstn k (skipn n s)) = (w, itAt (n + k)) /\
    Forall2 shownOver (fst (display cls act w)) (flat_map entS (firstn k (skipn n items))) /\
    overlies (snd (display cls act w)) (aft items (n + k)).
Proof.
  intros n act Hn Hc. destruct (drive_spec cls gs Hok Hcls k n Hn) as (w & Hw & Hd). exists w. split; [exact Hw|].
  destruct (display_overlies w act _ Hc) as [D1 D2]. fold items in Hd. rewrite Hd in D1, D2. split; assumption.
Qed.
Lemma line_over n k : (n + k <= length s)%nat ->
  exists w, drive s (itAt n) (firstn k (skipn n s)) = (w, itAt (n + k)) /\
    let d := display cls [] (startOfLine s (itAt n) ++ w ++ endOfLine s (itAt (n + k))) in
    Forall2 shownOver (fst d) (flat_map entS (firstn k (skipn n items))) /\ snd d = [].
Proof.
  intros Hn.
  assert (forall m, (m < length s)%nat -> exists x, nth_error items m = Some x) as Hx.
  { intros m Hm. destruct (nth_error items m) eqn:E; [eauto|]. apply nth_error_None in E. unfold items in E. rewrite (items_length gs) in E by assumption. unfold s in *. lia. }
  assert (forall m, (0 < m <= length s)%nat ->
            (exists act, display cls [] (startOfLine s (itAt m)) = ([], act) /\ overlies act (aft items m)) /\
            (forall act, overlies act (aft items m) -> display cls act (endOfLine s (itAt m)) = ([], []))) as Hb.
  { intros m Hm. destruct m as [|m]; [lia|]. destruct (Hx m) as [x E]; [lia|]. cbn [aft]. rewrite E. apply (break_over m x); [exact E|reflexivity]. }
  assert (forall n act, display cls [] (startOfLine s (itAt n)) = ([], act) -> overlies act (aft items n) -> (0 < n + k)%nat -> (n + k <= length s)%nat ->
    exists w, drive s (itAt n) (firstn k (skipn n s)) = (w, itAt (n + k)) /\
    let d := display cls [] (startOfLine s (itAt n) ++ w ++ endOfLine s (itAt (n + k))) in
    Forall2 shownOver (fst d) (flat_map entS (firstn k (skipn n items))) /\ snd d = []) as K.
  { intros n' act E Hc Hp Hn'. destruct (drive_over k n' act Hn' Hc) as (w & Hw & D1 & D2). exists w. split; [exact Hw|].
    cbv zeta. rewrite display_app, E. cbn [fst snd app]. rewrite display_app. cbn [fst snd].
    rewrite (proj2 (Hb (n' + k)%nat ltac:(lia)) _ D2). cbn [fst snd]. rewrite app_nil_r. split; [exact D1|reflexivity]. }
  destruct n as [|n].
  - destruct (length s) as [|N] eqn:EN.
    { assert (k = 0)%nat as -> by lia. assert (s = []) as Es by (apply length_zero_iff_nil, EN). exists []. split; [reflexivity|].
      assert (i_cur (iterator s) = None) as Hc by (rewrite Es; reflexivity). cbn [Nat.add]. change (itAt 0) with (iterator s).
      unfold startOfLine, endOfLine. rewrite Hc. cbn. split; [constructor|reflexivity]. }
    destruct (Hx 0%nat) as [x E]; [lia|].
    assert (i_cur (iterator s) = Some 0%nat) as Hc.
    { unfold iterator, front. destruct s; [discriminate|reflexivity]. }
    destruct (break_over 0 x (iterator s) E Hc) as [(act & B1 & B2) B3].
    destruct k as [|k].
    + exists []. split; [reflexivity|]. cbv zeta. cbn [Nat.add app firstn flat_map]. change (itAt 0) with (iterator s). rewrite display_app, B1. cbn [fst snd].
      rewrite (B3 _ B2). cbn. split; [constructor|reflexivity].
    + (* the sequences written first are those of the first word *)
      assert (startOfLine s (iterator s) = [] \/ exists f, snd x = [f] /\ startOfLine s (iterator s) = [f]) as Hs0.
      { destruct (docItems_split _ _ _ E) as (pre & g & post & j & Eg & Hj & Hk & Hxg).
        assert (docWords pre = []) as Ep by (apply length_zero_iff_nil; lia).
        assert (pre = []) as ->.
        { destruct pre as [|g0 pre]; [reflexivity|]. exfalso. unfold docWords in Ep. cbn [flat_map] in Ep. apply app_eq_nil in Ep. destruct Ep as [Ep _].
          destruct g0 as [|a b c d]; [discriminate|]. destruct c; discriminate. }
        cbn [app length] in *. pose proof (break_any [] g post j) as B. cbv zeta in B. cbn [app] in B. rewrite <- Eg in B.
        assert (j = 0%nat) as -> by (cbn in Hj; lia).
        destruct (B Hok Hk (iterator s) Hc) as [_ B2']. fold s in B2'. rewrite B2', (segItems_after _ _ _ Hxg). destruct g as [t|st w ws e]; cbn [openAfter]; [now left|].
        destruct (0 <? length ws)%nat; [right|now left]. exists st. split; reflexivity. }
      destruct (drive_over (S k) 0 [] ltac:(lia) overlies_nil) as (w & Hw & D1 & D2). exists w. split; [exact Hw|].
      assert (display cls [] (startOfLine s (iterator s) ++ w) = display cls [] w) as Hsame.
      { destruct Hs0 as [->|(f & Ef & ->)]; [reflexivity|].
        destruct (first_item cls gs x f E Ef Hok Hcls) as (t & Hxt & Hf & Hfc).
        destruct (items_state gs 0 x E) as (a & Ea & Er). fold s in Ea.
        rewrite (skipn_nth _ _ _ Ea) in Hw. cbn [firstn drive] in Hw. rewrite Er in Hw. rewrite Hxt in Hw.
        cbn [fst ofWord] in Hw. unfold attrRender at 1, attrStart at 1, hasStart at 1 in Hw.
        cbn [newAttr a_start] in Hw. rewrite (zlen_pos f Hf) in Hw.
        destruct (drive _ _ _) as [w' i'] in Hw. injection Hw as <- _. cbn [app display]. rewrite Hfc, !turnOn_one by (rewrite ?turnOn_one; auto). reflexivity. }
      cbv zeta. change (itAt 0) with (iterator s). rewrite app_assoc, display_app, Hsame. cbn [fst snd].
      rewrite (proj2 (Hb (0 + S k)%nat ltac:(lia)) _ D2). cbn [fst snd]. rewrite app_nil_r. split; [exact D1|reflexivity].
  - destruct (Hb (S n)) as [(act & B1 & B2) _]; [lia|]. apply (K (S n) act B1 B2); lia.
Qed.
Lemma lines_over lines : forall n, (n + list_sum lines <= length s)%nat ->
  let out := driveLines s (itAt n) lines (skipn n s) in
  length out = length lines /\
  Forall (fun l => snd (display cls [] l) = []) out /\
  Forall2 shownOver (flat_map (fun l => fst (display cls [] l)) out) (flat_map entS (firstn (list_sum lines) (skipn n items))).
Proof.
  induction lines as [|k lines IH]; intros n Hn; cbv zeta; cbn [driveLines].
  - repeat split; constructor.
  - cbn [list_sum fold_right] in Hn. change (fold_right Nat.add 0%nat lines) with (list_sum lines) in Hn.
    destruct (line_over n k) as (w & Hw & Hd & He); [lia|]. cbv zeta in Hd, He. rewrite Hw.
    destruct (IH (n + k)%nat) as (I1 & I2 & I3); [lia|].
    assert (forall (A : Type) (l : list A), skipn k (skipn n l) = skipn (n + k) l) as Hss.
    { clear. intros A l. revert l. induction n as [|n IHn]; intros l; [reflexivity|].
      destruct l; [destruct k; reflexivity|]. cbn. apply IHn. }
    rewrite !Hss. cbn [length flat_map]. rewrite I1. split; [reflexivity|]. split; [constructor; [exact He|exact I2]|].
    cbn [list_sum fold_right]. change (fold_right Nat.add 0%nat lines) with (list_sum lines).
    assert (firstn (k + list_sum lines) (skipn n items) = firstn k (skipn n items) ++ firstn (list_sum lines) (skipn (n + k) items)) as ->.
    { rewrite <- Hss. rewrite <- (firstn_skipn k (skipn n items)) at 1. rewrite firstn_app, firstn_firstn.
      replace (Nat.min (k + list_sum lines) k) with k by lia. f_equal.
      rewrite firstn_length, skipn_length. unfold items at 1. rewrite (items_length gs) by assumption. unfold s in *.
      replace (k + list_sum lines - Nat.min k (length (docState gs) - n))%nat with (list_sum lines) by lia. reflexivity. }
    rewrite flat_map_app. apply Forall2_app; assumption.
Qed.
Lemma doc_over lines : list_sum lines = length (docWords gs) ->
  let out := driveLines s (iterator s) lines s in
  length out = length lines /\
  Forall (fun l => snd (display cls [] l) = []) out /\
  Forall2 shownOver (flat_map (fun l => fst (display cls [] l)) out) (flat_map expectSeg gs).
Proof.
  intros H. assert (length items = length (docWords gs)) as E.
  { unfold items. rewrite <- (docItems_words gs), map_length. reflexivity. }
  pose proof (lines_over lines 0) as K. cbn [skipn AttrProofs.itAt Nat.add] in K. unfold s in K. rewrite <- (items_length gs) in K by assumption.
  destruct K as (L1 & L2 & L3); [unfold items in E; lia|]. cbv zeta. split; [exact L1|]. split; [exact L2|].
  rewrite H, <- E, firstn_all in L3. unfold items in L3. rewrite docItems_shown in L3. exact L3.
Qed.
End Display.
