(** Raising the minima of the hyphenator. *)
From Verif Require Import Base Unicode SpecHyph Hyph HyphProofs.

(** Number of cuts: with a greater minimum between cuts, never more of them. *)
Lemma scan_count o o' n pos : o_minLeft o <= o_minLeft o' -> o_minRight o <= o_minRight o' -> forall i prev prev',
  (prev <= i)%nat ->
  (Z.of_nat prev + o_minLeft o <= Z.of_nat prev' + o_minLeft o' ->
     (length (scan o' n pos i prev') <= length (scan o n pos i prev))%nat) /\
  (length (scan o' n pos i prev') <= S (length (scan o n pos i prev)))%nat.
Proof.
  intros Hl Hr. induction pos as [|p pos IH]; intros i prev prev' Hp; cbn [scan]; [cbn; lia|].
  destruct (Z.odd p); cbn [andb]; [|apply IH; lia].
  destruct (Z.leb_spec (o_minRight o) (Z.of_nat n - Z.of_nat i)) as [R|R].
  2: { destruct (Z.leb_spec (o_minRight o') (Z.of_nat n - Z.of_nat i)); [lia|]. rewrite !andb_false_r. apply IH. lia. }
  rewrite andb_true_r.
  destruct (Z.leb_spec (o_minLeft o) (Z.of_nat i - Z.of_nat prev)) as [L|L];
    destruct (Z.leb_spec (o_minLeft o') (Z.of_nat i - Z.of_nat prev')) as [L'|L'];
    destruct (Z.leb_spec (o_minRight o') (Z.of_nat n - Z.of_nat i)) as [R'|R']; cbn [andb length];
  repeat match goal with |- context [length (scan o' n pos (S i) ?b)] =>
         match goal with |- context [length (scan o n pos (S i) ?a)] =>
           lazymatch goal with H : _ /\ (length (scan o' n pos (S i) b) <= S (length (scan o n pos (S i) a)))%nat |- _ => fail
           | _ => pose proof (IH (S i) a b ltac:(lia)) end end end; lia.
Qed.

(** A greater minimum on the right: the same cuts, up to a place. *)
Lemma scan_late o n pos : forall i prev, Z.of_nat n - Z.of_nat i < o_minRight o -> scan o n pos i prev = [].
Proof.
  induction pos as [|p pos IH]; intros i prev H; [reflexivity|]. cbn [scan].
  destruct (Z.leb_spec (o_minRight o) (Z.of_nat n - Z.of_nat i)); [lia|]. rewrite andb_false_r. apply IH. lia.
Qed.
Lemma scan_right o o' n pos : o_minLeft o = o_minLeft o' -> o_minRight o <= o_minRight o' -> forall i prev,
  exists later, scan o n pos i prev = scan o' n pos i prev ++ later.
Proof.
  intros Hl Hr. induction pos as [|p pos IH]; intros i prev; [exists []; reflexivity|].
  destruct (Z.leb_spec (o_minRight o') (Z.of_nat n - Z.of_nat i)) as [R|R].
  - cbn [scan]. rewrite Hl. destruct (Z.leb_spec (o_minRight o) (Z.of_nat n - Z.of_nat i)); [|lia].
    destruct (Z.leb_spec (o_minRight o') (Z.of_nat n - Z.of_nat i)); [|lia].
    destruct (Z.odd p && (o_minLeft o' <=? Z.of_nat i - Z.of_nat prev) && true); [|apply IH].
    destruct (IH (S i) i) as (later & ->). now exists later.
  - rewrite (scan_late o') by lia. eexists. reflexivity.
Qed.

Lemma cutAt_prefix a : forall b w from, exists x y, cutAt w from (a ++ b) = x ++ y /\ y <> [] /\ cutAt w from a = x ++ [concat y].
Proof.
  induction a as [|c a IH]; intros b w from; cbn [app].
  - exists [], (cutAt w from b). rewrite concat_cutAt. repeat split. apply cutAt_nonnil.
  - cbn [cutAt]. destruct (IH b (skipn (c - from) w) c) as (x & y & -> & Hy & ->). exists (firstn (c - from) w :: x), y. auto.
Qed.
Lemma cutAt_length cuts : forall w from, length (cutAt w from cuts) = S (length cuts).
Proof. induction cuts as [|c cuts IH]; intros w from; [reflexivity|]. cbn [cutAt length]. now rewrite IH. Qed.

(** The places allowed do not depend on the options. *)
Lemma breakWord_same u d w : containsHyphen w = false ->
  exists pos, forall o, 0 <= o_minRight o -> o_minLength o <= zlen w -> breakWord u d o w = splitAtPositions o w (zlen w) pos.
Proof.
  intros H1. destruct (isException d w) as [pos|] eqn:E.
  - exists pos. intros o _ H. unfold breakWord. rewrite H1, E. destruct (Z.ltb_spec (zlen w) (o_minLength o)); [lia|reflexivity].
  - destruct (positions_loop u d w (length w) 0 (repeat 0 30)) as [p1|] eqn:E1.
    2: { exists []. intros o Hr H. destruct (breakWord_lossless u d o w Hr) as (parts & R & _). exfalso. revert R. unfold breakWord.
         rewrite H1, E, E1. destruct (Z.ltb_spec (zlen w) (o_minLength o)); [lia|]. discriminate. }
    set (X := let! p2 := slice p1 1 (zlen p1 - 1) in let! p0 := indexAt p2 0 in
      if 0 <? p0 then setAt p2 0 0 else if zlen w <? zlen p2 then let! pw := indexAt p2 (length w) in if 0 <? pw then setAt p2 (length w) 0 else Ret p2 else Ret p2).
    assert (HX : forall o, o_minLength o <= zlen w -> breakWord u d o w = gbind X (splitAtPositions o w (zlen w))).
    { intros o H. unfold breakWord, X. rewrite H1, E, E1. destruct (Z.ltb_spec (zlen w) (o_minLength o)); [lia|]. cbn [orb gbind].
      destruct (slice p1 1 (zlen p1 - 1)) as [p2|]; cbn [gbind]; [|reflexivity]. destruct (indexAt p2 0); reflexivity. }
    destruct X as [pos|].
    + exists pos. intros o _ H. now rewrite HX.
    + exists []. intros o Hr H. destruct (breakWord_lossless u d o w Hr) as (parts & R & _). rewrite HX in R by exact H. discriminate.
Qed.

(** Options [o'] are at least as strict as [o]. *)
Definition stricter (o o' : hoptions) : Prop :=
  o_minLength o <= o_minLength o' /\ o_minLeft o <= o_minLeft o' /\ 0 <= o_minRight o <= o_minRight o'.

Lemma breakWord_hyphen u d o w : containsHyphen w = true -> breakWord u d o w = Ret [w].
Proof. intros E. unfold breakWord. now rewrite E. Qed.
Lemma breakWord_short u d o w : zlen w < o_minLength o -> breakWord u d o w = Ret [w].
Proof. intros H. apply breakWord_whole. now right. Qed.

Theorem stricter_count u d o o' w : stricter o o' ->
  exists parts parts', breakWord u d o w = Ret parts /\ breakWord u d o' w = Ret parts' /\ (length parts' <= length parts)%nat.
Proof.
  intros (H1 & H2 & H3). destruct (breakWord_lossless u d o w) as (parts & E & N & _); [lia|]. rewrite E.
  assert (Hw : breakWord u d o' w = Ret [w] -> exists parts0 parts', Ret parts = Ret parts0 /\ breakWord u d o' w = Ret parts' /\ (length parts' <= length parts0)%nat).
  { intros E'. exists parts, [w]. repeat split; auto. destruct parts; [congruence|cbn; lia]. }
  destruct (containsHyphen w) eqn:Eh; [apply Hw; now apply breakWord_hyphen|].
  destruct (Z.lt_ge_cases (zlen w) (o_minLength o')) as [Hs|Hs]; [apply Hw; now apply breakWord_short|]. clear Hw.
  destruct (breakWord_same u d w Eh) as (pos & HX). rewrite (HX o) in E by lia. rewrite (HX o') by lia. rewrite splitAt_scan in E |- * by lia. injection E as <-.
  eexists _, _. split; [reflexivity|]. split; [reflexivity|]. rewrite !cutAt_length.
  destruct (scan_count o o' (length w) pos H2 (proj2 H3) 0 0 0) as [K _]; [lia|]. specialize (K ltac:(lia)). lia.
Qed.

Theorem stricter_right u d o o' w : stricter o o' -> o_minLeft o = o_minLeft o' ->
  exists kept glued, breakWord u d o w = Ret (kept ++ glued) /\ breakWord u d o' w = Ret (kept ++ [concat glued]).
Proof.
  intros (H1 & H2 & H3) Hl. destruct (breakWord_lossless u d o w) as (parts & E & N & C & _); [lia|].
  assert (Hw : breakWord u d o' w = Ret [w] -> exists kept glued, breakWord u d o w = Ret (kept ++ glued) /\ breakWord u d o' w = Ret (kept ++ [concat glued])).
  { intros E'. exists [], parts. cbn [app]. now rewrite C. }
  destruct (containsHyphen w) eqn:Eh; [apply Hw; now apply breakWord_hyphen|].
  destruct (Z.lt_ge_cases (zlen w) (o_minLength o')) as [Hs|Hs]; [apply Hw; now apply breakWord_short|]. clear Hw.
  destruct (breakWord_same u d w Eh) as (pos & HX). rewrite (HX o), (HX o') by lia. rewrite !splitAt_scan by lia.
  destruct (scan_right o o' (length w) pos Hl (proj2 H3) 0 0) as (later & ->).
  destruct (cutAt_prefix (scan o' (length w) pos 0 0) later w 0) as (x & y & -> & _ & ->). now exists x, y.
Qed.
