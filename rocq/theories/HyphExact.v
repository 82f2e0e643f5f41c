(** BreakWord for any options: minima of any sign. *)
From Verif Require Import Base Unicode Utf8 SpecUtf8 Trie SpecTrie TrieProofs Dict SpecHyph SpecHyphAll DictProofs Hyph HyphProofs FileProofs FileHyph.
Local Open Scope Z_scope.

Lemma slice_panic (w : list rune) a b : (length w < b)%nat -> slice w (Z.of_nat a) (Z.of_nat b) = Panic.
Proof.
  intros H. unfold slice, zlen. destruct (Z.leb_spec (Z.of_nat b) (Z.of_nat (length w))); [lia|]. now rewrite andb_false_r.
Qed.
Lemma split_all o w : forall pos i prev parts, (prev <= i)%nat -> (prev <= length w)%nat ->
  split_loop o w (zlen w) pos (Z.of_nat i) (Z.of_nat prev) parts =
  if existsb (fun i => (length w <? i)%nat) (scan o (length w) pos i prev) then Panic
  else Ret (parts ++ cutAt (skipn prev w) prev (scan o (length w) pos i prev)).
Proof.
  induction pos as [|p pos IH]; intros i prev parts H1 H2; cbn [split_loop scan].
  - cbn [existsb]. unfold zlen. rewrite slice_nat by lia. cbn [gbind cutAt]. rewrite firstn_all2; [reflexivity|]. rewrite skipn_length. lia.
  - replace (Z.of_nat i + 1) with (Z.of_nat (S i)) by lia. rewrite odd_test.
    destruct (Z.odd p); cbn [negb andb]; [|apply IH; lia].
    replace (zlen w - Z.of_nat i) with (Z.of_nat (length w) - Z.of_nat i) by reflexivity.
    destruct (Z.ltb_spec (Z.of_nat i - Z.of_nat prev) (o_minLeft o)) as [Hl|Hl];
      destruct (Z.leb_spec (o_minLeft o) (Z.of_nat i - Z.of_nat prev)); try lia; cbn [orb andb]; [apply IH; lia|].
    destruct (Z.ltb_spec (Z.of_nat (length w) - Z.of_nat i) (o_minRight o)) as [Hm|Hm];
      destruct (Z.leb_spec (o_minRight o) (Z.of_nat (length w) - Z.of_nat i)); try lia; [apply IH; lia|].
    cbn [existsb]. destruct (Nat.ltb_spec (length w) i) as [Hi|Hi]; cbn [orb].
    + now rewrite slice_panic.
    + rewrite slice_nat by lia. cbn [gbind]. rewrite IH by lia. destruct (existsb _ _); [reflexivity|].
      rewrite <- app_assoc. cbn [app cutAt]. rewrite skipn_skipn_add. replace (prev + (i - prev))%nat with i by lia. reflexivity.
Qed.
Lemma scan_keepFrom o n : forall pos i prev todo, (length pos <= todo)%nat ->
  scan o n pos i prev = keepFrom (fun j => Z.odd (nth (j - i) pos 0)) (o_minLeft o) (o_minRight o) n prev i todo.
Proof.
  induction pos as [|p pos IH]; intros i prev todo H.
  - cbn [scan]. rewrite keepFrom_none; [reflexivity|]. intros j Hj. destruct (j - i)%nat; reflexivity.
  - destruct todo as [|todo]; [cbn in H; lia|]. cbn [scan keepFrom length] in *. rewrite Nat.sub_diag. cbn [nth].
    assert (forall prev', keepFrom (fun j => Z.odd (nth (j - i) (p :: pos) 0)) (o_minLeft o) (o_minRight o) n prev' (S i) todo =
      keepFrom (fun j => Z.odd (nth (j - S i) pos 0)) (o_minLeft o) (o_minRight o) n prev' (S i) todo) as Hk.
    { intros prev'. apply keepFrom_ext. intros j Hj _. replace (j - i)%nat with (S (j - S i)) by lia. reflexivity. }
    rewrite !Hk, <- !IH by lia. reflexivity.
Qed.
Lemma splitAt_all o w pos todo : (length pos <= todo)%nat ->
  splitAtPositions o w (zlen w) pos =
  cutOrPanic w (keepFrom (fun i => Z.odd (nth i pos 0)) (o_minLeft o) (o_minRight o) (length w) 0 0 todo).
Proof.
  intros H. unfold splitAtPositions, cutOrPanic. change 0 with (Z.of_nat 0) at 1 2. rewrite split_all by lia.
  rewrite (scan_keepFrom o (length w) pos 0 0 todo H). cbn [skipn app].
  rewrite (keepFrom_ext (fun j => Z.odd (nth (j - 0) pos 0)) (fun i => Z.odd (nth i pos 0))); [reflexivity|].
  intros j _ _. now rewrite Nat.sub_0_r.
Qed.

(** All the positions *)
Lemma breakWord_all u d o w : containsHyphen w = false -> o_minLength o <= zlen w -> isException d w = None ->
  exists P pos, tops (fun a pp => (a < length w)%nat /\ In pp (isPattern u d a w)) P /\
    breakWord u d o w = splitAtPositions o w (zlen w) pos /\ (length pos <= length P)%nat /\
    forall i, nth i pos 0 = if (i =? 0)%nat then 0 else
      if ((i =? length w)%nat && (nth 1 P 0 <=? 0)) then 0 else if (S i <? length P - 1)%nat then nth (S i) P 0 else 0.
Proof.
  intros H1 H2 H3. unfold breakWord. rewrite H1, H3. destruct (Z.ltb_spec (zlen w) (o_minLength o)); [lia|]. cbn [orb].
  destruct (positions_all u d w) as (P & E & HP). exists P. rewrite E. cbn [gbind].
  assert (30 <= length P)%nat as HL by apply HP. rewrite (slice_tail_init P HL). cbn [gbind].
  assert (forall j, 0 <= nth j P 0) as HN by apply HP.
  set (p2 := firstn (length P - 2) (skipn 1 P)).
  assert (length p2 = (length P - 2)%nat) as L2 by (unfold p2; rewrite firstn_length, skipn_length; lia).
  assert (forall i, nth i p2 0 = if (S i <? length P - 1)%nat then nth (S i) P 0 else 0) as N2.
  { intros i. unfold p2. rewrite nth_firstn_Z. destruct P as [|x P]; [cbn in HL; lia|]. cbn [skipn nth length].
    destruct (Nat.ltb_spec i (S (length P) - 2)); destruct (Nat.ltb_spec (S i) (S (length P) - 1)); try lia; reflexivity. }
  unfold indexAt at 1. destruct (nth_error p2 0) as [p0|] eqn:E0; [|apply nth_error_None in E0; lia]. cbn [gbind].
  assert (nth 1 P 0 = p0) as Ep. { pose proof (N2 0%nat) as X. rewrite (nth_error_nth p2 0 0 E0) in X. destruct (Nat.ltb_spec 1 (length P - 1)); [now symmetry|lia]. }
  rewrite Ep. specialize (HN 1%nat). rewrite Ep in HN.
  destruct (Z.ltb_spec 0 p0).
  - destruct (setAt_spec p2 0 0) as (l' & E' & El & Hn); [lia|]. rewrite E'. cbn [gbind]. exists l'.
    split; [exact HP|]. split; [reflexivity|]. split; [lia|]. intros i. rewrite Hn, N2. destruct (Z.leb_spec p0 0); [lia|]. now rewrite andb_false_r.
  - assert (forall i, nth i p2 0 = if (i =? 0)%nat then 0 else if (S i <? length P - 1)%nat then nth (S i) P 0 else 0) as N3.
    { intros i. rewrite N2. destruct (Nat.eqb_spec i 0) as [->|]; [|reflexivity]. rewrite Ep. destruct (_ <? _)%nat; lia. }
    destruct (Z.leb_spec p0 0); [|lia]. destruct (Z.ltb_spec (zlen w) (zlen p2)) as [Hw|Hw].
    + unfold indexAt. destruct (nth_error p2 (length w)) as [pw|] eqn:Ew;
        [|apply nth_error_None in Ew; unfold zlen in Hw; lia]. cbn [gbind].
      pose proof (N3 (length w)) as Xw. rewrite (nth_error_nth p2 _ 0 Ew) in Xw.
      destruct (Z.ltb_spec 0 pw).
      * destruct (setAt_spec p2 (length w) 0) as (l' & E' & El & Hn); [unfold zlen in Hw; lia|]. rewrite E'. cbn [gbind]. exists l'.
        split; [exact HP|]. split; [reflexivity|]. split; [lia|]. intros i. rewrite Hn, N3. destruct (Nat.eqb_spec i (length w)); cbn [andb]; destruct (Nat.eqb_spec i 0); reflexivity.
      * exists p2. split; [exact HP|]. split; [reflexivity|]. split; [lia|]. intros i. rewrite N3. destruct (Nat.eqb_spec i (length w)) as [->|]; cbn [andb]; [|reflexivity].
        destruct (Nat.eqb_spec (length w) 0) as [|Hw0]; [reflexivity|]. rewrite <- Xw.
        assert (0 <= pw); [|lia]. rewrite Xw. destruct (_ <? _)%nat; [exact (proj1 HP _)|lia].
    + exists p2. split; [exact HP|]. split; [reflexivity|]. split; [lia|]. intros i. rewrite N3. destruct (Nat.eqb_spec i (length w)) as [->|]; cbn [andb]; [|reflexivity].
      destruct (Nat.eqb_spec (length w) 0); [reflexivity|]. destruct (Nat.ltb_spec (S (length w)) (length P - 1)); [unfold zlen in Hw; lia|reflexivity].
Qed.
Lemma contrib_given u d w j v :
  contrib (fun a pp => (a < length w)%nat /\ In pp (isPattern u d a w)) j v <-> given (get (d_patterns d)) (wordDots u w) (length w) j v.
Proof.
  split.
  - intros (a & pp & [Ha Hin] & Hle & Hn). apply isPattern_in in Hin; [|exact Ha].
    destruct Hin as (pre & k & post & Hd & Hl & Hk & H2 & Hg). exists a, pp. split; [|auto]. exists pre, k, post. auto 8.
  - intros (a & pp & (pre & k & post & Hd & Hl & Ha & Hk & H2 & Hg) & Hle & Hn). exists a, pp. split; [|auto]. split; [exact Ha|].
    apply isPattern_in; [exact Ha|]. exists pre, k, post. auto 8.
Qed.
Theorem breakWord_exact u d o w : containsHyphen w = false -> o_minLength o <= zlen w -> isException d w = None ->
  exists f allowed N, greatestGiven (get (d_patterns d)) (wordDots u w) (length w) f /\
    (forall i, allowed i = true <-> mayCut (get (d_patterns d)) (wordDots u w) (length w) f i) /\ (forall i, (N <= i)%nat -> allowed i = false) /\
    breakWord u d o w = cutOrPanic w (keepFrom allowed (o_minLeft o) (o_minRight o) (length w) 0 0 N).
Proof.
  intros H1 H2 H3. destruct (breakWord_all u d o w H1 H2 H3) as (P & pos & (T1 & T2 & T3 & T4 & T5) & E & Hlen & Hn).
  exists (fun j => nth j P 0), (fun i => Z.odd (nth i pos 0)), (length P).
  split; [|split; [|split]].
  - intros j. split; [|split; [apply T1|]].
    + intros v Hv. apply T2. now apply contrib_given.
    + destruct (T3 j) as [T|T]; [left; exact T|right]. now apply contrib_given.
  - intros i. rewrite Hn. unfold mayCut. cbv beta.
    assert ((S i < length P - 1)%nat <-> (i < 28)%nat \/ exists j v, (i + 2 <= j)%nat /\ given (get (d_patterns d)) (wordDots u w) (length w) j v) as HR.
    { split.
      - intros H. destruct T4 as [T4|(v & T40 & T4)]; [left; lia|right]. exists (length P - 1)%nat, v. split; [lia|]. now apply contrib_given.
      - intros [H|(j & v & Hj & Hg)]; [lia|]. apply contrib_given in Hg. destruct (T2 j v Hg). lia. }
    rewrite <- HR. clear HR.
    destruct (Nat.eqb_spec i 0); [cbn; split; [discriminate|tauto]|].
    destruct (Nat.eqb_spec i (length w)) as [Hi|Hi]; cbn [andb].
    + destruct (Z.leb_spec (nth 1 P 0) 0).
      * split; [discriminate|]. intros (_ & _ & X & _). specialize (X Hi). lia.
      * destruct (Nat.ltb_spec (S i) (length P - 1)); [|split; [discriminate|lia]]. split; [|tauto]. intros X. repeat split; auto.
    + destruct (Nat.ltb_spec (S i) (length P - 1)); [|split; [discriminate|lia]]. split; [|tauto]. intros X. repeat split; auto; lia.
  - intros i Hi. rewrite nth_overflow by lia. reflexivity.
  - rewrite E. apply splitAt_all. exact Hlen.
Qed.
Theorem breakWord_exception_exact u d o w pos : containsHyphen w = false -> o_minLength o <= zlen w -> isException d w = Some pos ->
  breakWord u d o w = cutOrPanic w (keepFrom (fun i => Z.odd (nth i pos 0)) (o_minLeft o) (o_minRight o) (length w) 0 0 (length pos)).
Proof.
  intros H1 H2 H3. unfold breakWord. rewrite H1, H3. destruct (Z.ltb_spec (zlen w) (o_minLength o)); [lia|]. cbn [orb]. apply splitAt_all. lia.
Qed.

(** From the bytes of a file *)
Lemma given_ext r r' word n j v : (forall k, r k = r' k) -> given r word n j v <-> given r' word n j v.
Proof.
  intros H. split; intros (a & dg & (pre & k & post & H1 & H2 & H3 & H4 & H5 & H6) & X); exists a, dg; (split; [|exact X]); exists pre, k, post;
    [rewrite <- H|rewrite H]; auto 8.
Qed.
Theorem file_exact u name ls excs bs o w : okFile u ls excs -> utf8s (fileText ls excs) bs ->
  w <> [] -> Forall (fun r => isHyphenRune r = false) w -> o_minLength o <= zlen w ->
  match lastRule w (excRulesOf (toLower u) excs) with
  | Some pos => breakWord u (loadFile u name bs) o w =
      cutOrPanic w (keepFrom (fun i => Z.odd (nth i pos 0)) (o_minLeft o) (o_minRight o) (length w) 0 0 (length pos))
  | None => let rules := fun k => lastRule k (patternRulesOf (toLower u) ls) in let word := dotted (map (toLower u) w) in
      exists f allowed N, greatestGiven rules word (length w) f /\ (forall i, allowed i = true <-> mayCut rules word (length w) f i) /\
        (forall i, (N <= i)%nat -> allowed i = false) /\
        breakWord u (loadFile u name bs) o w = cutOrPanic w (keepFrom allowed (o_minLeft o) (o_minRight o) (length w) 0 0 N)
  end.
Proof.
  intros [Hl He] Hb Hw Hh Hm. destruct (loadFile_rules u name ls excs bs Hl He Hb) as [G1 G2].
  assert (containsHyphen w = false) as H1.
  { unfold containsHyphen. clear - Hh. induction Hh as [|r w Hr Hw IH]; [reflexivity|]. cbn [existsb]. rewrite Hr. exact IH. }
  destruct (lastRule w (excRulesOf (toLower u) excs)) as [pos|] eqn:Ex.
  - apply breakWord_exception_exact; try assumption. unfold isException. now rewrite G2.
  - intros rules word. destruct (breakWord_exact u (loadFile u name bs) o w) as (f & al & N & H2 & H3 & H4 & E); try assumption.
    { unfold isException. now rewrite G2. }
    exists f, al, N. split; [|split; [|split; [exact H4|exact E]]].
    + intros j. destruct (H2 j) as (X1 & X2 & X3). split; [|split; [exact X2|]].
      * intros v Hv. apply X1. eapply given_ext; [exact G1|exact Hv].
      * destruct X3 as [X3|X3]; [now left|right]. eapply given_ext; [|exact X3]. intros k. symmetry. apply G1.
    + intros i. rewrite H3. unfold mayCut. split; intros (Y1 & Y2 & Y3 & Y4); (split; [exact Y1|]; split; [exact Y2|]; split; [exact Y3|]);
        (destruct Y4 as [Y4|(j & v & Hj & Hv)]; [now left|right]; exists j, v; split; [exact Hj|]; eapply given_ext; [|exact Hv]; intros k; rewrite G1; reflexivity).
Qed.
