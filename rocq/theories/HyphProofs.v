From Verif Require Import Base Unicode Trie Dict SpecHyph Hyph.
Local Open Scope Z_scope.

(** ** Splitting at positions *)
Fixpoint scan (o : hoptions) (n : nat) (pos : list Z) (i prev : nat) : list nat :=
  match pos with
  | [] => []
  | p :: pos' =>
      if Z.odd p && (o_minLeft o <=? Z.of_nat i - Z.of_nat prev) && (o_minRight o <=? Z.of_nat n - Z.of_nat i)
      then i :: scan o n pos' (S i) i
      else scan o n pos' (S i) prev
  end.

Lemma odd_test p : (p =? 0) || (Z.rem p 2 =? 0) = negb (Z.odd p).
Proof.
  destruct (Z.eqb_spec p 0) as [->|Hp]; [reflexivity|]. cbn [orb].
  rewrite Zodd_mod. pose proof (Z.rem_eq p 2 ltac:(lia)) as E1.
  destruct (Z.eqb_spec (Z.rem p 2) 0) as [H|H].
  - apply Z.rem_divide in H; [|lia]. destruct H as [q ->]. rewrite Z_mod_mult. reflexivity.
  - assert (p mod 2 = 1) as ->; [|reflexivity].
    pose proof (Z.mod_pos_bound p 2 ltac:(lia)). destruct (Z.eq_dec (p mod 2) 0) as [E|E]; [|lia].
    exfalso. apply H. apply Z.rem_divide; [lia|]. apply Z.mod_divide; [lia|exact E].
Qed.

Lemma slice_nat (w : list rune) a b : (a <= b)%nat -> (b <= length w)%nat ->
  slice w (Z.of_nat a) (Z.of_nat b) = Ret (firstn (b - a) (skipn a w)).
Proof.
  intros H1 H2. unfold slice, zlen. destruct (Z.leb_spec 0 (Z.of_nat a)); [|lia].
  destruct (Z.leb_spec (Z.of_nat a) (Z.of_nat b)); [|lia]. destruct (Z.leb_spec (Z.of_nat b) (Z.of_nat (length w))); [|lia].
  cbn [andb]. replace (Z.to_nat (Z.of_nat b - Z.of_nat a)) with (b - a)%nat by lia. rewrite Nat2Z.id. reflexivity.
Qed.
Lemma skipn_skipn_add {A} (l : list A) a b : skipn a (skipn b l) = skipn (b + a) l.
Proof. revert l. induction b as [|b IH]; intros l; [reflexivity|]. destruct l; [destruct a; reflexivity|]. cbn. apply IH. Qed.

Lemma split_scan o w : 0 <= o_minRight o -> forall pos i prev parts, (prev <= i)%nat -> (prev <= length w)%nat ->
  split_loop o w (zlen w) pos (Z.of_nat i) (Z.of_nat prev) parts =
  Ret (parts ++ cutAt (skipn prev w) prev (scan o (length w) pos i prev)).
Proof.
  intros Hr. induction pos as [|p pos IH]; intros i prev parts H1 H2; cbn [split_loop scan].
  - unfold zlen. rewrite slice_nat by lia. cbn [gbind cutAt]. rewrite firstn_all2; [reflexivity|]. rewrite skipn_length. lia.
  - replace (Z.of_nat i + 1) with (Z.of_nat (S i)) by lia. rewrite odd_test.
    destruct (Z.odd p); cbn [negb andb]; [|apply IH; lia].
    replace (zlen w - Z.of_nat i) with (Z.of_nat (length w) - Z.of_nat i) by reflexivity.
    destruct (Z.ltb_spec (Z.of_nat i - Z.of_nat prev) (o_minLeft o)) as [Hl|Hl];
      destruct (Z.leb_spec (o_minLeft o) (Z.of_nat i - Z.of_nat prev)); try lia; cbn [orb andb]; [apply IH; lia|].
    destruct (Z.ltb_spec (Z.of_nat (length w) - Z.of_nat i) (o_minRight o)) as [Hm|Hm];
      destruct (Z.leb_spec (o_minRight o) (Z.of_nat (length w) - Z.of_nat i)); try lia; [apply IH; lia|].
    rewrite slice_nat by lia. cbn [gbind]. rewrite IH by lia. rewrite <- app_assoc. cbn [app cutAt].
    rewrite skipn_skipn_add. replace (prev + (i - prev))%nat with i by lia. reflexivity.
Qed.
Lemma splitAt_scan o w pos : 0 <= o_minRight o ->
  splitAtPositions o w (zlen w) pos = Ret (cutAt w 0 (scan o (length w) pos 0 0)).
Proof. intros H. apply (split_scan o w H pos 0 0 []); lia. Qed.

Lemma concat_cutAt cuts : forall w from, concat (cutAt w from cuts) = w.
Proof.
  induction cuts as [|c cuts IH]; intros w from; cbn [cutAt concat]; [apply app_nil_r|].
  rewrite IH. apply firstn_skipn.
Qed.
Lemma cutAt_nonnil cuts w from : cutAt w from cuts <> [].
Proof. destruct cuts; discriminate. Qed.

(** minima *)
Definition partsOk (minL minR : Z) (parts : list (list rune)) : Prop :=
  forall pre p post, parts = pre ++ p :: post -> post <> [] -> minL <= zlen p /\ minR <= zlen (concat post).
Lemma partsOk_cons minL minR p ps : (ps <> [] -> minL <= zlen p /\ minR <= zlen (concat ps)) -> partsOk minL minR ps ->
  partsOk minL minR (p :: ps).
Proof.
  intros H1 H2 [|x pre] q post E Hp; cbn in E; injection E as -> E.
  - subst. auto.
  - eapply H2; eauto.
Qed.
Lemma scan_partsOk o n pos : 0 <= o_minRight o -> forall i prev w, (prev <= i)%nat -> (prev <= n)%nat -> length w = (n - prev)%nat ->
  partsOk (o_minLeft o) (o_minRight o) (cutAt w prev (scan o n pos i prev)).
Proof.
  intros Hr. induction pos as [|p pos IH]; intros i prev w H1 H2 H3; cbn [scan].
  - cbn [cutAt]. intros [|x [|y pre]] q post E Hp; cbn in E; try discriminate. injection E as <- <-. congruence.
  - destruct (Z.odd p); cbn [andb]; [|apply IH; lia].
    destruct (Z.leb_spec (o_minLeft o) (Z.of_nat i - Z.of_nat prev)); cbn [andb]; [|apply IH; lia].
    destruct (Z.leb_spec (o_minRight o) (Z.of_nat n - Z.of_nat i)); [|apply IH; lia].
    cbn [cutAt]. apply partsOk_cons.
    + intros _. rewrite concat_cutAt. unfold zlen. rewrite firstn_length, skipn_length. lia.
    + apply IH; try lia. rewrite skipn_length. lia.
Qed.

(** allowed positions of a list *)
Lemma scan_ge o n pos : 1 <= o_minRight o -> forall i prev, (n <= i)%nat -> scan o n pos i prev = [].
Proof.
  intros Hr. induction pos as [|p pos IH]; intros i prev H; [reflexivity|]. cbn [scan].
  destruct (Z.leb_spec (o_minRight o) (Z.of_nat n - Z.of_nat i)); [lia|]. rewrite andb_false_r. apply IH. lia.
Qed.
Lemma keepFrom_none al minL minR len todo : forall prev i, (forall j, (i <= j)%nat -> al j = false) ->
  keepFrom al minL minR len prev i todo = [].
Proof.
  induction todo as [|todo IH]; intros prev i H; [reflexivity|]. cbn [keepFrom]. rewrite H by lia. cbn [andb].
  apply IH. intros j Hj. apply H. lia.
Qed.
Lemma keepFrom_ext al al' minL minR len todo : forall prev i,
  (forall j, (i <= j)%nat -> minR <= Z.of_nat len - Z.of_nat j -> al j = al' j) ->
  keepFrom al minL minR len prev i todo = keepFrom al' minL minR len prev i todo.
Proof.
  induction todo as [|todo IH]; intros prev i H; [reflexivity|]. cbn [keepFrom].
  destruct (Z.leb_spec minR (Z.of_nat len - Z.of_nat i)) as [Hm|Hm].
  - rewrite H by lia. rewrite !IH by (intros j Hj Hj2; apply H; lia). reflexivity.
  - rewrite !andb_false_r. apply IH. intros j Hj Hj2. apply H; lia.
Qed.
Lemma scan_keep o n : 1 <= o_minRight o -> forall pos i prev,
  scan o n pos i prev = keepFrom (fun j => Z.odd (nth (j - i) pos 0)) (o_minLeft o) (o_minRight o) n prev i (n - i).
Proof.
  intros Hr. induction pos as [|p pos IH]; intros i prev.
  - cbn [scan]. rewrite keepFrom_none; [reflexivity|]. intros j Hj. destruct (j - i)%nat; reflexivity.
  - destruct (Nat.le_gt_cases n i) as [Hge|Hlt].
    + rewrite scan_ge by lia. replace (n - i)%nat with 0%nat by lia. reflexivity.
    + cbn [scan]. replace (n - i)%nat with (S (n - S i)) by lia. cbn [keepFrom].
      rewrite Nat.sub_diag. cbn [nth].
      assert (forall prev', keepFrom (fun j => Z.odd (nth (j - S i) pos 0)) (o_minLeft o) (o_minRight o) n prev' (S i) (n - S i) =
                           keepFrom (fun j => Z.odd (nth (j - i) (p :: pos) 0)) (o_minLeft o) (o_minRight o) n prev' (S i) (n - S i)) as E.
      { intros prev'. apply keepFrom_ext. intros j Hj _. replace (j - i)%nat with (S (j - S i)) by lia. reflexivity. }
      rewrite !IH, !E. reflexivity.
Qed.
Lemma splitAt_keep o w pos : 1 <= o_minLeft o -> 1 <= o_minRight o ->
  splitAtPositions o w (zlen w) pos =
  Ret (cutAt w 0 (keep (fun i => Z.odd (nth i pos 0)) (o_minLeft o) (o_minRight o) (length w))).
Proof.
  intros Hl Hr. rewrite splitAt_scan by lia. do 2 f_equal. rewrite scan_keep by lia. unfold keep.
  rewrite (keepFrom_ext _ (fun i => Z.odd (nth i pos 0))) by (intros; rewrite Nat.sub_0_r; reflexivity).
  destruct (length w) as [|n]; [reflexivity|]. cbn [Nat.sub]. rewrite Nat.sub_0_r. cbn [keepFrom].
  destruct (Z.leb_spec (o_minLeft o) (Z.of_nat 0 - Z.of_nat 0)); [lia|]. rewrite andb_false_r. reflexivity.
Qed.

(** ** Merging *)
Lemma setAt_spec (l : list Z) : forall i x, (i < length l)%nat -> exists l', setAt l i x = Ret l' /\ length l' = length l /\
  forall j d, nth j l' d = if (j =? i)%nat then x else nth j l d.
Proof.
  induction l as [|y l IH]; intros i x H; [cbn in H; lia|]. destruct i as [|i]; cbn [setAt].
  - exists (x :: l). split; [reflexivity|]. split; [reflexivity|]. intros [|j] d; reflexivity.
  - destruct (IH i x) as (l' & E & El & Hn); [cbn in H; lia|]. rewrite E. exists (y :: l'). split; [reflexivity|].
    split; [cbn; lia|]. intros [|j] d; [reflexivity|]. cbn [nth]. rewrite Hn. reflexivity.
Qed.
Lemma nth_repeat0 n j : nth j (repeat 0 n) 0 = 0.
Proof. revert j; induction n; intros [|j]; cbn; auto. Qed.
Lemma nth_app_zeros (l : list Z) n j : nth j (l ++ repeat 0 n) 0 = nth j l 0.
Proof.
  destruct (Nat.lt_ge_cases j (length l)); [apply app_nth1; lia|].
  rewrite app_nth2, nth_repeat0 by lia. symmetry. apply nth_overflow. lia.
Qed.

Definition nonneg (l : list Z) : Prop := forall j, 0 <= nth j l 0.
(** value given at [j] by the digits [pp] placed at [a] *)
Definition at_ (pp : list Z) (a j : nat) : Z := if (a <=? j)%nat then nth (j - a) pp 0 else 0.

Lemma merge_one_spec pp : forall P a, nonneg P ->
  exists P', merge_one P pp a = Ret P' /\ nonneg P' /\
    length P' = (match pp with [] => length P | _ => Nat.max (length P) (a + length pp) end) /\
    forall j, nth j P' 0 = Z.max (nth j P 0) (at_ pp a j).
Proof.
  induction pp as [|num pp IH]; intros P a HP; cbn [merge_one].
  - exists P. split; [reflexivity|]. split; [exact HP|]. split; [reflexivity|].
    intros j. unfold at_. pose proof (HP j). destruct (a <=? j)%nat; [destruct (j - a)%nat|]; cbn; lia.
  - set (P1 := P ++ repeat 0 (S a - length P)).
    assert (length P1 = Nat.max (length P) (S a)) as L1 by (unfold P1; rewrite app_length, repeat_length; lia).
    assert (forall j, nth j P1 0 = nth j P 0) as N1 by (intros j; apply nth_app_zeros).
    unfold indexAt. destruct (nth_error P1 a) as [p|] eqn:Ep; [|apply nth_error_None in Ep; lia].
    pose proof (nth_error_nth _ _ 0 Ep) as Ep'. rewrite N1 in Ep'. cbn [gbind].
    assert (exists P2, (if p <? num then setAt P1 a num else Ret P1) = Ret P2 /\ length P2 = length P1 /\
              forall j, nth j P2 0 = if (j =? a)%nat then Z.max p num else nth j P 0) as (P2 & E2 & L2 & N2).
    { destruct (Z.ltb_spec p num) as [Hlt|Hge].
      - destruct (setAt_spec P1 a num) as (l' & E & El & Hn); [lia|]. exists l'. split; [exact E|]. split; [exact El|].
        intros j. rewrite Hn, N1. destruct (Nat.eqb_spec j a); [lia|reflexivity].
      - exists P1. split; [reflexivity|]. split; [reflexivity|]. intros j. rewrite N1.
        destruct (Nat.eqb_spec j a) as [->|]; [lia|reflexivity]. }
    rewrite E2. cbn [gbind].
    assert (nonneg P2) as HP2.
    { intros j. rewrite N2. pose proof (HP j). destruct (Nat.eqb_spec j a) as [->|]; lia. }
    destruct (IH P2 (S a) HP2) as (P' & E & Hn & Hl & Hj). exists P'. split; [exact E|]. split; [exact Hn|]. split.
    + rewrite Hl. cbn [length]. destruct pp; cbn [length]; lia.
    + intros j. rewrite Hj, N2. unfold at_. pose proof (HP j).
      destruct (Nat.eqb_spec j a) as [->|Hne].
      * rewrite Nat.leb_refl, Nat.sub_diag. cbn [nth]. destruct (Nat.leb_spec (S a) a); [lia|]. lia.
      * destruct (Nat.leb_spec (S a) j); destruct (Nat.leb_spec a j); try lia.
        replace (j - a)%nat with (S (j - S a)) by lia. reflexivity.
Qed.

(** contributions: digits placed at an offset *)
Definition contrib (cs : nat -> list Z -> Prop) (j : nat) (v : Z) : Prop :=
  exists a pp, cs a pp /\ (a <= j)%nat /\ nth_error pp (j - a) = Some v.
Definition tops (cs : nat -> list Z -> Prop) (P : list Z) : Prop :=
  nonneg P /\ (forall j v, contrib cs j v -> v <= nth j P 0 /\ (j < length P)%nat) /\
  (forall j, nth j P 0 = 0 \/ contrib cs j (nth j P 0)) /\
  (length P = 30%nat \/ exists v, (30 < length P)%nat /\ contrib cs (length P - 1) v) /\ (30 <= length P)%nat.

Lemma merge_one_tops pp P a cs (cs' : nat -> list Z -> Prop) : tops cs P ->
  (forall b q, cs' b q <-> cs b q \/ (b = a /\ q = pp)) ->
  exists P', merge_one P pp a = Ret P' /\ tops cs' P'.
Proof.
  intros (T1 & T2 & T3 & T4 & T5) Hcs. destruct (merge_one_spec pp P a T1) as (P' & E & Hn & Hl & Hj).
  exists P'. split; [exact E|]. split; [exact Hn|].
  assert ((length P <= length P')%nat /\ (pp <> [] -> (a + length pp <= length P')%nat)) as [L1 L2].
  { rewrite Hl. destruct pp; cbn [length]; split; intros; try lia; congruence. }
  split; [|split; [|split]].
  - intros j v (b & q & H1 & H2 & H3). apply Hcs in H1. rewrite Hj. destruct H1 as [H1|[-> ->]].
    + destruct (T2 j v) as [T21 T22]; [exists b, q; auto|]. lia.
    + assert (j - a < length pp)%nat by (apply nth_error_Some; congruence).
      split; [|assert (pp <> []) by (destruct pp; [cbn in H; lia|discriminate]); specialize (L2 H0); lia].
      unfold at_. destruct (Nat.leb_spec a j); [|lia]. rewrite (nth_error_nth _ _ 0 H3). lia.
  - intros j. rewrite Hj. pose proof (T1 j).
    destruct (Z.max_spec (nth j P 0) (at_ pp a j)) as [[H1 ->]|[H1 ->]].
    + right. unfold at_ in *. destruct (Nat.leb_spec a j) as [Ha|Ha]; [|lia].
      exists a, pp. split; [apply Hcs; auto|]. split; [exact Ha|].
      destruct (nth_error pp (j - a)) as [v|] eqn:En; [rewrite (nth_error_nth _ _ 0 En); reflexivity|].
      apply nth_error_None in En. rewrite (nth_overflow pp 0 En) in H1. lia.
    + destruct (T3 j) as [T|(b & q & B1 & B2 & B3)]; [left; exact T|right]. exists b, q. split; [apply Hcs; auto|auto].
  - destruct pp as [|x pp]; [rewrite Hl; destruct T4 as [T4|(v & T40 & b & q & B1 & B2 & B3)]; [left; exact T4|right];
      exists v; split; [exact T40|]; exists b, q; split; [apply Hcs; auto|auto]|].
    destruct (Nat.le_gt_cases (a + length (x :: pp)) (length P)) as [Hle|Hgt].
    + assert (length P' = length P) as -> by lia.
      destruct T4 as [T4|(v & T40 & b & q & B1 & B2 & B3)]; [left; exact T4|right];
      exists v; split; [exact T40|]; exists b, q; split; [apply Hcs; auto|auto].
    + right. assert (length P' = (a + length (x :: pp))%nat) as -> by lia.
      set (q := x :: pp) in *.
      destruct (nth_error q (length q - 1)) as [v|] eqn:En.
      * exists v. split; [lia|]. exists a, q. split; [apply Hcs; auto|]. assert (1 <= length q)%nat by (cbn; lia).
        split; [lia|]. replace (a + length q - 1 - a)%nat with (length q - 1)%nat by lia. exact En.
      * apply nth_error_None in En. cbn in En. lia.
  - lia.
Qed.

Lemma merge_tops pps : forall P a cs (cs' : nat -> list Z -> Prop), tops cs P ->
  (forall b q, cs' b q <-> cs b q \/ (b = a /\ In q pps)) ->
  exists P', mergeBreakPoints P pps a = Ret P' /\ tops cs' P'.
Proof.
  induction pps as [|pp pps IH]; intros P a cs cs' HP Hcs; cbn [mergeBreakPoints].
  - exists P. split; [reflexivity|].
    assert (forall b q, cs' b q <-> cs b q) as Heq by (intros; rewrite Hcs; cbn; tauto).
    assert (forall j v, contrib cs' j v <-> contrib cs j v) as Hc.
    { intros j v. split; intros (b & q & B1 & B2); exists b, q; (split; [apply Heq; exact B1|exact B2]). }
    destruct HP as (T1 & T2 & T3 & T4 & T5). split; [exact T1|]. split; [intros j v H; apply T2, Hc, H|]. split.
    + intros j. destruct (T3 j); [left; assumption|right; apply Hc; assumption].
    + split; [|exact T5]. destruct T4 as [T4|(v & T40 & T4)]; [left; exact T4|right; exists v; split; [exact T40|apply Hc, T4]].
  - destruct (merge_one_tops pp P a cs (fun b q => cs b q \/ (b = a /\ q = pp)) HP) as (P' & E & HP'); [intros; tauto|].
    rewrite E. cbn [gbind]. apply (IH P' a _ cs' HP'). intros b q. rewrite Hcs. cbn [In]. intuition congruence.
Qed.

Lemma positions_tops u d word n : forall i P, tops (fun a pp => (a < i)%nat /\ In pp (isPattern u d a word)) P ->
  exists P', positions_loop u d word n i P = Ret P' /\ tops (fun a pp => (a < i + n)%nat /\ In pp (isPattern u d a word)) P'.
Proof.
  induction n as [|n IH]; intros i P HP; cbn [positions_loop].
  - exists P. rewrite Nat.add_0_r. auto.
  - assert (exists P', (match isPattern u d i word with [] => Ret P | _ => mergeBreakPoints P (isPattern u d i word) i end) = Ret P' /\
              tops (fun a pp => (a < S i)%nat /\ In pp (isPattern u d a word)) P') as (P' & E & HP').
    { destruct (merge_tops (isPattern u d i word) P i _ (fun a pp => (a < S i)%nat /\ In pp (isPattern u d a word)) HP) as (P' & E & HP').
      - intros b q. split.
        + intros [H1 H2]. destruct (Nat.eq_dec b i) as [->|]; [right; auto|left; split; [lia|exact H2]].
        + intros [[H1 H2]|[-> H2]]; (split; [lia|exact H2]).
      - exists P'. split; [|exact HP']. destruct (isPattern u d i word) eqn:Ei; [|exact E].
        exact E. }
    rewrite E. cbn [gbind]. destruct (IH (S i) P' HP') as (P'' & E'' & HP''). exists P''. split; [exact E''|].
    replace (i + S n)%nat with (S i + n)%nat by lia. exact HP''.
Qed.

Lemma positions_all u d word :
  exists P, positions_loop u d word (length word) 0 (repeat 0 30) = Ret P /\
    tops (fun a pp => (a < length word)%nat /\ In pp (isPattern u d a word)) P.
Proof.
  apply (positions_tops u d word (length word) 0).
  split; [intros j; rewrite nth_repeat0; lia|]. split; [intros j v (a & pp & [H _] & _); lia|]. split.
  - intros j. left. apply nth_repeat0.
  - rewrite repeat_length. split; [left; reflexivity|lia].
Qed.

(** ** Matching patterns *)
Definition prefixOf (k l : list rune) : Prop := exists post, l = k ++ post.

Lemma pattern_loop_in u d rest : forall frag pp,
  In pp (pattern_loop u d rest frag) <->
  exists q, q <> [] /\ prefixOf q (map (toLower u) rest ++ [46]) /\ get (d_patterns d) (frag ++ q) = Some pp.
Proof.
  induction rest as [|r rest IH]; intros frag pp; cbn [pattern_loop map app].
  - split.
    + destruct (get (d_patterns d) (frag ++ [46])) as [p|] eqn:E; [|intros []].
      intros [->|[]]. exists [46]. split; [discriminate|]. split; [exists []; reflexivity|exact E].
    + intros (q & Hq & (post & Hp) & Hg). destruct q as [|x q]; [congruence|]. cbn in Hp. injection Hp as <- Hp.
      symmetry in Hp. apply app_eq_nil in Hp. destruct Hp as [-> ->]. unfold rune in *. rewrite Hg. left. reflexivity.
  - assert (In pp (pattern_loop u d rest (frag ++ [toLower u r])) <->
            exists q, q <> [] /\ prefixOf q (map (toLower u) rest ++ [46]) /\ get (d_patterns d) ((frag ++ [toLower u r]) ++ q) = Some pp) as IH'
      by apply IH.
    assert ((exists q, q <> [] /\ prefixOf q (toLower u r :: map (toLower u) rest ++ [46]) /\ get (d_patterns d) (frag ++ q) = Some pp) <->
            get (d_patterns d) (frag ++ [toLower u r]) = Some pp \/ In pp (pattern_loop u d rest (frag ++ [toLower u r]))) as Hs.
    { rewrite IH'. split.
      - intros (q & Hq & (post & Hp) & Hg). destruct q as [|x q]; [congruence|]. cbn in Hp. injection Hp as <- Hp.
        destruct q as [|y q]; [left; exact Hg|right]. exists (y :: q). split; [discriminate|]. split; [exists post; exact Hp|].
        rewrite <- app_assoc. exact Hg.
      - intros [Hg|(q & Hq & (post & Hp) & Hg)].
        + exists [toLower u r]. split; [discriminate|]. split; [exists (map (toLower u) rest ++ [46]); reflexivity|exact Hg].
        + exists (toLower u r :: q). split; [discriminate|]. split; [exists post; cbn; f_equal; exact Hp|].
          rewrite <- app_assoc in Hg. exact Hg. }
    rewrite Hs. destruct (get (d_patterns d) (frag ++ [toLower u r])) as [p|]; cbn [In].
    + split; intros [H|H]; auto; [left; congruence|left; congruence].
    + split; [auto|]. intros [H|H]; [discriminate|exact H].
Qed.

(** rules looked up by the code in the dotted word *)
Definition wordDots (u : unicode) (w : list rune) : list rune := dotted (map (toLower u) w).

Lemma isPattern_in u d a w pp : (a < length w)%nat ->
  In pp (isPattern u d a w) <->
  exists pre k post, wordDots u w = pre ++ k ++ post /\ length pre = a /\ k <> [] /\ (a = 0%nat -> (2 <= length k)%nat) /\
    get (d_patterns d) k = Some pp.
Proof.
  intros Ha. unfold isPattern, wordDots, dotted, dot. destruct a as [|a]; rewrite pattern_loop_in.
  - split.
    + intros (q & Hq & (post & Hp) & Hg). exists [], (46 :: q), post. cbn [app length].
      split; [f_equal; exact Hp|]. split; [reflexivity|]. split; [discriminate|]. split; [|exact Hg].
      intros _. destruct q; [congruence|cbn; lia].
    + intros (pre & k & post & Hd & Hl & Hk & H2 & Hg). destruct pre; [|discriminate]. cbn [app] in Hd.
      destruct k as [|x k]; [congruence|]. cbn in Hd. injection Hd as <- Hd.
      exists k. split; [intros ->; cbn in H2; specialize (H2 eq_refl); lia|]. split; [exists post; exact Hd|exact Hg].
  - split.
    + intros (q & Hq & (post & Hp) & Hg). cbn [app] in Hg.
      exists (46 :: firstn a (map (toLower u) w)), q, post. split; [|split; [|split; [exact Hq|split; [lia|exact Hg]]]].
      * cbn [app]. f_equal. rewrite <- Hp. rewrite app_assoc. f_equal. rewrite <- skipn_map. symmetry. apply firstn_skipn.
      * cbn [length]. rewrite firstn_length, map_length. lia.
    + intros (pre & k & post & Hd & Hl & Hk & _ & Hg). destruct pre as [|x pre]; [discriminate|]. cbn in Hd, Hl. injection Hd as <- Hd.
      exists k. split; [exact Hk|]. split; [|exact Hg]. exists post. rewrite <- skipn_map.
      assert (length pre = a) as Hl' by lia.
      assert (skipn a (map (toLower u) w ++ [46]) = k ++ post) as <-.
      { unfold rune in *. rewrite Hd. apply skipn_app_exact. lia. }
      rewrite skipn_app, map_length. replace (a - length w)%nat with 0%nat by lia. reflexivity.
Qed.

(** Digits never reach further than one past their key. *)
Definition wellFormed (d : dictionary) : Prop :=
  forall k digits, get (d_patterns d) k = Some digits -> (length digits <= S (length k))%nat.

Lemma contrib_gives u d w j v : wellFormed d -> (2 <= j < length w)%nat ->
  contrib (fun a pp => (a < length w)%nat /\ In pp (isPattern u d a w)) j v <->
  gives (get (d_patterns d)) (wordDots u w) j v.
Proof.
  intros Hwf Hj. split.
  - intros (a & pp & [Ha Hin] & Hle & Hn). apply isPattern_in in Hin; [|exact Ha].
    destruct Hin as (pre & k & post & Hd & Hl & Hk & _ & Hg). exists pre, k, post, pp. subst a. auto.
  - intros (pre & k & post & digits & Hd & Hk & Hg & Hle & Hn). exists (length pre), digits.
    split; [|auto]. split; [lia|]. apply isPattern_in; [lia|]. exists pre, k, post.
    split; [exact Hd|]. split; [reflexivity|]. split; [exact Hk|]. split; [|exact Hg].
    intros H0. assert (j - length pre < length digits)%nat by (apply nth_error_Some; congruence).
    specialize (Hwf _ _ Hg). lia.
Qed.

(** ** BreakWord *)
Lemma slice_tail_init (P : list Z) : (30 <= length P)%nat ->
  slice P 1 (zlen P - 1) = Ret (firstn (length P - 2) (skipn 1 P)).
Proof.
  intros H. unfold slice, zlen. destruct (Z.leb_spec 0 1); [|lia]. destruct (Z.leb_spec 1 (Z.of_nat (length P) - 1)); [|lia].
  destruct (Z.leb_spec (Z.of_nat (length P) - 1) (Z.of_nat (length P))); [|lia]. cbn [andb].
  do 2 f_equal. lia.
Qed.
Lemma nth_firstn_Z (l : list Z) : forall n i, nth i (firstn n l) 0 = if (i <? n)%nat then nth i l 0 else 0.
Proof.
  induction l as [|x l IH]; intros n i.
  - rewrite firstn_nil. destruct i; cbn [nth]; destruct (_ <? n)%nat; reflexivity.
  - destruct n as [|n]; [destruct i; reflexivity|]. destruct i as [|i]; [reflexivity|]. cbn [firstn nth]. rewrite IH. reflexivity.
Qed.

(** The positions kept by the last steps. *)
Lemma breakWord_positions u d o w : containsHyphen w = false -> o_minLength o <= zlen w -> isException d w = None ->
  exists P pos, tops (fun a pp => (a < length w)%nat /\ In pp (isPattern u d a w)) P /\
    breakWord u d o w = splitAtPositions o w (zlen w) pos /\
    (forall i, i <> 0%nat -> i <> length w -> nth i pos 0 = if (S i <? length P - 1)%nat then nth (S i) P 0 else 0).
Proof.
  intros H1 H2 H3. unfold breakWord. rewrite H1, H3. destruct (Z.ltb_spec (zlen w) (o_minLength o)); [lia|]. cbn [orb].
  destruct (positions_all u d w) as (P & E & HP). exists P. rewrite E. cbn [gbind].
  assert (30 <= length P)%nat as HL by apply HP. rewrite (slice_tail_init P HL). cbn [gbind].
  set (p2 := firstn (length P - 2) (skipn 1 P)).
  assert (length p2 = (length P - 2)%nat) as L2 by (unfold p2; rewrite firstn_length, skipn_length; lia).
  assert (forall i, nth i p2 0 = if (S i <? length P - 1)%nat then nth (S i) P 0 else 0) as N2.
  { intros i. unfold p2. rewrite nth_firstn_Z. destruct P as [|x P]; [cbn in HL; lia|]. cbn [skipn nth length].
    destruct (Nat.ltb_spec i (S (length P) - 2)); destruct (Nat.ltb_spec (S i) (S (length P) - 1)); try lia; reflexivity. }
  unfold indexAt at 1. destruct (nth_error p2 0) as [p0|] eqn:E0; [|apply nth_error_None in E0; lia]. cbn [gbind].
  destruct (0 <? p0).
  - destruct (setAt_spec p2 0 0) as (l' & E' & El & Hn); [lia|]. rewrite E'. cbn [gbind]. exists l'.
    split; [exact HP|]. split; [reflexivity|]. intros i Hi Hi2. rewrite Hn. destruct (Nat.eqb_spec i 0); [congruence|apply N2].
  - destruct (Z.ltb_spec (zlen w) (zlen p2)) as [Hw|Hw].
    + unfold indexAt. destruct (nth_error p2 (length w)) as [pw|] eqn:Ew;
        [|apply nth_error_None in Ew; unfold zlen in Hw; lia]. cbn [gbind].
      destruct (0 <? pw).
      * destruct (setAt_spec p2 (length w) 0) as (l' & E' & El & Hn); [unfold zlen in Hw; lia|]. rewrite E'. cbn [gbind]. exists l'.
        split; [exact HP|]. split; [reflexivity|]. intros i Hi Hi2. rewrite Hn. destruct (Nat.eqb_spec i (length w)); [congruence|apply N2].
      * exists p2. split; [exact HP|]. split; [reflexivity|]. intros i _ _. apply N2.
    + exists p2. split; [exact HP|]. split; [reflexivity|]. intros i _ _. apply N2.
Qed.

Lemma breakWord_cases u d o w :
  breakWord u d o w = Ret [w] \/ exists pos, breakWord u d o w = splitAtPositions o w (zlen w) pos.
Proof.
  destruct (containsHyphen w) eqn:E1; [left; unfold breakWord; rewrite E1; reflexivity|].
  destruct (Z.ltb_spec (zlen w) (o_minLength o)) as [E2|E2].
  - left. unfold breakWord. rewrite E1. destruct (Z.ltb_spec (zlen w) (o_minLength o)); [reflexivity|lia].
  - right. destruct (isException d w) as [pos|] eqn:E3.
    + exists pos. unfold breakWord. rewrite E1, E3. destruct (Z.ltb_spec (zlen w) (o_minLength o)); [lia|reflexivity].
    + destruct (breakWord_positions u d o w E1 E2 E3) as (P & pos & _ & E & _). eauto.
Qed.

(** C36, C37, C42 *)
Lemma breakWord_lossless u d o w : 0 <= o_minRight o ->
  exists parts, breakWord u d o w = Ret parts /\ parts <> [] /\ concat parts = w /\
    partsOk (o_minLeft o) (o_minRight o) parts.
Proof.
  intros Hr. destruct (breakWord_cases u d o w) as [E|[pos E]].
  - exists [w]. split; [exact E|]. split; [discriminate|]. split; [apply app_nil_r|].
    intros [|x [|y pre]] q post Eq Hp; cbn in Eq; try discriminate. injection Eq as <- <-. congruence.
  - rewrite E, splitAt_scan by exact Hr. eexists. split; [reflexivity|]. split; [apply cutAt_nonnil|].
    split; [apply concat_cutAt|]. apply scan_partsOk; lia.
Qed.

(** C38 *)
Lemma breakWord_whole u d o w : Exists (fun r => isHyphenRune r = true) w \/ zlen w < o_minLength o ->
  breakWord u d o w = Ret [w].
Proof.
  intros H. unfold breakWord.
  assert (containsHyphen w || (zlen w <? o_minLength o) = true) as ->; [|reflexivity].
  apply orb_true_iff. destruct H as [H|H]; [left|right; apply Z.ltb_lt; exact H].
  unfold containsHyphen. apply existsb_exists. apply Exists_exists in H. exact H.
Qed.

(** C39, any length: what the growing table of positions lets through *)
Lemma tops_reaches u d w P i : wellFormed d -> (0 < i)%nat ->
  tops (fun a pp => (a < length w)%nat /\ In pp (isPattern u d a w)) P ->
  (i + 2 < length P)%nat <-> (i < 28)%nat \/ reaches (get (d_patterns d)) (wordDots u w) (length w) (i + 2).
Proof.
  intros Hwf Hi (T1 & T2 & T3 & T4 & T5). split.
  - intros H. destruct T4 as [T4|(v & T40 & a & pp & [Ha Hin] & Hle & Hn)]; [left; lia|right].
    apply isPattern_in in Hin; [|exact Ha]. destruct Hin as (pre & k & post & Hd & Hl & Hk & _ & Hg).
    exists pre, k, post, pp. assert (length P - 1 - a < length pp)%nat by (apply nth_error_Some; congruence).
    assert (pp <> []) by (destruct pp; [cbn in *; lia|discriminate]).
    repeat split; try assumption; lia.
  - intros [H|(pre & k & post & digits & Hd & Hk & Hg & Hdg & Hp & Hr)]; [lia|].
    assert (0 < length digits)%nat by (destruct digits; [congruence|cbn; lia]).
    destruct (nth_error digits (length digits - 1)) as [v|] eqn:E.
    + destruct (T2 (length pre + length digits - 1)%nat v) as [_ Hlt]; [|lia].
      exists (length pre), digits. split; [split; [exact Hp|]|].
      * apply isPattern_in; [exact Hp|]. exists pre, k, post. repeat split; try assumption.
        intros H0. specialize (Hwf _ _ Hg). lia.
      * specialize (Hwf _ _ Hg).
        split; [lia|]. replace (length pre + length digits - 1 - length pre)%nat with (length digits - 1)%nat by lia. exact E.
    + apply nth_error_None in E. destruct digits; [cbn in Hr; lia|cbn in E; lia].
Qed.


Lemma breakWord_liang_gen u d o w :
  wellFormed d -> containsHyphen w = false -> o_minLength o <= zlen w -> isException d w = None ->
  1 <= o_minLeft o -> 2 <= o_minRight o ->
  exists allowed : nat -> bool,
    (forall i, (0 < i)%nat -> o_minRight o <= zlen w - Z.of_nat i ->
       exists m, greatest (get (d_patterns d)) (wordDots u w) (S i) m /\
         (allowed i = true <-> Z.odd m = true /\
            ((i < 28)%nat \/ reaches (get (d_patterns d)) (wordDots u w) (length w) (i + 2)))) /\
    breakWord u d o w = Ret (cutAt w 0 (keep allowed (o_minLeft o) (o_minRight o) (length w))).
Proof.
  intros Hwf H1 H2 H3 Hl Hr. destruct (breakWord_positions u d o w H1 H2 H3) as (P & pos & HP & E & Hn).
  pose proof HP as HT. destruct HP as (T1 & T2 & T3 & T4 & T5).
  exists (fun i => Z.odd (nth i pos 0)). split.
  - intros i Hi Hm. unfold zlen in Hm. exists (nth (S i) P 0). split.
    + split; [|split; [apply T1|]].
      * intros v Hv. apply T2. apply contrib_gives; [exact Hwf|lia|exact Hv].
      * destruct (T3 (S i)) as [T|T]; [left; exact T|right]. apply (contrib_gives u d w); [exact Hwf|lia|exact T].
    + rewrite <- (tops_reaches u d w P i Hwf Hi HT). rewrite Hn by lia.
      destruct (Nat.ltb_spec (S i) (length P - 1)); split; try (intros; lia); intros H'; try (split; [exact H'|lia]);
        try discriminate H'; destruct H' as [H' ?]; try lia; exact H'.
  - rewrite E. apply splitAt_keep; lia.
Qed.

Lemma breakWord_liang u d o w :
  wellFormed d -> containsHyphen w = false -> o_minLength o <= zlen w -> isException d w = None ->
  1 <= o_minLeft o -> 2 <= o_minRight o -> zlen w <= 27 + o_minRight o ->
  exists allowed : nat -> bool,
    (forall i, (0 < i)%nat -> o_minRight o <= zlen w - Z.of_nat i ->
       exists m, greatest (get (d_patterns d)) (wordDots u w) (S i) m /\ allowed i = Z.odd m) /\
    breakWord u d o w = Ret (cutAt w 0 (keep allowed (o_minLeft o) (o_minRight o) (length w))).
Proof.
  intros Hwf H1 H2 H3 Hl Hr Hlen. destruct (breakWord_liang_gen u d o w Hwf H1 H2 H3 Hl Hr) as (al & Ha & E).
  exists al. split; [|exact E]. intros i Hi Hm. destruct (Ha i Hi Hm) as (m & Hg & Hal). exists m. split; [exact Hg|].
  assert (i < 28)%nat as Hs by lia. apply eq_true_iff_eq. rewrite Hal. tauto.
Qed.

(** C40 *)
Lemma breakWord_exception u d o w pos :
  containsHyphen w = false -> o_minLength o <= zlen w -> isException d w = Some pos ->
  1 <= o_minLeft o -> 1 <= o_minRight o ->
  breakWord u d o w = Ret (cutAt w 0 (keep (fun i => Z.odd (nth i pos 0)) (o_minLeft o) (o_minRight o) (length w))).
Proof.
  intros H1 H2 H3 Hl Hr. unfold breakWord. rewrite H1, H3. destruct (Z.ltb_spec (zlen w) (o_minLength o)); [lia|]. cbn [orb].
  apply splitAt_keep; assumption.
Qed.

(** ** Exceptions, with syllables long enough *)
Fixpoint cumul (i : nat) (ss : list (list rune)) : list nat :=
  match ss with [] => [] | s :: ss' => i :: cumul (i + length s) ss' end.

Lemma scan_zeros o n (s : list rune) : forall rest i prev, scan o n (zeros s ++ rest) i prev = scan o n rest (i + length s) prev.
Proof.
  induction s as [|r s IH]; intros rest i prev; cbn [zeros map app scan length].
  - rewrite Nat.add_0_r. reflexivity.
  - cbn [Z.odd andb]. change (map (fun _ => 0) s) with (zeros s). rewrite IH. f_equal. lia.
Qed.

(** every syllable but the last has at least [minL] runes, the last one [minR] *)
Fixpoint longEnough (minL minR : Z) (s : list rune) (ss : list (list rune)) : Prop :=
  match ss with
  | [] => minR <= zlen s
  | s' :: ss' => minL <= zlen s /\ longEnough minL minR s' ss'
  end.

Lemma longEnough_total minL minR ss : forall s, longEnough minL minR s ss -> minR <= zlen (concat (s :: ss)).
Proof.
  induction ss as [|s' ss IH]; intros s H; cbn [concat longEnough] in *; unfold zlen in *.
  - rewrite app_nil_r. exact H.
  - destruct H as [_ H]. apply IH in H. cbn [concat] in H. rewrite app_length. unfold zlen in H. lia.
Qed.

Lemma scan_syllables o ss : forall s n i prev, Forall (fun s => s <> []) (s :: ss) ->
  longEnough (o_minLeft o) (o_minRight o) s ss -> o_minLeft o <= Z.of_nat i - Z.of_nat prev ->
  n = (i + length (concat (s :: ss)))%nat ->
  scan o n (flat_map (fun s => 1 :: zeros (tl s)) (s :: ss)) i prev = cumul i (s :: ss).
Proof.
  induction ss as [|s' ss IH]; intros s n i prev Hne Hlong Hl Hn; cbn [flat_map app scan cumul].
  - cbn [Z.odd andb]. destruct (Z.leb_spec (o_minLeft o) (Z.of_nat i - Z.of_nat prev)); [|lia]. cbn [andb].
    cbn [concat] in Hn. rewrite app_nil_r in Hn. cbn [longEnough] in Hlong. unfold zlen in Hlong.
    destruct (Z.leb_spec (o_minRight o) (Z.of_nat n - Z.of_nat i)); [|lia].
    rewrite app_nil_r. rewrite <- (app_nil_r (zeros (tl s))), scan_zeros. reflexivity.
  - cbn [Z.odd andb]. destruct (Z.leb_spec (o_minLeft o) (Z.of_nat i - Z.of_nat prev)); [|lia]. cbn [andb].
    pose proof (longEnough_total _ _ _ _ Hlong) as Ht. unfold zlen in Ht.
    destruct (Z.leb_spec (o_minRight o) (Z.of_nat n - Z.of_nat i)); [|lia].
    inversion Hne; subst x l. destruct s as [|r s]; [congruence|]. cbn [tl]. destruct Hlong as [Hs Hlong].
    rewrite scan_zeros. replace (S i + length s)%nat with (i + length (r :: s))%nat by (cbn [length]; lia).
    change (1 :: zeros (tl s') ++ flat_map (fun s => 1 :: zeros (tl s)) ss)
      with (flat_map (fun s => 1 :: zeros (tl s)) (s' :: ss)).
    rewrite (IH s' n (i + length (r :: s))%nat i); [reflexivity|assumption|exact Hlong|unfold zlen in Hs; lia|].
    rewrite Hn. change (concat ((r :: s) :: s' :: ss)) with ((r :: s) ++ concat (s' :: ss)). rewrite app_length. lia.
Qed.
Lemma cut_cumul ss : forall s from, cutAt (concat (s :: ss)) from (cumul (from + length s) ss) = s :: ss.
Proof.
  induction ss as [|s' ss IH]; intros s from; cbn [cumul cutAt].
  - cbn [concat]. rewrite app_nil_r. reflexivity.
  - change (concat (s :: s' :: ss)) with (s ++ concat (s' :: ss)).
    replace (from + length s - from)%nat with (length s) by lia.
    rewrite firstn_app_exact, skipn_app_exact by reflexivity. rewrite IH. reflexivity.
Qed.
Lemma mask_cuts o s ss : 1 <= o_minLeft o -> Forall (fun s => s <> []) (s :: ss) -> longEnough (o_minLeft o) (o_minRight o) s ss ->
  cutAt (concat (s :: ss)) 0 (scan o (length (concat (s :: ss))) (mask s ss) 0 0) = s :: ss.
Proof.
  intros Hl Hne Hlong. unfold mask. rewrite scan_zeros. cbn [Nat.add]. destruct ss as [|s' ss].
  - cbn [flat_map scan]. apply (cut_cumul [] s 0).
  - destruct Hlong as [Hs Hlong]. inversion Hne; subst.
    rewrite scan_syllables; [apply (cut_cumul (s' :: ss) s 0)|assumption|exact Hlong|unfold zlen in Hs; lia|].
    change (concat (s :: s' :: ss)) with (s ++ concat (s' :: ss)). rewrite app_length. reflexivity.
Qed.

Lemma breakWord_syllables u d o s ss :
  containsHyphen (concat (s :: ss)) = false -> o_minLength o <= zlen (concat (s :: ss)) ->
  isException d (concat (s :: ss)) = Some (mask s ss) ->
  1 <= o_minLeft o -> 0 <= o_minRight o -> Forall (fun s => s <> []) (s :: ss) ->
  longEnough (o_minLeft o) (o_minRight o) s ss ->
  breakWord u d o (concat (s :: ss)) = Ret (s :: ss).
Proof.
  intros H1 H2 H3 Hl Hr Hne Hlong. unfold breakWord. rewrite H1, H3.
  destruct (Z.ltb_spec (zlen (concat (s :: ss))) (o_minLength o)); [lia|]. cbn [orb].
  rewrite splitAt_scan by exact Hr. rewrite mask_cuts by assumption. reflexivity.
Qed.

(** ** Letter case *)
Lemma pattern_loop_lower u d w1 w2 : map (toLower u) w1 = map (toLower u) w2 -> forall frag,
  pattern_loop u d w1 frag = pattern_loop u d w2 frag.
Proof.
  revert w2. induction w1 as [|a w1 IH]; intros [|b w2] H frag; try discriminate; [reflexivity|].
  cbn in H. injection H as H0 H. cbn [pattern_loop]. rewrite H0, (IH _ H). reflexivity.
Qed.
Lemma isPattern_lower u d w1 w2 a : map (toLower u) w1 = map (toLower u) w2 -> isPattern u d a w1 = isPattern u d a w2.
Proof.
  intros H. unfold isPattern. destruct a as [|a]; apply pattern_loop_lower; [exact H|].
  rewrite <- !skipn_map, H. reflexivity.
Qed.
Lemma positions_lower u d w1 w2 : map (toLower u) w1 = map (toLower u) w2 -> forall n i P,
  positions_loop u d w1 n i P = positions_loop u d w2 n i P.
Proof.
  intros H. induction n as [|n IH]; intros i P; cbn [positions_loop]; [reflexivity|].
  rewrite (isPattern_lower u d w1 w2 i H). destruct (match isPattern u d i w2 with [] => _ | _ => _ end); [apply IH|reflexivity].
Qed.
Lemma cutAt_lengths cuts : forall w1 w2 from, length w1 = length w2 ->
  map (@length rune) (cutAt w1 from cuts) = map (@length rune) (cutAt w2 from cuts).
Proof.
  induction cuts as [|c cuts IH]; intros w1 w2 from H; cbn [cutAt map]; [rewrite H; reflexivity|].
  rewrite !firstn_length, H. f_equal. apply IH. rewrite !skipn_length, H. reflexivity.
Qed.
Lemma breakWord_case u d o w1 w2 :
  0 <= o_minRight o -> map (toLower u) w1 = map (toLower u) w2 ->
  (forall r, isHyphenRune (toLower u r) = isHyphenRune r) ->
  isException d w1 = None -> isException d w2 = None ->
  exists p1 p2, breakWord u d o w1 = Ret p1 /\ breakWord u d o w2 = Ret p2 /\
    map (@length rune) p1 = map (@length rune) p2.
Proof.
  intros Hr Hlow Hhyp E1 E2.
  assert (length w1 = length w2) as Hlen by (rewrite <- (map_length (toLower u) w1), Hlow, map_length; reflexivity).
  assert (containsHyphen w1 = containsHyphen w2) as Hc.
  { unfold containsHyphen. clear - Hlow Hhyp. revert w2 Hlow.
    induction w1 as [|a w1 IH]; intros [|b w2] H; try discriminate; [reflexivity|].
    cbn in H. injection H as H0 H. cbn [existsb]. rewrite <- (Hhyp a), H0, Hhyp, (IH _ H). reflexivity. }
  unfold breakWord. rewrite <- Hc, E1, E2. unfold zlen. rewrite <- Hlen.
  destruct (containsHyphen w1 || (Z.of_nat (length w1) <? o_minLength o)).
  - exists [w1], [w2]. cbn. rewrite Hlen. auto.
  - rewrite (positions_lower u d w1 w2 Hlow).
    destruct (positions_all u d w2) as (P & EP & HP). rewrite <- Hlen in EP. rewrite EP. cbn [gbind].
    fold (zlen P). rewrite slice_tail_init by apply HP. cbn [gbind].
    set (p2 := firstn (length P - 2) (skipn 1 P)).
    assert (forall pos, exists q1 q2, splitAtPositions o w1 (Z.of_nat (length w1)) pos = Ret q1 /\
       splitAtPositions o w2 (Z.of_nat (length w1)) pos = Ret q2 /\ map (@length rune) q1 = map (@length rune) q2) as Hs.
    { intros pos. exists (cutAt w1 0 (scan o (length w1) pos 0 0)), (cutAt w2 0 (scan o (length w1) pos 0 0)).
      split; [apply splitAt_scan, Hr|]. split; [rewrite Hlen; apply splitAt_scan, Hr|]. apply cutAt_lengths, Hlen. }
    assert (length p2 = (length P - 2)%nat /\ (30 <= length P)%nat) as [L2 L3].
    { unfold p2. rewrite firstn_length, skipn_length. pose proof (proj2 (proj2 (proj2 (proj2 HP)))). lia. }
    unfold indexAt at 1 3. destruct (nth_error p2 0) as [p0|] eqn:E0; [|apply nth_error_None in E0; lia]. cbn [gbind].
    destruct (0 <? p0).
    + destruct (setAt_spec p2 0 0) as (l' & -> & _); [lia|]. cbn [gbind]. apply Hs.
    + destruct (Z.ltb_spec (Z.of_nat (length w1)) (Z.of_nat (length p2))); [|cbn [gbind]; apply Hs].
      unfold indexAt. destruct (nth_error p2 (length w1)) as [pw|] eqn:Ew; [|apply nth_error_None in Ew; lia]. cbn [gbind].
      destruct (0 <? pw); [|cbn [gbind]; apply Hs].
      destruct (setAt_spec p2 (length w1) 0) as (l' & -> & _); [lia|]. cbn [gbind]. apply Hs.
Qed.
