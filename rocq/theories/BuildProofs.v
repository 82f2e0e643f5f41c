(** build_tables.go *)
From Verif Require Import Base Tables Width SpecWidth WidthProofs BuildTables SpecTables.

Fixpoint merge (a : interval) (t : table) : table :=
  match t with
  | [] => [a]
  | b :: t' => if snd a + 1 =? fst b then merge (fst a, snd b) t' else a :: merge b t'
  end.
Lemma skipn_done {A} (d : list A) a t : skipn (S (length d)) (d ++ a :: t) = t.
Proof. induction d as [|x d IH]; [reflexivity|]. cbn [length app]. exact IH. Qed.
Lemma firstn_done {A} (d t : list A) : firstn (length d) (d ++ t) = d.
Proof. induction d as [|x d IH]; [now destruct t|]. cbn. now rewrite IH. Qed.
Lemma nth_done {A} (d : list A) a t : nth_error (d ++ a :: t) (length d) = Some a.
Proof. induction d as [|x d IH]; [reflexivity|exact IH]. Qed.
Lemma nth_next {A} (d : list A) a t : nth_error (d ++ a :: t) (S (length d)) = nth_error t 0.
Proof. induction d as [|x d IH]; [reflexivity|exact IH]. Qed.
Lemma shapeup_merge t : forall fuel done a, (length t <= fuel)%nat -> shapeup_loop fuel (length done) (done ++ a :: t) = done ++ merge a t.
Proof.
  induction t as [|b t IH]; intros fuel done a Hf.
  - destruct fuel as [|fuel]; [reflexivity|]. cbn [shapeup_loop merge]. rewrite nth_done, nth_next. reflexivity.
  - cbn [length] in Hf. destruct fuel as [|fuel]; [lia|]. cbn [shapeup_loop merge]. rewrite nth_done, nth_next. cbn [nth_error].
    destruct (snd a + 1 =? fst b).
    + rewrite firstn_done, skipn_done. cbn [setLo]. apply IH. lia.
    + replace (S (length done)) with (length (done ++ [a])) by (rewrite app_length; cbn; lia).
      replace (done ++ a :: b :: t) with ((done ++ [a]) ++ b :: t) by now rewrite <- app_assoc.
      rewrite IH by lia. now rewrite <- app_assoc.
Qed.
Lemma shapeup_cons a t : shapeup (a :: t) = merge a t.
Proof. unfold shapeup. apply (shapeup_merge t _ []). cbn. lia. Qed.

Lemma member_cons r a t : member r (a :: t) <-> inInterval r a \/ member r t.
Proof. unfold member. split.
  - intros (iv & [<-|H] & K); [now left|right; eauto].
  - intros [H|(iv & H & K)]; [exists a|exists iv]; cbn; auto. Qed.
Lemma merge_member r t : forall a, fst a <= snd a -> Forall (fun iv => fst iv <= snd iv) t -> (member r (merge a t) <-> member r (a :: t)).
Proof.
  induction t as [|b t IH]; intros a Ha Ht; [reflexivity|]. inversion Ht; subst. cbn [merge]. destruct (Z.eqb_spec (snd a + 1) (fst b)) as [E|E].
  - rewrite IH; [|cbn; lia|assumption]. rewrite !member_cons. unfold inInterval. cbn [fst snd]. intuition lia.
  - rewrite member_cons, IH by assumption. now rewrite (member_cons r a).
Qed.
Lemma shapeup_member r t : Forall (fun iv => fst iv <= snd iv) t -> (member r (shapeup t) <-> member r t).
Proof. destruct t as [|a t]; intros H; [reflexivity|]. rewrite shapeup_cons. inversion H; subst. now apply merge_member. Qed.

Lemma sorted_proper t : sorted t -> Forall (fun iv => fst iv <= snd iv) t.
Proof. induction 1; [constructor|constructor; [assumption|constructor]|constructor; assumption]. Qed.
Lemma gapped_sorted t : gapped t -> sorted t.
Proof. induction 1; constructor; auto; lia. Qed.
Lemma merge_head a t : exists h x, merge a t = (fst a, h) :: x.
Proof. revert a. induction t as [|b t IH]; intros [lo hi]; cbn [merge]; [eauto|]. destruct (_ =? _); [|cbn; eauto]. cbn. destruct (IH (lo, snd b)) as (h & x & E). rewrite E. cbn. eauto. Qed.
Lemma merge_gapped t : forall a, sorted (a :: t) -> gapped (merge a t).
Proof.
  induction t as [|b t IH]; intros a H; [constructor; inversion H; assumption|]. inversion H as [| |? ? ? Ha Hab Hb]; subst. cbn [merge].
  destruct (Z.eqb_spec (snd a + 1) (fst b)) as [E|E].
  - apply IH. inversion Hb; subst; constructor; cbn [fst snd]; auto; lia.
  - specialize (IH b Hb). destruct (merge_head b t) as (h & x & Em). rewrite Em in *. constructor; cbn [fst]; [assumption|lia|exact IH].
Qed.
Lemma shapeup_gapped t : sorted t -> gapped (shapeup t).
Proof. destruct t as [|a t]; intros H; [constructor|]. rewrite shapeup_cons. now apply merge_gapped. Qed.

Lemma gapped_least a t r : gapped (a :: t) -> member r (a :: t) -> fst a <= r.
Proof.
  revert a. induction t as [|b t IH]; intros a H; rewrite member_cons; intros [K|K].
  - apply K.
  - destruct K as (? & [] & _).
  - apply K.
  - inversion H; subst. specialize (IH b H5 K). lia.
Qed.
Lemma gapped_tail a t : gapped (a :: t) -> gapped t.
Proof. inversion 1; subst; [constructor|assumption]. Qed.
Lemma gapped_above a t r : gapped (a :: t) -> member r t -> snd a + 1 < r.
Proof. inversion 1; subst; [intros (? & [] & _)|]. intros K. apply (gapped_least _ _ r) in K; [lia|assumption]. Qed.
Lemma gapped_proper a t : gapped (a :: t) -> fst a <= snd a.
Proof. inversion 1; assumption. Qed.
Lemma gapped_unique t1 : forall t2, gapped t1 -> gapped t2 -> (forall r, member r t1 <-> member r t2) -> t1 = t2.
Proof.
  induction t1 as [|[a1 b1] t1 IH]; intros [|[a2 b2] t2] H1 H2 E.
  - reflexivity.
  - exfalso. assert (member a2 ((a2, b2) :: t2)) as K by (apply member_cons; left; apply gapped_proper in H2; cbn in *; split; cbn; lia).
    apply E in K. destruct K as (? & [] & _).
  - exfalso. assert (member a1 ((a1, b1) :: t1)) as K by (apply member_cons; left; apply gapped_proper in H1; cbn in *; split; cbn; lia).
    apply E in K. destruct K as (? & [] & _).
  - pose proof (gapped_proper _ _ H1) as P1. pose proof (gapped_proper _ _ H2) as P2. cbn [fst snd] in P1, P2.
    assert (a1 = a2) as <-.
    { assert (member a1 ((a2, b2) :: t2)) as K1 by (apply E, member_cons; left; split; cbn; lia).
      assert (member a2 ((a1, b1) :: t1)) as K2 by (apply E, member_cons; left; split; cbn; lia).
      apply (gapped_least _ _ _ H2) in K1. apply (gapped_least _ _ _ H1) in K2. cbn [fst] in *. lia. }
    assert (b1 = b2) as <-.
    { destruct (Z.lt_trichotomy b1 b2) as [L|[L|L]]; [exfalso|exact L|exfalso].
      - assert (member (b1 + 1) ((a1, b1) :: t1)) as K by (apply E, member_cons; left; split; cbn; lia).
        apply member_cons in K. destruct K as [[_ K]|K]; [cbn in K; lia|]. apply (gapped_above _ _ _ H1) in K. cbn in K. lia.
      - assert (member (b2 + 1) ((a1, b2) :: t2)) as K by (apply E, member_cons; left; split; cbn; lia).
        apply member_cons in K. destruct K as [[_ K]|K]; [cbn in K; lia|]. apply (gapped_above _ _ _ H2) in K. cbn in K. lia. }
    f_equal. apply IH; [eapply gapped_tail; eauto|eapply gapped_tail; eauto|]. intros r. specialize (E r). rewrite !member_cons in E.
    split; intros K.
    + pose proof (gapped_above _ _ _ H1 K) as L. cbn in L. destruct E as [E _]. destruct (E (or_intror K)) as [[_ F]|F]; [cbn in F; lia|exact F].
    + pose proof (gapped_above _ _ _ H2 K) as L. cbn in L. destruct E as [_ E]. destruct (E (or_intror K)) as [[_ F]|F]; [cbn in F; lia|exact F].
Qed.

(** deciding [gapped] *)
Fixpoint gappedb (t : table) : bool :=
  match t with
  | [] => true
  | a :: t' => (fst a <=? snd a) && match t' with [] => true | b :: _ => snd a + 1 <? fst b end && gappedb t'
  end.
Lemma gappedb_sound t : gappedb t = true -> gapped t.
Proof.
  induction t as [|a t IH]; [constructor|]. cbn [gappedb]. rewrite !andb_true_iff. intros [[H1 H2] H3]. apply Z.leb_le in H1.
  destruct t as [|b t]; [now constructor|]. apply Z.ltb_lt in H2. constructor; auto.
Qed.
Lemma shapeup_canonical p t : sorted p -> gapped t -> (forall r, member r p <-> member r t) -> shapeup p = t.
Proof.
  intros Hp Ht E. apply gapped_unique; [now apply shapeup_gapped|exact Ht|]. intros r. rewrite shapeup_member by now apply sorted_proper. apply E.
Qed.
Lemma tables_gapped : Forall gapped [combining; doublewidth; ambiguous; narrow; neutral; emoji].
Proof. repeat (constructor; [apply gappedb_sound; vm_compute; reflexivity|]). constructor. Qed.

(** ** from the lines of the file *)
Lemma sorted_above a t iv : sorted (a :: t) -> In iv t -> snd a < fst iv /\ fst iv <= snd iv.
Proof.
  revert a. induction t as [|b t IH]; intros a H; [intros []|]. inversion H as [| |? ? ? Ha Hab Hb]; subst. intros [<-|K].
  - split; [assumption|]. inversion Hb; assumption.
  - destruct (IH b Hb K) as [L1 L2]. inversion Hb; subst; [destruct K|]. lia.
Qed.
Lemma sorted_build a t : fst a <= snd a -> Forall (fun iv => snd a < fst iv) t -> sorted t -> sorted (a :: t).
Proof. intros H1 H2 H3. destruct t as [|b t]; [now constructor|]. inversion H2; subst. now constructor. Qed.
Lemma sorted_tail a t : sorted (a :: t) -> sorted t.
Proof. inversion 1; subst; [constructor|assumption]. Qed.
Lemma select_sorted f ls : sorted (map pl_range ls) -> sorted (map pl_range (filter f ls)).
Proof.
  induction ls as [|l ls IH]; intros H; [constructor|]. cbn [map filter] in *. specialize (IH (sorted_tail _ _ H)).
  destruct (f l); [|exact IH]. cbn [map]. apply sorted_build; [inversion H; assumption| |exact IH].
  apply Forall_forall. intros iv Hi. apply in_map_iff in Hi. destruct Hi as (x & <- & Hx). apply filter_In in Hx.
  apply (sorted_above _ _ _ H). apply in_map, Hx.
Qed.
Definition listed (f : propLine -> bool) (ls : list propLine) (r : rune) : Prop := exists l, In l ls /\ f l = true /\ inInterval r (pl_range l).
Lemma select_spec f ls : sorted (map pl_range ls) -> gapped (select f ls) /\ forall r, member r (select f ls) <-> listed f ls r.
Proof.
  intros H. apply (select_sorted f) in H. split; [now apply shapeup_gapped|]. intros r. unfold select.
  rewrite shapeup_member by now apply sorted_proper. unfold member, listed. split.
  - intros (iv & Hi & K). apply in_map_iff in Hi. destruct Hi as (x & <- & Hx). apply filter_In in Hx. exists x. tauto.
  - intros (l & Hl & Hf & K). exists (pl_range l). split; [|exact K]. apply in_map, filter_In. now split.
Qed.
Lemma listed_once ls l1 l2 r : sorted (map pl_range ls) -> In l1 ls -> In l2 ls -> inInterval r (pl_range l1) -> inInterval r (pl_range l2) -> l1 = l2.
Proof.
  induction ls as [|l ls IH]; [intros _ []|]. intros H H1 H2 K1 K2. unfold inInterval in *. cbn [map] in H. destruct H1 as [<-|H1], H2 as [<-|H2].
  - reflexivity.
  - apply (in_map pl_range) in H2. pose proof (sorted_above _ _ _ H H2). lia.
  - apply (in_map pl_range) in H1. pose proof (sorted_above _ _ _ H H1). lia.
  - apply IH; auto. eapply sorted_tail; eauto.
Qed.
Lemma select_disjoint f g ls : sorted (map pl_range ls) -> (forall l, f l = true -> g l = true -> False) -> disjoint (select f ls) (select g ls).
Proof.
  intros H D r [K1 K2]. apply (select_spec f ls H) in K1. apply (select_spec g ls H) in K2.
  destruct K1 as (l1 & A1 & B1 & C1), K2 as (l2 & A2 & B2 & C2). pose proof (listed_once ls l1 l2 r H A1 A2 C1 C2) as <-. eauto.
Qed.

Lemma eastasian_spec ls : sorted (map pl_range ls) ->
  let t := eastasian ls in
  Forall gapped [wt_combining t; wt_doublewidth t; wt_ambiguous t; wt_narrow t; wt_neutral t] /\
  ForallOrdPairs disjoint [wt_doublewidth t; wt_ambiguous t; wt_narrow t; wt_neutral t] /\
  forall r,
    (member r (wt_combining t) <-> exists l, In l ls /\ inInterval r (pl_range l) /\ pl_combining l = true) /\
    (member r (wt_doublewidth t) <-> exists l, In l ls /\ inInterval r (pl_range l) /\ (pl_class l = ClassW \/ pl_class l = ClassF)) /\
    (member r (wt_ambiguous t) <-> exists l, In l ls /\ inInterval r (pl_range l) /\ pl_class l = ClassA) /\
    (member r (wt_narrow t) <-> exists l, In l ls /\ inInterval r (pl_range l) /\ pl_class l = ClassNa) /\
    (member r (wt_neutral t) <-> exists l, In l ls /\ inInterval r (pl_range l) /\ pl_class l = ClassN).
Proof.
  intros H t. subst t. unfold eastasian. cbn [wt_combining wt_doublewidth wt_ambiguous wt_narrow wt_neutral]. split; [|split].
  - repeat (constructor; [apply select_spec, H|]). constructor.
  - repeat constructor; apply select_disjoint; try exact H; intros l; destruct (pl_class l); discriminate.
  - intros r. repeat split; rewrite (proj2 (select_spec _ ls H) r); unfold listed; intros (l & A & B & C); exists l; (split; [exact A|]); split;
    solve [assumption | destruct (pl_class l); intuition congruence | destruct (pl_class l); auto; discriminate | rewrite C; reflexivity | destruct C as [C|C]; rewrite C; reflexivity].
Qed.

(** ** deciding [disjoint] on shipped tables *)
Definition apart (t1 t2 : table) : bool :=
  forallb (fun a => forallb (fun b => (snd a <? fst b) || (snd b <? fst a)) t2) t1.
Lemma apart_sound t1 t2 : apart t1 t2 = true -> disjoint t1 t2.
Proof.
  unfold apart. intros H r [(a & Ha & Ka) (b & Hb & Kb)]. rewrite forallb_forall in H. specialize (H a Ha). rewrite forallb_forall in H.
  specialize (H b Hb). unfold inInterval in *. apply orb_true_iff in H. destruct H as [H|H]; apply Z.ltb_lt in H; lia.
Qed.
Lemma tables_disjoint : ForallOrdPairs disjoint [doublewidth; ambiguous; narrow; neutral].
Proof. repeat constructor; apply apart_sound; vm_compute; reflexivity. Qed.

Lemma filter_sorted (f : interval -> bool) t : sorted t -> sorted (filter f t).
Proof.
  induction t as [|a t IH]; intros H; [constructor|]. cbn [filter]. specialize (IH (sorted_tail _ _ H)).
  destruct (f a); [|exact IH]. apply sorted_build; [inversion H; assumption| |exact IH].
  apply Forall_forall. intros iv Hi. apply filter_In in Hi. apply (sorted_above _ _ _ H), Hi.
Qed.
Lemma emoji_spec rs : sorted rs -> gapped (buildEmoji rs) /\
  forall r, member r (buildEmoji rs) <-> exists iv, In iv rs /\ inInterval r iv /\ 0xff <= snd iv.
Proof.
  intros H. apply (filter_sorted (fun iv => negb (snd iv <? 0xff))) in H. split; [now apply shapeup_gapped|]. intros r. unfold buildEmoji.
  rewrite shapeup_member by now apply sorted_proper. unfold member. split.
  - intros (iv & Hi & K). apply filter_In in Hi. destruct Hi as [Hi E]. apply negb_true_iff, Z.ltb_ge in E. exists iv. tauto.
  - intros (iv & Hi & K & E). exists iv. split; [|exact K]. apply filter_In. split; [exact Hi|]. apply negb_true_iff, Z.ltb_ge. exact E.
Qed.
