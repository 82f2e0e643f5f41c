(** Breaking a paragraph of fragments: the search of KP.v against the layouts of SpecKP.v. *)
From Verif Require Import Base Arith Unicode Split Attr KP Nodes Render SpecKP SpecGreedy KPProofs Frags Show.
From Coq Require Import Sorted.

Section Para.
Variable A : arith.
Variable L : laws A.
Variable lb : breaker A.
Notation F := (F A).
Notation fZ := (fZ A).
Notation rep := (rep A L).
Notation bnd := (bnd A L).
Notation node := (node A).
Notation o := (lb_opts lb).
Notation ko := (l_search (lb_opts lb)).
Notation rh := (l_renderHyphens (lb_opts lb)).
Notation softOn := (negb (feq A (l_hyphenPenalty (lb_opts lb)) (infinity A))).
Variable m : list rune -> Z.
Variable sp hy : Z.
Hypothesis Hglue : l_glueStretch o = fZ 6.
Hypothesis Hsp : rep (lb_spaceWidth lb) sp.
Hypothesis Hsp0 : 0 <= sp.
Hypothesis Hhy : rep (lb_hyphenWidth lb) hy.
Hypothesis Hhy0 : 0 <= hy <= 2 ^ 50.
Hypothesis Hhp : bnd 100 (l_hyphenPenalty o).
Hypothesis Hbad : bnd 20 (k_badness ko).
Hypothesis Hline : bnd 100 (k_line ko).
Hypothesis Hflag : bnd 100 (k_flagged ko).
Hypothesis Hfit : bnd 100 (k_fitness ko).
Notation atom := (atom A).
Notation goodAtom := (goodAtom A L m).
Notation atomNodes := (atomNodes A lb).
Notation nodesOf := (nodesOf A lb).
Notation isEnd := (isEnd A).
Notation cutOff := (cutOff A lb).
Notation mainOff := (mainOff A lb).
Notation boxOff := (boxOff A).
Notation cutStretch := (cutStretch A lb).
Notation BW := (BW A m sp).
Notation blockW := (blockW A m sp).

Variable ini : list atom.
Variable z : atom.
Notation atoms := (ini ++ [z]).
Hypothesis Hgood : Forall goodAtom atoms.
Hypothesis Hini : Forall (fun a => isEnd a = false) ini.
Hypothesis Hz : isEnd z = true.
Hypothesis HBW : BW atoms <= 2 ^ 50.
Notation nodes := (nodesOf atoms).

Definition start (j : nat) : nat := length (nodesOf (firstn j atoms)).
Definition cutPos (j i : nat) : Prop :=
  exists a off, nth_error atoms j = Some a /\ In off (cutOff a) /\ i = (start j + off)%nat.

Lemma good_nth j a : nth_error atoms j = Some a -> goodAtom a.
Proof. intros H. rewrite Forall_forall in Hgood. apply Hgood. now apply nth_error_In in H. Qed.
Lemma end_nth j a : nth_error atoms j = Some a -> isEnd a = true -> j = length ini /\ a = z.
Proof.
  intros H E. destruct (Nat.lt_ge_cases j (length ini)) as [Hl|Hl].
  - rewrite nth_error_app1 in H by exact Hl. apply nth_error_In in H. rewrite Forall_forall in Hini.
    rewrite (Hini a H) in E. discriminate.
  - rewrite nth_error_app2 in H by exact Hl. destruct (j - length ini)%nat eqn:Ej; cbn in H; [|now destruct n].
    split; [lia|congruence].
Qed.
Lemma nth_lt j a : nth_error atoms j = Some a -> (j <= length ini)%nat.
Proof.
  intros H. assert (nth_error atoms j <> None) as N by congruence. apply nth_error_Some in N.
  rewrite app_length in N. cbn in N. lia.
Qed.
Lemma last_atom : nth_error atoms (length ini) = Some z.
Proof. rewrite nth_error_app2, Nat.sub_diag by lia. reflexivity. Qed.
Lemma nodesOf_app a b : nodesOf (a ++ b) = nodesOf a ++ nodesOf b.
Proof. apply flat_map_app. Qed.
Lemma nodesOf_cons a b : nodesOf (a :: b) = atomNodes a ++ nodesOf b.
Proof. reflexivity. Qed.
Lemma split_at j a : nth_error atoms j = Some a ->
  nodes = nodesOf (firstn j atoms) ++ atomNodes a ++ nodesOf (skipn (S j) atoms).
Proof.
  intros H. rewrite <- nodesOf_cons, <- nodesOf_app. f_equal. rewrite <- (skipn_cons _ _ _ H). symmetry. apply firstn_skipn.
Qed.
Lemma start_S j a : nth_error atoms j = Some a -> start (S j) = (start j + length (atomNodes a))%nat.
Proof.
  intros H. unfold start. rewrite (firstn_S _ _ _ H), nodesOf_app, app_length. f_equal. cbn [Frags.nodesOf flat_map].
  unfold Frags.nodesOf. cbn [flat_map]. now rewrite app_nil_r.
Qed.
Lemma nth_block j a off : nth_error atoms j = Some a -> (off < length (atomNodes a))%nat ->
  nth_error nodes (start j + off) = nth_error (atomNodes a) off.
Proof.
  intros H Ho. rewrite (split_at j a H). unfold start.
  rewrite nth_error_app2 by lia. rewrite nth_error_app1 by lia. f_equal. lia.
Qed.
Lemma firstn_block j a off : nth_error atoms j = Some a -> (off <= length (atomNodes a))%nat ->
  firstn (start j + off) nodes = nodesOf (firstn j atoms) ++ firstn off (atomNodes a).
Proof.
  intros H Ho. rewrite (split_at j a H). unfold start. rewrite firstn_app_2. f_equal.
  rewrite firstn_app. replace (off - length (atomNodes a))%nat with 0%nat by lia. cbn [firstn]. apply app_nil_r.
Qed.
Lemma decode_list : forall (l : list atom) i, (i < length (nodesOf l))%nat ->
  exists j a off, nth_error l j = Some a /\ i = (length (nodesOf (firstn j l)) + off)%nat /\ (off < length (atomNodes a))%nat.
Proof.
  induction l as [|x l IH]; intros i Hi; [cbn in Hi; lia|]. rewrite nodesOf_cons, app_length in Hi.
  destruct (Nat.lt_ge_cases i (length (atomNodes x))) as [H|H].
  - exists 0%nat, x, i. auto.
  - destruct (IH (i - length (atomNodes x))%nat ltac:(lia)) as (j & a & off & H1 & H2 & H3).
    exists (S j), a, off. split; [exact H1|]. split; [|exact H3]. cbn [firstn]. rewrite nodesOf_cons, app_length. lia.
Qed.
Lemma decode i : (i < length nodes)%nat ->
  exists j a off, nth_error atoms j = Some a /\ i = (start j + off)%nat /\ (off < length (atomNodes a))%nat.
Proof. apply decode_list. Qed.
Lemma start_mono j k : (j <= k)%nat -> (start j <= start k)%nat.
Proof.
  intros H. unfold start. replace k with (j + (k - j))%nat by lia. generalize (k - j)%nat as d. intros d.
  rewrite <- (firstn_skipn j (firstn (j + d) atoms)), firstn_firstn, Nat.min_l by lia. rewrite nodesOf_app, app_length. lia.
Qed.
Lemma start_lt j k a off : nth_error atoms j = Some a -> (off < length (atomNodes a))%nat -> (j < k)%nat ->
  (start j + off < start k)%nat.
Proof. intros H Ho Hk. pose proof (start_mono (S j) k Hk). rewrite (start_S j a H) in H0. lia. Qed.

(** sums *)
Lemma BW_app a b : BW (a ++ b) = BW a + BW b.
Proof. unfold Frags.BW. now rewrite map_app, zsum_app. Qed.
Lemma blockW_nonneg a : goodAtom a -> 0 <= blockW a.
Proof. intros G. unfold Frags.blockW. pose proof (ga_w0 _ _ _ _ G). destruct (isSpaced (at_f A a)); lia. Qed.
Lemma BW_nonneg l : Forall goodAtom l -> 0 <= BW l.
Proof.
  intros H. apply zsum_nonneg. apply Forall_map. eapply Forall_impl; [|exact H]. intros a. apply blockW_nonneg.
Qed.
Lemma sumW_app a b : sumW A (a ++ b) = sumW A a + sumW A b.
Proof. unfold sumW. now rewrite map_app, zsum_app. Qed.
Lemma sumS_app a b : sumS A (a ++ b) = sumS A a + sumS A b.
Proof. unfold sumS. now rewrite map_app, zsum_app. Qed.
Lemma sumW_nodesOf l : Forall goodAtom l -> sumW A (nodesOf l) = BW l.
Proof.
  induction 1 as [|a l Ha Hl IH]; [reflexivity|]. rewrite nodesOf_cons, sumW_app, IH.
  rewrite (block_sumW A L lb m sp Hsp a Ha). reflexivity.
Qed.
Lemma sumS_nodesOf l : Forall (fun a => isEnd a = false) l -> sumS A (nodesOf l) = 0.
Proof.
  induction 1 as [|a l Ha Hl IH]; [reflexivity|]. rewrite nodesOf_cons, sumS_app, IH.
  rewrite (block_sumS A L lb Hglue a), Ha. reflexivity.
Qed.
Lemma good_firstn j : Forall goodAtom (firstn j atoms).
Proof. now apply Forall_firstn'. Qed.
Lemma noEnd_firstn j : (j <= length ini)%nat -> Forall (fun a => isEnd a = false) (firstn j atoms).
Proof. intros H. rewrite firstn_app. replace (j - length ini)%nat with 0%nat by lia. rewrite app_nil_r. now apply Forall_firstn'. Qed.
Lemma PW_block j a off : nth_error atoms j = Some a -> (off <= length (atomNodes a))%nat ->
  PW A nodes (start j + off) = BW (firstn j atoms) + sumW A (firstn off (atomNodes a)).
Proof.
  intros H Ho. unfold PW. rewrite (firstn_block j a off H Ho), sumW_app, sumW_nodesOf by apply good_firstn. reflexivity.
Qed.
Lemma PS_block j a off : nth_error atoms j = Some a -> (off <= length (atomNodes a))%nat ->
  PS A nodes (start j + off) = sumS A (firstn off (atomNodes a)).
Proof.
  intros H Ho. unfold PS. rewrite (firstn_block j a off H Ho), sumS_app, sumS_nodesOf; [reflexivity|].
  apply noEnd_firstn. now apply (nth_lt j a).
Qed.
Lemma good_nodes : Forall (goodNode A L) nodes.
Proof.
  assert (forall l, Forall goodAtom l -> Forall (goodNode A L) (nodesOf l)) as H; [|now apply H].
  induction 1 as [|a l Ha Hl IH]; [constructor|]. rewrite nodesOf_cons. apply Forall_app. split; [|exact IH].
  apply (good_block A L lb m sp hy); (assumption || lia).
Qed.
Lemma PW_le_all i : PW A nodes i <= BW atoms.
Proof.
  rewrite <- (sumW_nodesOf atoms Hgood). unfold PW. rewrite <- (firstn_skipn i nodes) at 2. rewrite sumW_app.
  assert (0 <= sumW A (skipn i nodes)); [|lia]. apply (sumW_nonneg A L). apply Forall_skipn', good_nodes.
Qed.
Lemma PS_all i : 0 <= PS A nodes i <= 10006.
Proof.
  destruct (Nat.lt_ge_cases i (length nodes)) as [H|H].
  - destruct (decode i H) as (j & a & off & Ha & -> & Ho). rewrite (PS_block j a off Ha) by lia.
    apply (block_partS A L lb Hglue).
  - unfold PS. rewrite firstn_all2 by lia. rewrite nodesOf_app, sumS_app, sumS_nodesOf by exact Hini. rewrite nodesOf_cons.
    rewrite sumS_app, (block_sumS A L lb Hglue z), Hz. cbn. lia.
Qed.

(** explored positions are the cuts *)
Lemma explored_block j a off : nth_error atoms j = Some a -> (off < length (atomNodes a))%nat ->
  explored A nodes (start j + off) = explored A (atomNodes a) off.
Proof.
  intros H Ho. unfold explored. rewrite (nth_block j a off H Ho).
  destruct (nth_error (atomNodes a) off) as [n|] eqn:En; [|reflexivity].
  destruct (n_type n) eqn:Et; try reflexivity. destruct off as [|off].
  - exfalso. unfold Frags.atomNodes, markNodes in En. destruct (f_mark (at_f A a)); cbn in En; injection En as <-; discriminate.
  - replace (start j + S off)%nat with (S (start j + off)) by lia. rewrite (nth_block j a off H) by lia. reflexivity.
Qed.
Lemma explored_lt_nodes i : explored A nodes i = true -> (i < length nodes)%nat.
Proof. apply explored_lt. Qed.
Lemma explored_iff i : explored A nodes i = true <-> exists j, cutPos j i.
Proof.
  split.
  - intros H. destruct (decode i (explored_lt_nodes i H)) as (j & a & off & Ha & -> & Ho). exists j, a, off.
    split; [exact Ha|]. split; [|reflexivity]. rewrite (explored_block j a off Ha Ho) in H.
    now apply (block_explored A L lb m a off (good_nth j a Ha)).
  - intros (j & a & off & Ha & Ho & ->). pose proof (good_nth j a Ha) as G.
    destruct (block_cut A L lb m hy Hglue Hhy a off G Ho) as (_ & _ & _ & Hoff).
    rewrite (explored_block j a off Ha) by lia. now apply (block_explored A L lb m a off G).
Qed.
Lemma cut_data j a off : nth_error atoms j = Some a -> In off (cutOff a) ->
  PW A nodes (start j + off) = BW (firstn j atoms) + m (f_text (at_f A a)) /\
  PS A nodes (start j + off) = cutStretch a off /\
  breakWidth A nodes (start j + off) = hyphW A lb hy a /\ (boxOff a < off < length (atomNodes a))%nat.
Proof.
  intros Ha Ho. pose proof (good_nth j a Ha) as G.
  destruct (block_cut A L lb m hy Hglue Hhy a off G Ho) as (H1 & H2 & H3 & H4).
  rewrite (PW_block j a off Ha), (PS_block j a off Ha) by lia. unfold breakWidth in *. rewrite (nth_block j a off Ha) by lia.
  rewrite H1, H2. auto.
Qed.

(** the node list ends with the forced break *)
Definition body : list node := nodesOf ini ++ removelast (atomNodes z).
Lemma nodes_body : nodes = body ++ [finNode A] /\ Forall (fun n => isForcedBreak n = false) body /\
  length body = (start (length ini) + mainOff z)%nat.
Proof.
  pose proof (good_nth _ _ last_atom) as Gz.
  destruct (block_end A L lb m z Gz Hz) as (l & E & Hl & Em). unfold body.
  assert (removelast (atomNodes z) = l) as -> by (rewrite E; apply removelast_last).
  split; [|split].
  - rewrite nodesOf_app, nodesOf_cons. change (nodesOf []) with (@nil node). rewrite app_nil_r, E. apply app_assoc.
  - apply Forall_app. split; [|exact Hl].
    assert (forall l', Forall (fun a => goodAtom a /\ isEnd a = false) l' -> Forall (fun n => isForcedBreak n = false) (nodesOf l')) as H.
    { induction 1 as [|a l' [Ha He] Hl' IH]; [constructor|]. rewrite nodesOf_cons. apply Forall_app. split; [|exact IH].
      apply (block_forced A L lb m Hhp a Ha He). }
    apply H. rewrite Forall_forall in Hini, Hgood |- *. intros a Ha. split; [apply Hgood, in_or_app; now left|now apply Hini].
  - unfold start. rewrite firstn_app, firstn_all, Nat.sub_diag, app_nil_r, app_length. lia.
Qed.
Notation last := (length body).
Lemma fin_forced : isForcedBreak (finNode A) = true.
Proof.
  unfold isForcedBreak, finNode. cbn [isPenalty n_type newPenalty n_penalty andb]. unfold minusInfinity.
  now rewrite (eq_small A L) by lia.
Qed.

(** next box *)
Lemma pos_le_last j a off : nth_error atoms j = Some a -> (off < length (atomNodes a))%nat -> (start j + off <= last)%nat.
Proof.
  intros H Ho. assert (nth_error nodes (start j + off) <> None) as N.
  { rewrite (nth_block j a off H Ho). now apply nth_error_Some. }
  apply nth_error_Some in N. rewrite (proj1 nodes_body), app_length in N. cbn [length] in N. lia.
Qed.
Lemma stop_box j b : nth_error atoms j = Some b ->
  exists n, nth_error nodes (start j + boxOff b) = Some n /\ stop A n = true /\ isBox n = true.
Proof.
  intros H. rewrite (nth_block j b _ H) by apply block_len. rewrite block_box. eexists. split; [reflexivity|]. split; reflexivity.
Qed.
Lemma sk_next j a off b : nth_error atoms j = Some a -> nth_error atoms (S j) = Some b ->
  (boxOff a < off < length (atomNodes a))%nat -> sk A nodes (start j + off) = (start (S j) + boxOff b)%nat.
Proof.
  intros Ha Hb Ho. destruct (stop_box (S j) b Hb) as (n & Hn & Sn & _).
  apply (sk_eq A nodes body (finNode A) (proj1 nodes_body) fin_forced _ _ n).
  - split; [pose proof (start_lt j (S j) a off Ha ltac:(lia) ltac:(lia)); lia|]. apply (pos_le_last (S j) b _ Hb). apply block_len.
  - exact Hn.
  - exact Sn.
  - intros r x Hr Hx. destruct (Nat.lt_ge_cases r (start (S j))) as [Hl|Hl].
    + rewrite (start_S j a Ha) in Hl. replace r with (start j + (r - start j))%nat in Hx by lia.
      rewrite (nth_block j a) in Hx by (assumption || lia).
      apply (block_post A L lb m Hhp a (r - start j) x (good_nth j a Ha)); [lia|exact Hx|].
      left. destruct (isEnd a) eqn:E; [|reflexivity]. destruct (end_nth j a Ha E) as [-> _].
      pose proof (nth_lt _ _ Hb). lia.
    + replace r with (start (S j) + (r - start (S j)))%nat in Hx by lia.
      pose proof (block_len A lb b) as Hlen.
      rewrite (nth_block (S j) b) in Hx by (assumption || lia).
      apply (block_pre A L lb b (r - start (S j)) x); [lia|exact Hx].
Qed.
Lemma sk_end off : (boxOff z < off < length (atomNodes z))%nat -> sk A nodes (start (length ini) + off) = last.
Proof.
  intros Ho. pose proof last_atom as Hlast. pose proof nodes_body as (Hn & _ & Hl).
  pose proof (good_nth _ _ Hlast) as Gz. destruct (block_end A L lb m z Gz Hz) as (l & El & _ & Em).
  assert (length (atomNodes z) = S (length l)) as Elen by (rewrite El, app_length; cbn; lia).
  apply (sk_eq A nodes body (finNode A) Hn fin_forced _ _ (finNode A)).
  - split; [lia|apply le_n].
  - apply nth_last. exact Hn.
  - unfold stop. now rewrite fin_forced, orb_true_r.
  - intros r x Hr Hx. replace r with (start (length ini) + (r - start (length ini)))%nat in Hx by lia.
    rewrite (nth_block _ z) in Hx by (assumption || lia).
    apply (block_post A L lb m Hhp z (r - start (length ini)) x Gz); [lia|exact Hx|]. right. lia.
Qed.
Lemma sk_0 a : nth_error atoms 0 = Some a -> sk A nodes 0 = boxOff a.
Proof.
  intros Ha. destruct (stop_box 0 a Ha) as (n & Hn & Sn & _). change (start 0 + boxOff a)%nat with (boxOff a) in Hn.
  apply (sk_eq A nodes body (finNode A) (proj1 nodes_body) fin_forced _ _ n).
  - split; [lia|]. change (boxOff a) with (start 0 + boxOff a)%nat. apply (pos_le_last 0 a _ Ha). apply block_len.
  - exact Hn.
  - exact Sn.
  - intros r x Hr Hx. pose proof (block_len A lb a) as Hlen. change r with (start 0 + r)%nat in Hx.
    rewrite (nth_block 0 a) in Hx by (assumption || lia). apply (block_pre A L lb a r x); [lia|exact Hx].
Qed.

(** line starts *)
Definition srcView (s : src) (k : nat) : Prop :=
  match s with None => k = 0%nat | Some p => exists j, cutPos j p /\ k = S j end.
Definition isFirst (s : src) : bool := match s with None => true | Some _ => false end.
Definition seg (k j : nat) : list atom := skipn k (firstn (S j) atoms).
Definition markW (b : bool) : Z := if b then 6 else 0.

Lemma pre_sums b : goodAtom b -> sumW A (firstn (boxOff b) (atomNodes b)) = 0 /\
  sumS A (firstn (boxOff b) (atomNodes b)) = markW (f_mark (at_f A b)).
Proof.
  intros G. unfold Frags.boxOff, Frags.atomNodes. destruct (f_mark (at_f A b)); [|split; reflexivity].
  unfold markNodes, sumW, sumS, addW, addS, zw, zs.
  cbn [app firstn map zsum isPenalty isGlue n_type newPenalty newGlue n_sums su_width su_stretch]. rewrite Hglue.
  rewrite !(fint_small A L) by lia. split; reflexivity.
Qed.
Lemma src_data s k b : srcView s k -> nth_error atoms k = Some b ->
  first A nodes s = (start k + boxOff b)%nat /\ tW A nodes s = BW (firstn k atoms) /\
  tS A nodes s = markW (negb (isFirst s) && f_mark (at_f A b)).
Proof.
  intros Hs Hb. destruct s as [p|]; cbn [srcView isFirst negb andb] in *.
  - destruct Hs as (j & (a & off & Ha & Ho & ->) & ->). destruct (cut_data j a off Ha Ho) as (_ & _ & _ & Hoff).
    cbn [first tW tS]. rewrite (sk_next j a off b Ha Hb Hoff). split; [reflexivity|].
    pose proof (block_len A lb b) as Hlen. rewrite (PW_block (S j) b), (PS_block (S j) b) by (assumption || lia).
    destruct (pre_sums b (good_nth _ _ Hb)) as [-> ->]. lia.
  - subst k. cbn [first tW tS]. rewrite (sk_0 b Hb). split; [reflexivity|]. split; reflexivity.
Qed.

Lemma seg_snoc k j a : nth_error atoms j = Some a -> (k <= j)%nat -> seg k j = skipn k (firstn j atoms) ++ [a].
Proof.
  intros Ha Hk. unfold seg. rewrite (firstn_S _ _ _ Ha), skipn_app. f_equal.
  pose proof (nth_lt j a Ha). rewrite firstn_length, app_length. cbn [length].
  replace (k - Nat.min j (length ini + 1))%nat with 0%nat by lia. reflexivity.
Qed.
Lemma seg_head k j b : nth_error atoms k = Some b -> (k <= j)%nat -> (j <= length ini)%nat -> exists l, seg k j = b :: l.
Proof.
  intros Hb Hk Hj. unfold seg. assert (nth_error (firstn (S j) atoms) k = Some b) as E.
  { rewrite <- (firstn_skipn (S j) atoms) in Hb. rewrite nth_error_app1 in Hb; [exact Hb|].
    rewrite firstn_length, app_length. cbn [length]. lia. }
  rewrite (skipn_cons _ _ _ E). eauto.
Qed.
Lemma lineWidth_snoc l a : lineWidth rh m sp hy (map (at_f A) (l ++ [a])) = BW l + m (f_text (at_f A a)) + hyphW A lb hy a.
Proof.
  induction l as [|b l IH]; cbn [app map lineWidth].
  - unfold hyphW. change (BW []) with 0. lia.
  - assert (exists x y, map (at_f A) (l ++ [a]) = x :: y) as (x & y & E) by (destruct l; cbn; eauto). rewrite E in *. rewrite IH.
    change (BW (b :: l)) with (blockW b + BW l). unfold Frags.blockW. lia.
Qed.
Lemma lastSoft_snoc l a : lastSoft (map (at_f A) (l ++ [a])) = isSoft (at_f A a).
Proof. unfold lastSoft. rewrite map_app, rev_app_distr. reflexivity. Qed.

Variable Wd : Z.
Hypothesis HWd : 0 < Wd <= 2 ^ 50.
Hypothesis Htol : fle A (infinity A) (k_tolerance ko) = false.
Notation fseg k j := (map (at_f A) (seg k j)).
Notation lineOk := (lineOk rh m sp hy A (k_tolerance ko) Wd).
Notation linesOk := (linesOk rh m sp hy A (k_tolerance ko) Wd).

Lemma rat_view s k j a off : srcView s k -> nth_error atoms j = Some a -> In off (cutOff a) -> (k <= j)%nat ->
  rat A nodes Wd s (start j + off) =
  lineRatio A Wd (lineWidth rh m sp hy (fseg k j)) (cutStretch a off - markW (negb (isFirst s) && startsWithMark (fseg k j))).
Proof.
  intros Hs Ha Ho Hk. pose proof (nth_lt j a Ha) as Hj.
  assert (exists b, nth_error atoms k = Some b) as (b & Hb).
  { destruct (nth_error atoms k) eqn:E; [eauto|]. apply nth_error_None in E. rewrite app_length in E. cbn in E. lia. }
  destruct (src_data s k b Hs Hb) as (_ & E1 & E2). destruct (cut_data j a off Ha Ho) as (E3 & E4 & E5 & _).
  unfold rat, aw. rewrite E1, E2, E3, E4, E5.
  rewrite (seg_snoc k j a Ha Hk) at 1. rewrite lineWidth_snoc.
  destruct (seg_head k j b Hb Hk Hj) as (l & El). rewrite El. cbn [map startsWithMark].
  assert (BW (firstn j atoms) = BW (firstn k atoms) + BW (skipn k (firstn j atoms))) as E.
  { rewrite <- BW_app. f_equal. rewrite <- (firstn_skipn k (firstn j atoms)) at 1. rewrite firstn_firstn, Nat.min_l by lia. reflexivity. }
  rewrite E. unfold ratioZ, lineRatio, infinity.
  replace (BW (firstn k atoms) + BW (skipn k (firstn j atoms)) + m (f_text (at_f A a)) - BW (firstn k atoms) + hyphW A lb hy a)
    with (BW (skipn k (firstn j atoms)) + m (f_text (at_f A a)) + hyphW A lb hy a) by lia. reflexivity.
Qed.
Lemma lineOk_stretch k j a first : nth_error atoms j = Some a -> In (mainOff a) (cutOff a) -> (k <= j)%nat ->
  lineStretch rh first (isEnd a) (fseg k j) = cutStretch a (mainOff a) - markW (negb first && startsWithMark (fseg k j)).
Proof.
  intros Ha Ho Hk. unfold lineStretch. rewrite (main_stretch A L lb m a (good_nth j a Ha) (cut_cuttable A lb m a _ Ho)).
  rewrite (seg_snoc k j a Ha Hk), lastSoft_snoc. reflexivity.
Qed.
Lemma feas_main s k j a : srcView s k -> nth_error atoms j = Some a -> In (mainOff a) (cutOff a) -> (k <= j)%nat ->
  feas A ko nodes Wd s (start j + mainOff a) = lineOk (isFirst s) (isEnd a) (fseg k j).
Proof.
  intros Hs Ha Ho Hk. unfold feas, SpecKP.lineOk. rewrite (rat_view s k j a _ Hs Ha Ho Hk), (lineOk_stretch k j a _ Ha Ho Hk). reflexivity.
Qed.
Lemma inf_within : within A (k_tolerance ko) (fZ 10000) = false.
Proof. unfold within. change (fZ 10000) with (infinity A). rewrite Htol. apply andb_false_r. Qed.
Lemma feas_ok s k j a off : srcView s k -> nth_error atoms j = Some a -> In off (cutOff a) -> (k <= j)%nat ->
  isEnd a = false \/ off = mainOff a ->
  feas A ko nodes Wd s (start j + off) = true -> lineOk (isFirst s) (isEnd a) (fseg k j) = true.
Proof.
  intros Hs Ha Ho Hk He Hf. pose proof (good_nth j a Ha) as G.
  pose proof (main_cut A L lb m a (cut_cuttable A lb m a off Ho) G) as Hm.
  unfold feas in Hf. rewrite (rat_view s k j a off Hs Ha Ho Hk) in Hf.
  unfold SpecKP.lineOk. rewrite (lineOk_stretch k j a _ Ha Hm Hk).
  destruct (other_stretch A L lb m a off G Ho He) as [E|E]; [rewrite <- E; exact Hf|]. rewrite E in Hf.
  assert (forall b, (0 <? 0 - markW b) = false) as Eb by (intros [|]; reflexivity).
  unfold lineRatio in *. rewrite Eb in Hf. change (inTol A ko) with (within A (k_tolerance ko)) in Hf.
  destruct (_ <? Wd); [rewrite inf_within in Hf; discriminate|]. exact Hf.
Qed.

(** Lines of a solution *)
Inductive laid : src -> nat -> list nat -> list (list atom) -> Prop :=
| laid_last : forall s k, srcView s k -> (k <= length ini)%nat -> link A ko nodes Wd s (start (length ini) + mainOff z) ->
    laid s k [start (length ini) + mainOff z]%nat [skipn k atoms]
| laid_cut : forall s k j a off ps lines, srcView s k -> (k <= j)%nat -> nth_error atoms j = Some a -> In off (cutOff a) ->
    isEnd a = false -> link A ko nodes Wd s (start j + off) -> laid (Some (start j + off)%nat) (S j) ps lines ->
    laid s k ((start j + off)%nat :: ps) (seg k j :: lines).

Lemma explored_first i : explored A nodes i = true -> (sk A nodes 0 < i)%nat.
Proof.
  intros He. destruct (proj1 (explored_iff i) He) as (j & a & off & Ha & Ho & ->).
  destruct (cut_data j a off Ha Ho) as (_ & _ & _ & Hoff).
  destruct (nth_error atoms 0) as [b|] eqn:Eb; [|now destruct ini]. rewrite (sk_0 b Eb).
  destruct j as [|j].
  - change (start 0) with 0%nat. rewrite Eb in Ha. injection Ha as ->. lia.
  - pose proof (start_lt 0 (S j) b (boxOff b) Eb (block_len A lb b) ltac:(lia)) as H. change (start 0) with 0%nat in H. lia.
Qed.
Lemma link_first s i : link A ko nodes Wd s i -> (first A nodes s < i)%nat.
Proof.
  pose proof nodes_body as (Hn & Hb & _). apply (lk_first A ko nodes Wd ltac:(lia) body (finNode A) Hn fin_forced Hb).
  - unfold zw, finNode. cbn [n_sums newPenalty su_width]. rewrite (fint_small A L) by lia. reflexivity.
  - lia.
  - exact Htol.
  - destruct (explored A nodes (sk A nodes 0)) eqn:E; [|reflexivity]. pose proof (explored_first _ E). lia.
Qed.

Lemma cut_le s k i : srcView s k -> (k <= length ini)%nat -> link A ko nodes Wd s i ->
  exists j a off, nth_error atoms j = Some a /\ In off (cutOff a) /\ i = (start j + off)%nat /\ (k <= j)%nat.
Proof.
  intros Hs Hk Hl. destruct (proj1 (explored_iff i) (lk_explored _ _ _ _ _ _ Hl)) as (j & a & off & Ha & Ho & Ei).
  exists j, a, off. repeat split; try assumption.
  destruct (Nat.le_gt_cases k j) as [H|H]; [exact H|exfalso].
  assert (exists b, nth_error atoms k = Some b) as (b & Hb).
  { destruct (nth_error atoms k) eqn:E; [eauto|]. apply nth_error_None in E. rewrite app_length in E. cbn in E. lia. }
  destruct (src_data s k b Hs Hb) as (E1 & _). pose proof (link_first _ _ Hl) as Hf. rewrite E1 in Hf.
  destruct (cut_data j a off Ha Ho) as (_ & _ & _ & Hoff). pose proof (start_lt j k a off Ha ltac:(lia) H). lia.
Qed.
Lemma end_seg : forall k, seg k (length ini) = skipn k atoms.
Proof. intros k. unfold seg. rewrite firstn_all2; [reflexivity|]. rewrite app_length. cbn. lia. Qed.

Lemma chain_laid ps : forall s k, srcView s k -> (k <= length ini)%nat -> ps <> [] -> chain A ko nodes Wd body s ps ->
  exists lines, laid s k ps lines.
Proof.
  induction ps as [|p ps IH]; intros s k Hs Hk Hne Hc; [congruence|]. destruct Hc as [Hl Hc].
  destruct (cut_le s k p Hs Hk Hl) as (j & a & off & Ha & Ho & -> & Hkj).
  destruct (cut_data j a off Ha Ho) as (_ & _ & _ & Hoff).
  pose proof (nth_lt j a Ha) as Hj.
  assert (srcView (Some (start j + off)%nat) (S j)) as Hs' by (exists j; split; [exists a, off; auto|reflexivity]).
  destruct (isEnd a) eqn:Ee.
  - destruct (end_nth j a Ha Ee) as [-> ->]. assert (off = mainOff z) as ->.
    { destruct ps as [|p' ps'].
      - cbn [chain] in Hc. injection Hc as Hc. pose proof nodes_body as (_ & _ & Hl'). rewrite Hl' in Hc. lia.
      - destruct Hc as [Hl' _]. exfalso. pose proof (link_first _ _ Hl') as Hf. cbn [first] in Hf.
        rewrite (sk_end off Hoff) in Hf. pose proof (explored_lt_nodes _ (lk_explored _ _ _ _ _ _ Hl')) as H.
        rewrite (proj1 nodes_body), app_length in H. cbn [length] in H. lia. }
    assert (ps = []) as ->.
    { destruct ps as [|p' ps']; [reflexivity|]. destruct Hc as [Hl' _]. exfalso.
      pose proof (link_first _ _ Hl') as Hf. cbn [first] in Hf.
      rewrite (sk_end _ Hoff) in Hf. pose proof (explored_lt_nodes _ (lk_explored _ _ _ _ _ _ Hl')) as H.
      rewrite (proj1 nodes_body), app_length in H. cbn [length] in H. lia. }
    eexists. now constructor.
  - assert (j < length ini)%nat as Hlt.
    { destruct (Nat.eq_dec j (length ini)) as [->|]; [|lia]. rewrite last_atom in Ha. injection Ha as <-. congruence. }
    destruct ps as [|p' ps'].
    + exfalso. cbn [chain] in Hc. injection Hc as Hc. pose proof nodes_body as (_ & _ & Hl').
      pose proof (start_lt j (length ini) a off Ha ltac:(lia) Hlt). lia.
    + destruct (IH (Some (start j + off)%nat) (S j) Hs' ltac:(lia) ltac:(discriminate) Hc) as (lines & Hlaid).
      exists (seg k j :: lines). now apply (laid_cut s k j a off).
Qed.

(** ... they are a layout, within tolerance *)
Lemma skipn_seg k j : (k <= S j)%nat -> skipn k atoms = seg k j ++ skipn (S j) atoms.
Proof.
  intros H. unfold seg. rewrite <- (firstn_skipn (S j) atoms) at 1. rewrite skipn_app. f_equal.
  rewrite firstn_length. destruct (Nat.le_ge_cases (S j) (length atoms)) as [H1|H1].
  - rewrite Nat.min_l by exact H1. replace (k - S j)%nat with 0%nat by lia. reflexivity.
  - rewrite (skipn_all2 (n := S j) atoms) by lia. now rewrite skipn_nil.
Qed.
Lemma laid_layout s k ps lines : laid s k ps lines ->
  layout softOn (map (at_f A) (skipn k atoms)) (map (map (at_f A)) lines) /\
  linesOk (isFirst s) (map (map (at_f A)) lines) = true /\ concat lines = skipn k atoms /\ lines <> [].
Proof.
  induction 1 as [s k Hs Hk Hl|s k j a off ps lines Hs Hk Ha Ho He Hl Hlaid (IH1 & IH2 & IH3 & IH4)].
  - cbn [map]. split; [|split; [|split]].
    + apply lay_last. intros E. apply map_eq_nil in E. apply (f_equal (@length _)) in E.
      rewrite skipn_length, app_length in E. cbn in E. lia.
    + cbn [SpecKP.linesOk].
      assert (In (mainOff z) (cutOff z)) as Hm.
      { apply (main_cut A L lb m); [now rewrite Hz, orb_true_r|apply (good_nth _ _ last_atom)]. }
      pose proof (feas_main s k (length ini) z Hs last_atom Hm Hk) as E. rewrite (lk_feas _ _ _ _ _ _ Hl), Hz, end_seg in E. now symmetry.
    + cbn. now rewrite app_nil_r.
    + discriminate.
  - split; [|split; [|split]].
    + cbn [map]. rewrite (skipn_seg k j) by lia. rewrite map_app. rewrite (seg_snoc k j a Ha Hk), map_app. cbn [map].
      apply lay_cut; [|exact IH1]. pose proof (cut_cuttable A lb m a off Ho) as C. now rewrite He, orb_false_r in C.
    + cbn [map SpecKP.linesOk]. pose proof (feas_ok s k j a off Hs Ha Ho Hk (or_introl He) (lk_feas _ _ _ _ _ _ Hl)) as E. rewrite He in E.
      destruct lines as [|l ls]; [congruence|]. cbn [map]. cbn [map] in IH2. rewrite E. exact IH2.
    + cbn [concat]. rewrite IH3. symmetry. apply skipn_seg. lia.
    + discriminate.
Qed.

(** Any layout within tolerance makes the last break reachable *)
Lemma layout_reach : forall l lines, layout softOn l lines -> forall s k, l = map (at_f A) (skipn k atoms) -> (k <= length ini)%nat ->
  srcView s k -> reach A ko nodes Wd s -> linesOk (isFirst s) lines = true ->
  exists s' k', reach A ko nodes Wd s' /\ before s' last /\ feas A ko nodes Wd s' last = true /\
    srcView s' k' /\ (k' <= length ini)%nat /\ List.last lines [] = map (at_f A) (skipn k' atoms).
Proof.
  assert (In (mainOff z) (cutOff z)) as Hm.
  { apply (main_cut A L lb m); [now rewrite Hz, orb_true_r|apply (good_nth _ _ last_atom)]. }
  pose proof nodes_body as (_ & _ & Hlast).
  induction 1 as [sg Hne|sg f rest lines Hcut Hlay IH]; intros s k El Hk Hs Hr Hok.
  - exists s, k. split; [exact Hr|]. rewrite Hlast. split; [|split; [|split; [exact Hs|split; [exact Hk|exact El]]]].
    + destruct s as [p|]; [|exact I]. destruct Hs as (j & (a & off & Ha & Ho & ->) & ->). cbn [before].
      destruct (cut_data j a off Ha Ho) as (_ & _ & _ & Hoff).
      pose proof (start_lt j (length ini) a off Ha ltac:(lia) ltac:(lia)). lia.
    + rewrite (feas_main s k (length ini) z Hs last_atom Hm Hk), Hz, end_seg. rewrite <- El. exact Hok.
  - (* the atom of the cut *)
    set (j := (k + length sg)%nat).
    assert (exists a, nth_error atoms j = Some a /\ at_f A a = f) as (a & Ha & Ef).
    { assert (nth_error (map (at_f A) (skipn k atoms)) (length sg) = Some f) as E.
      { rewrite <- El, <- app_assoc, nth_error_app2, Nat.sub_diag by lia. reflexivity. }
      rewrite nth_error_map, nth_error_skipn in E. fold j in E. destruct (nth_error atoms j) as [a|]; [|discriminate].
      exists a. split; [reflexivity|]. now injection E. }
    assert (rest <> []) as Nrest by (inversion Hlay; subst; [assumption|]; intros E; apply app_eq_nil in E; destruct E as [E _]; apply app_eq_nil in E; destruct E; discriminate).
    assert (isEnd a = false) as Ee.
    { destruct (isEnd a) eqn:E; [|reflexivity]. exfalso. destruct (end_nth j a Ha E) as [Ej _].
      apply (f_equal (@length _)) in El. rewrite !app_length, map_length, skipn_length, app_length in El. cbn [length] in El.
      destruct rest; [congruence|]. cbn [length] in El. unfold j in Ej. lia. }
    assert (j < length ini)%nat as Hj.
    { pose proof (nth_lt j a Ha). destruct (Nat.eq_dec j (length ini)) as [E|]; [|lia]. rewrite E, last_atom in Ha. injection Ha as <-. congruence. }
    assert (fseg k j = sg ++ [f]) as Eseg.
    { rewrite (skipn_seg k j) in El by (unfold j; lia). rewrite map_app in El.
      apply (f_equal (firstn (length (sg ++ [f])))) in El. rewrite firstn_app_exact in El by reflexivity.
      rewrite firstn_app_exact in El; [now symmetry|]. rewrite map_length, app_length. unfold seg. rewrite skipn_length, firstn_length, app_length.
      cbn [length]. unfold j in *. lia. }
    assert (rest = map (at_f A) (skipn (S j) atoms)) as Erest.
    { rewrite (skipn_seg k j) in El by (unfold j; lia). rewrite map_app, Eseg in El. now apply app_inv_head in El. }
    assert (In (mainOff a) (cutOff a)) as Hma.
    { apply (main_cut A L lb m); [now rewrite Ef, Hcut|apply (good_nth _ _ Ha)]. }
    assert (lineOk (isFirst s) false (sg ++ [f]) = true /\ linesOk false lines = true) as [Hl1 Hl2].
    { cbn [SpecKP.linesOk] in Hok. destruct lines as [|l ls]; [inversion Hlay|]. now apply andb_prop in Hok. }
    assert (explored A nodes (start j + mainOff a) = true) as Hex by (apply explored_iff; exists j, a, (mainOff a); auto).
    assert (List.last ((sg ++ [f]) :: lines) [] = List.last lines []) as -> by (inversion Hlay; reflexivity).
    apply (IH (Some (start j + mainOff a)%nat) (S j) Erest ltac:(lia)).
    + exists j. split; [exists a, (mainOff a); auto|reflexivity].
    + apply (reach_next A ko nodes Wd s); [exact Hr| |exact Hex|].
      * destruct s as [p|]; [|exact I]. destruct Hs as (j0 & (a0 & off & Ha0 & Ho & ->) & ->). cbn [before].
        destruct (cut_data j0 a0 off Ha0 Ho) as (_ & _ & _ & Hoff).
        pose proof (start_lt j0 j a0 off Ha0 ltac:(lia) ltac:(unfold j; lia)). lia.
      * rewrite (feas_main s k j a Hs Ha Hma) by (unfold j; lia). rewrite Ee, Eseg. exact Hl1.
    + exact Hl2.
Qed.

(** The last line is as long as possible *)
Lemma cls_last s k : srcView s k -> (k <= length ini)%nat -> 2 * Wd <= 9994 -> feas A ko nodes Wd s last = true -> cls A nodes Wd s last = C1.
Proof.
  intros Hs Hk HW Hf.
  assert (In (mainOff z) (cutOff z)) as Hm.
  { apply (main_cut A L lb m); [now rewrite Hz, orb_true_r|apply (good_nth _ _ last_atom)]. }
  pose proof nodes_body as (_ & _ & Hlast). rewrite Hlast in *. unfold cls, feas in *.
  rewrite (rat_view s k (length ini) z _ Hs last_atom Hm Hk) in *.
  assert (0 <= lineWidth rh m sp hy (fseg k (length ini))) as H0.
  { rewrite (seg_snoc k _ z last_atom Hk), lineWidth_snoc. pose proof (ga_w0 _ _ _ _ (good_nth _ _ last_atom)).
    assert (0 <= BW (skipn k (firstn (length ini) atoms))) by (apply BW_nonneg, Forall_skipn', good_firstn).
    unfold hyphW. destruct (rh && isSoft (at_f A z)); lia. }
  rewrite (main_stretch A L lb m z (good_nth _ _ last_atom)), Hz in *.
  2, 3: now rewrite Hz, orb_true_r.
  revert Hf H0. generalize (lineWidth rh m sp hy (fseg k (length ini))) as w, (negb (isFirst s) && startsWithMark (fseg k (length ini))) as b.
  intros w b Hf H0. change (inTol A ko) with (within A (k_tolerance ko)) in *.
  assert (9994 <= 10000 - markW b <= 10000) as Hst by (destruct b; cbn; lia).
  unfold newFitnessClass. unfold lineRatio in *. destruct (Z.ltb_spec w Wd).
  - destruct (Z.ltb_spec 0 (10000 - markW b)); [|lia].
    destruct (quo_class A L (Wd - w) (10000 - markW b)) as (E1 & E2 & _); [lia|lia|]. rewrite E1, E2.
    destruct (Z.leb_spec (2 * (Wd - w)) (10000 - markW b)); [reflexivity|lia].
  - destruct (Wd <? w); [rewrite inf_within in Hf; discriminate|]. destruct (half_zero A L) as [-> ->]. reflexivity.
Qed.
Lemma srcLe_view s k s' k' : srcView s k -> srcView s' k' -> srcLe s s' -> (k <= k')%nat.
Proof.
  intros Hs Hs' Hle. destruct s as [p|]; cbn in Hs; [|lia]. destruct s' as [p'|]; [|destruct Hle].
  destruct Hs as (j & (a & off & Ha & Ho & ->) & ->). destruct Hs' as (j' & (a' & off' & Ha' & Ho' & ->) & ->). cbn in Hle.
  destruct (Nat.le_gt_cases (S j) (S j')) as [H|H]; [exact H|exfalso].
  destruct (cut_data j' a' off' Ha' Ho') as (_ & _ & _ & Hoff).
  pose proof (start_lt j' j a' off' Ha' ltac:(lia) ltac:(lia)). lia.
Qed.
Lemma laid_longest s k ps lines : laid s k ps lines -> 2 * Wd <= 9994 ->
  forall lines', layout softOn (map (at_f A) atoms) lines' -> linesOk true lines' = true ->
  (length (List.last lines' []) <= length (List.last lines []))%nat.
Proof.
  intros Hl HW lines' Hlay Hok.
  destruct (layout_reach _ _ Hlay None 0%nat eq_refl ltac:(lia) eq_refl (reach_first _ _ _ _) Hok) as (s' & k' & R1 & R2 & R3 & R4 & R5 & R6).
  rewrite R6, map_length. clear Hlay Hok R6. pose proof nodes_body as (_ & _ & Hlast).
  induction Hl as [s k Hs Hk Hl|s k j a off ps lines Hs Hk Ha Ho He Hl Hlaid IH].
  - cbn [List.last]. rewrite !skipn_length. rewrite <- Hlast in Hl.
    assert (k <= k')%nat; [|lia]. apply (srcLe_view s k s' k' Hs R4).
    apply (lk_earliest _ _ _ _ _ _ Hl); try assumption.
    rewrite (cls_last s k Hs Hk HW (lk_feas _ _ _ _ _ _ Hl)). now apply (cls_last s' k').
  - assert (List.last (seg k j :: lines) [] = List.last lines []) as -> by (inversion Hlaid; reflexivity). exact IH.
Qed.

(** ** Which layouts are found *)
Section Chosen.
Notation afs := (map (at_f A) atoms).
Notation gstarts := (starts rh softOn m sp hy A (k_tolerance ko) Wd afs).
Notation gfits := (fits rh m sp hy A (k_tolerance ko) Wd afs).
Notation gline := (line rh softOn m sp hy A (k_tolerance ko) Wd afs).
Notation gchosen := (chosen rh softOn m sp hy A (k_tolerance ko) Wd afs).
Notation ggreedy := (greedy rh softOn m sp hy A (k_tolerance ko) Wd afs).
Notation gslack := (slack rh m sp hy Wd afs).
Notation gstretch := (stretch rh afs).
Notation gtight := (tightness rh m sp hy Wd afs).
Notation grank := (rank rh m sp hy Wd afs).
Notation reach := (reach A ko nodes Wd).
Notation feas := (feas A ko nodes Wd).
Notation cls := (cls A nodes Wd).
Notation link := (link A ko nodes Wd).

Lemma piece_seg k j : piece afs k j = fseg k j.
Proof. unfold piece, seg. now rewrite firstn_map, skipn_map. Qed.
Lemma afs_len : length afs = S (length ini).
Proof. rewrite map_length, app_length. cbn. lia. Qed.
Lemma isLast_end j a : nth_error atoms j = Some a -> isLast afs j = isEnd a.
Proof.
  intros Ha. unfold isLast. rewrite afs_len. destruct (isEnd a) eqn:E.
  - destruct (end_nth j a Ha E) as [-> _]. apply Nat.eqb_refl.
  - apply Nat.eqb_neq. intros E'. assert (j = length ini) as -> by lia. rewrite last_atom in Ha. injection Ha as <-. congruence.
Qed.
Lemma isFirst_view s k : srcView s k -> isFirst s = (k =? 0)%nat.
Proof. destruct s as [p|]; cbn; [intros (j & _ & ->); reflexivity|intros ->; reflexivity]. Qed.
Lemma endsAt_cut j a : nth_error atoms j = Some a -> endsAt softOn afs j <-> In (mainOff a) (cutOff a).
Proof.
  intros Ha. pose proof (good_nth j a Ha) as G. split.
  - intros (f & Hf & H). rewrite nth_error_map, Ha in Hf. injection Hf as <-. rewrite (isLast_end j a Ha) in H.
    apply (main_cut A L lb m); [|exact G]. destruct H as [->| ->]; [apply orb_true_r|reflexivity].
  - intros H. exists (at_f A a). rewrite nth_error_map, Ha. split; [reflexivity|]. rewrite (isLast_end j a Ha).
    apply (cut_cuttable A lb m) in H. apply orb_prop in H. tauto.
Qed.
Lemma endsAt_nth j : endsAt softOn afs j -> exists a, nth_error atoms j = Some a.
Proof. intros (f & Hf & _). rewrite nth_error_map in Hf. destruct (nth_error atoms j) as [a|]; [eauto|discriminate]. Qed.
Lemma main_of j a off : nth_error atoms j = Some a -> In off (cutOff a) -> In (mainOff a) (cutOff a).
Proof. intros Ha Ho. apply (main_cut A L lb m a (cut_cuttable A lb m a off Ho) (good_nth j a Ha)). Qed.
Lemma fits_ok s k j a : srcView s k -> nth_error atoms j = Some a -> gfits k j = lineOk (isFirst s) (isEnd a) (fseg k j).
Proof. intros Hs Ha. unfold fits. now rewrite (isLast_end j a Ha), <- (isFirst_view s k Hs), piece_seg. Qed.

(** the ends of a line *)
Lemma pos_inj j a off j' a' off' : nth_error atoms j = Some a -> (off < length (atomNodes a))%nat ->
  nth_error atoms j' = Some a' -> (off' < length (atomNodes a'))%nat -> (start j + off = start j' + off')%nat -> j = j' /\ off = off'.
Proof.
  intros Ha Ho Ha' Ho' E. assert (j = j') as ->; [|split; [reflexivity|lia]].
  destruct (Nat.lt_trichotomy j j') as [H|[H|H]]; [exfalso|exact H|exfalso].
  - pose proof (start_lt j j' a off Ha Ho H). lia.
  - pose proof (start_lt j' j a' off' Ha' Ho' H). lia.
Qed.
Lemma before_le s k j a off : srcView s k -> nth_error atoms j = Some a -> (off < length (atomNodes a))%nat ->
  before s (start j + off) -> (k <= S j)%nat.
Proof.
  intros Hs Ha Ho Hb. destruct s as [p|]; cbn in Hs; [|lia]. destruct Hs as (j0 & (a0 & off0 & Ha0 & Ho0 & ->) & ->). cbn in Hb.
  destruct (Nat.le_gt_cases j0 j) as [H|H]; [lia|exfalso]. pose proof (start_lt j j0 a off Ha Ho H). lia.
Qed.
Lemma view_before s k j off : srcView s k -> (k <= j)%nat -> before s (start j + off).
Proof.
  intros Hs Hk. destruct s as [p|]; [|exact I]. destruct Hs as (j0 & (a0 & off0 & Ha0 & Ho0 & ->) & ->). cbn.
  destruct (cut_data j0 a0 off0 Ha0 Ho0) as (_ & _ & _ & Hoff). pose proof (start_lt j0 j a0 off0 Ha0 ltac:(lia) ltac:(lia)). lia.
Qed.
Lemma view_lt s k s' k' : srcView s k -> srcView s' k' -> (k < k')%nat -> srcLe s s'.
Proof.
  intros Hs Hs' H. destruct s as [p|]; [|now destruct s']. destruct s' as [p'|]; cbn in Hs'; [|lia].
  destruct Hs as (j & (a & off & Ha & Ho & ->) & ->). destruct Hs' as (j' & (a' & off' & Ha' & Ho' & ->) & ->). cbn.
  destruct (cut_data j a off Ha Ho) as (_ & _ & _ & Hoff). pose proof (start_lt j j' a off Ha ltac:(lia) ltac:(lia)). lia.
Qed.
Lemma explored_at j a off : nth_error atoms j = Some a -> In off (cutOff a) -> explored A nodes (start j + off) = true.
Proof. intros Ha Ho. apply explored_iff. exists j, a, off. auto. Qed.
Lemma view_at j a off : nth_error atoms j = Some a -> In off (cutOff a) -> srcView (Some (start j + off)%nat) (S j).
Proof. intros Ha Ho. exists j. split; [exists a, off; auto|reflexivity]. Qed.

(** offsets *)
Lemma off_cases a off : goodAtom a -> In off (cutOff a) ->
  (isSpaced (at_f A a) && negb (f_mark (at_f A a)) = true /\ ((off = 1%nat /\ cutStretch a off = 0) \/ off = mainOff a)) \/
  (isSpaced (at_f A a) && negb (f_mark (at_f A a)) = false /\
    (isEnd a = false \/ off = mainOff a -> cutStretch a off = cutStretch a (mainOff a)) /\ (isEnd a = false -> (mainOff a <= off)%nat)).
Proof.
  intros G. pose proof (ga_soft _ _ _ _ G) as Hs. destruct a as [[t mk jt] pn w at_]. unfold Frags.cutOff, Frags.cutStretch, Frags.mainOff, Frags.isEnd, isSpaced.
  cbn [at_f f_mark f_joint] in *.
  destruct mk, jt; cbn [andb negb orb]; try (exfalso; apply Hs; reflexivity); try destruct softOn; try destruct rh; cbn [In Nat.eqb]; intros H;
    repeat (destruct H as [<-|H]); try destruct H; cbn [Nat.eqb]; auto 8; right; (split; [reflexivity|split; [|intros E; try discriminate E; lia]]);
    try reflexivity; try (intros [E|E]; discriminate E).
Qed.
Lemma spaced_offs a : isSpaced (at_f A a) && negb (f_mark (at_f A a)) = true -> cutOff a = [1; 2]%nat /\ mainOff a = 2%nat /\ cutStretch a 1 = 0 /\ isEnd a = false.
Proof.
  destruct a as [[t mk jt] pn w at_]. unfold Frags.cutOff, Frags.cutStretch, Frags.mainOff, Frags.isEnd, isSpaced. cbn [at_f f_mark f_joint].
  destruct mk, jt; cbn; try discriminate. auto.
Qed.
Lemma afterWord_at j a : nth_error atoms j = Some a -> afterWord afs j = isSpaced (at_f A a) && negb (f_mark (at_f A a)).
Proof. intros Ha. unfold afterWord. now rewrite nth_error_map, Ha. Qed.
Lemma feas_exact s k j a off : srcView s k -> nth_error atoms j = Some a -> In off (cutOff a) -> (k <= j)%nat -> cutStretch a off = 0 ->
  (feas s (start j + off) = true -> gslack k j = 0) /\ (gslack k j = 0 -> gfits k j = true -> feas s (start j + off) = true).
Proof.
  intros Hs Ha Ho Hk E. unfold KPProofs.feas. rewrite (rat_view s k j a off Hs Ha Ho Hk), E. unfold slack. rewrite piece_seg.
  assert (forall b, (0 <? 0 - markW b) = false) as Eb by (intros [|]; reflexivity).
  unfold lineRatio. rewrite Eb. change (inTol A ko) with (within A (k_tolerance ko)). split.
  - destruct (Z.ltb_spec (lineWidth rh m sp hy (fseg k j)) Wd); [rewrite inf_within; discriminate|].
    destruct (Z.ltb_spec Wd (lineWidth rh m sp hy (fseg k j))); [rewrite inf_within; discriminate|]. lia.
  - intros H. rewrite (fits_ok s k j a Hs Ha). unfold SpecKP.lineOk, lineRatio.
    destruct (Z.ltb_spec (lineWidth rh m sp hy (fseg k j)) Wd); [lia|]. destruct (Z.ltb_spec Wd (lineWidth rh m sp hy (fseg k j))); [lia|]. auto.
Qed.
Lemma feas_fits s k j a off : srcView s k -> nth_error atoms j = Some a -> In off (cutOff a) -> (k <= j)%nat ->
  isEnd a = false \/ off = mainOff a -> feas s (start j + off) = true -> gfits k j = true.
Proof. intros Hs Ha Ho Hk He Hf. rewrite (fits_ok s k j a Hs Ha). now apply (feas_ok s k j a off). Qed.
Lemma fits_feas s k j a off : srcView s k -> nth_error atoms j = Some a -> In off (cutOff a) -> (k <= j)%nat ->
  cutStretch a off = cutStretch a (mainOff a) -> gfits k j = true -> feas s (start j + off) = true.
Proof.
  intros Hs Ha Ho Hk E Hf. rewrite (fits_ok s k j a Hs Ha) in Hf. pose proof (main_of j a off Ha Ho) as Hm.
  rewrite <- (feas_main s k j a Hs Ha Hm Hk) in Hf. unfold KPProofs.feas in *. rewrite (rat_view s k j a off Hs Ha Ho Hk), E.
  now rewrite (rat_view s k j a _ Hs Ha Hm Hk) in Hf.
Qed.
(** classes *)
Definition classZ (c : fclass) : Z := match c with C0 => 0 | C1 => 1 | C2 => 2 | C3 => 3 end.
Lemma width_nonneg k j a : nth_error atoms j = Some a -> (k <= j)%nat -> 0 <= lineWidth rh m sp hy (fseg k j).
Proof.
  intros Ha Hk. rewrite (seg_snoc k j a Ha Hk), lineWidth_snoc. pose proof (ga_w0 _ _ _ _ (good_nth j a Ha)).
  assert (0 <= BW (skipn k (firstn j atoms))) by (apply BW_nonneg, Forall_skipn', good_firstn).
  unfold hyphW. destruct (rh && isSoft (at_f A a)); lia.
Qed.
Lemma cls_tight s k j a off : srcView s k -> nth_error atoms j = Some a -> In off (cutOff a) -> (k <= j)%nat ->
  cutStretch a off = cutStretch a (mainOff a) -> gfits k j = true -> classZ (cls s (start j + off)) = gtight k j.
Proof.
  intros Hs Ha Ho Hk E Hf. pose proof (main_of j a off Ha Ho) as Hm. pose proof (width_nonneg k j a Ha Hk) as H0.
  rewrite (fits_ok s k j a Hs Ha) in Hf. unfold KPProofs.cls. rewrite (rat_view s k j a off Hs Ha Ho Hk), E.
  unfold SpecKP.lineOk in Hf. unfold tightness, slack, stretch. rewrite piece_seg, (isLast_end j a Ha), <- (isFirst_view s k Hs).
  pose proof (lineOk_stretch k j a (isFirst s) Ha Hm Hk) as Est. rewrite Est in *.
  assert (cutStretch a (mainOff a) <= 10000) as Hle.
  { rewrite (main_stretch A L lb m a (good_nth j a Ha) (cut_cuttable A lb m a _ Hm)). destruct (isEnd a); [lia|]. destruct (isSoft (at_f A a) && negb rh); lia. }
  assert (forall b, 0 <= markW b) as Hmk by (intros [|]; cbn; lia).
  pose proof (Hmk (negb (isFirst s) && startsWithMark (fseg k j))) as Hmk'.
  revert Hf H0 Hmk' Hle. generalize (lineWidth rh m sp hy (fseg k j)) as w, (markW (negb (isFirst s) && startsWithMark (fseg k j))) as b, (cutStretch a (mainOff a)) as c.
  intros w b c Hf H0 Hmk' Hle. unfold lineRatio in *. destruct (Z.ltb_spec w Wd) as [Hw|Hw].
  - destruct (Z.ltb_spec 0 (c - b)) as [Hc|Hc]; [|rewrite inf_within in Hf; discriminate]. unfold newFitnessClass.
    destruct (quo_class A L (Wd - w) (c - b)) as (E1 & E2 & E3); [lia|lia|]. rewrite E1, E2, E3.
    destruct (Z.eqb_spec (Wd - w) 0); [lia|]. cbn [orb].
    destruct (2 * (Wd - w) <=? c - b); [reflexivity|]. destruct (Wd - w <=? c - b); reflexivity.
  - destruct (Z.ltb_spec Wd w) as [Hw2|Hw2]; [rewrite inf_within in Hf; discriminate|].
    replace (Wd - w) with 0 by lia. cbn [Z.eqb orb]. unfold newFitnessClass. destruct (half_zero A L) as [-> ->]. reflexivity.
Qed.
Lemma cls_exact s k j a off : srcView s k -> nth_error atoms j = Some a -> In off (cutOff a) -> (k <= j)%nat -> gslack k j = 0 ->
  cls s (start j + off) = C1.
Proof.
  intros Hs Ha Ho Hk H. unfold KPProofs.cls. rewrite (rat_view s k j a off Hs Ha Ho Hk). unfold slack in H. rewrite piece_seg in H. unfold lineRatio.
  destruct (Z.ltb_spec (lineWidth rh m sp hy (fseg k j)) Wd); [lia|]. destruct (Z.ltb_spec Wd (lineWidth rh m sp hy (fseg k j))); [lia|].
  unfold newFitnessClass. destruct (half_zero A L) as [-> ->]. reflexivity.
Qed.
Lemma classZ_inj a b : classZ a = classZ b -> a = b.
Proof. now destruct a, b. Qed.
Lemma tight_pos k j : 0 < gtight k j.
Proof. unfold tightness. destruct (_ || _); [lia|]. destruct (_ <=? _); lia. Qed.

(** where lines can start *)
Lemma reach_starts s : reach s -> forall k, srcView s k -> (k <= length ini)%nat -> gstarts k.
Proof.
  induction 1 as [|s0 i Hr IH Hb He Hf]; intros k Hs Hk.
  - cbn in Hs. subst k. constructor.
  - destruct Hs as (j & (a & off & Ha & Ho & ->) & ->). destruct (cut_data j a off Ha Ho) as (_ & _ & _ & Hoff).
    assert (isEnd a = false) as Ee.
    { destruct (isEnd a) eqn:E; [|reflexivity]. destruct (end_nth j a Ha E). lia. }
    assert (exists k0, srcView s0 k0) as (k0 & Hs0).
    { inversion Hr as [|s1 i1 _ _ He1 _]; subst; [exists 0%nat; reflexivity|]. apply explored_iff in He1. destruct He1 as (j1 & Hc). exists (S j1), j1. auto. }
    pose proof (before_le s0 k0 j a off Hs0 Ha ltac:(lia) Hb) as Hle.
    destruct (Nat.eq_dec k0 (S j)) as [->|Hne]; [now apply IH|].
    apply (st_next _ _ _ _ _ _ _ _ _ k0 j); [apply IH; [exact Hs0|lia]|lia| | |].
    + apply (endsAt_cut j a Ha). now apply (main_of j a off).
    + now rewrite (isLast_end j a Ha).
    + apply (feas_fits s0 k0 j a off Hs0 Ha Ho ltac:(lia) (or_introl Ee) Hf).
Qed.
Lemma starts_reach k : gstarts k -> exists s, reach s /\ srcView s k /\ (k <= length ini)%nat.
Proof.
  induction 1 as [|k j Hst (s & Hr & Hs & Hk) Hkj He Hl Hf].
  - exists None. split; [constructor|]. split; [reflexivity|lia].
  - destruct (endsAt_nth j He) as (a & Ha). pose proof (proj1 (endsAt_cut j a Ha) He) as Hm. rewrite (isLast_end j a Ha) in Hl.
    exists (Some (start j + mainOff a)%nat). split; [|split].
    + apply (reach_next _ _ _ _ s); [exact Hr|now apply (view_before s k)|now apply (explored_at j a)|].
      now apply (fits_feas s k j a _ Hs Ha Hm Hkj eq_refl).
    + now apply (view_at j a).
    + pose proof (nth_lt j a Ha). destruct (Nat.eq_dec j (length ini)) as [->|]; [|lia]. rewrite last_atom in Ha. injection Ha as <-. congruence.
Qed.
Lemma reach_view s : reach s -> exists k, srcView s k.
Proof.
  inversion 1 as [|s1 i1 _ _ He1 _]; subst; [exists 0%nat; reflexivity|]. apply explored_iff in He1. destruct He1 as (j1 & Hc). exists (S j1), j1. auto.
Qed.
Lemma line_of s k j a off : reach s -> srcView s k -> nth_error atoms j = Some a -> In off (cutOff a) -> (k <= j)%nat ->
  isEnd a = false \/ off = mainOff a -> feas s (start j + off) = true -> gline k j.
Proof.
  intros Hr Hs Ha Ho Hk He Hf. pose proof (nth_lt j a Ha). split; [apply (reach_starts s Hr k Hs); lia|]. split; [exact Hk|].
  split; [apply (endsAt_cut j a Ha); now apply (main_of j a off)|]. now apply (feas_fits s k j a off).
Qed.

(** the lines found are chosen ones *)
Lemma link_least j a off i : nth_error atoms j = Some a -> isEnd a = false -> In off (cutOff a) -> link (Some (start j + off)%nat) i ->
  forall off', In off' (cutOff a) -> reach (Some (start j + off')%nat) -> (off <= off')%nat.
Proof.
  intros Ha Ee Ho Hl off' Ho' Hr'. destruct (Nat.le_gt_cases off off') as [H|H]; [exact H|].
  assert (j < length ini)%nat as Hj.
  { pose proof (nth_lt j a Ha). destruct (Nat.eq_dec j (length ini)) as [->|]; [|lia]. rewrite last_atom in Ha. injection Ha as <-. congruence. }
  assert (srcLe (Some (start j + off)%nat) (Some (start j + off')%nat)) as Hle; [|cbn in Hle; lia].
  pose proof (view_at j a off Ha Ho) as Hv. pose proof (view_at j a off' Ha Ho') as Hv'.
  destruct (cut_le _ (S j) i Hv ltac:(lia) Hl) as (j2 & a2 & off2 & Ha2 & Ho2 & -> & Hj2).
  assert (rat A nodes Wd (Some (start j + off')%nat) (start j2 + off2) = rat A nodes Wd (Some (start j + off)%nat) (start j2 + off2)) as Er.
  { rewrite (rat_view _ (S j) j2 a2 off2 Hv Ha2 Ho2 Hj2), (rat_view _ (S j) j2 a2 off2 Hv' Ha2 Ho2 Hj2). reflexivity. }
  apply (lk_earliest _ _ _ _ _ _ Hl); [exact Hr'|now apply (view_before _ (S j))| |].
  - pose proof (lk_feas _ _ _ _ _ _ Hl) as Hf. unfold KPProofs.feas in *. now rewrite Er.
  - unfold KPProofs.cls. now rewrite Er.
Qed.
Lemma link_chosen s k j a off : srcView s k -> (k <= j)%nat -> nth_error atoms j = Some a -> In off (cutOff a) ->
  isEnd a = false \/ off = mainOff a -> link s (start j + off) ->
  (isEnd a = false -> forall off', In off' (cutOff a) -> reach (Some (start j + off')%nat) -> (off <= off')%nat) -> gchosen k j.
Proof.
  intros Hs Hk Ha Ho He Hl Hmin. pose proof (good_nth j a Ha) as G. destruct (cut_data j a off Ha Ho) as (_ & _ & _ & Hoff).
  assert (gline k j) as Hline0 by (apply (line_of s k j a off); try assumption; [exact (lk_reach _ _ _ _ _ _ Hl)|exact (lk_feas _ _ _ _ _ _ Hl)]).
  assert (forall s' k', reach s' -> srcView s' k' -> (k' <= j)%nat -> feas s' (start j + off) = true -> cls s' (start j + off) = cls s (start j + off) ->
    (k <= k')%nat) as Hearly.
  { intros s' k' R' V' Hk' F' C'. apply (srcLe_view s k s' k' Hs V'). apply (lk_earliest _ _ _ _ _ _ Hl); try assumption. now apply (view_before s' k'). }
  (* if the break is the main one of a spaced word, no line of rank 0 ends there *)
  assert (isSpaced (at_f A a) && negb (f_mark (at_f A a)) = true -> off = mainOff a -> forall k', gline k' j -> gslack k' j <> 0) as Hno.
  { intros Sp Eoff k' (Hst & Hk' & Hen & Hfi) Hsl. destruct (spaced_offs a Sp) as (Ec & Em & E1 & Ee). destruct (starts_reach k' Hst) as (s' & R' & V' & _).
    assert (In 1%nat (cutOff a)) as H1 by (rewrite Ec; now left).
    assert (reach (Some (start j + 1)%nat)) as R1.
    { apply (reach_next _ _ _ _ s'); [exact R'|now apply (view_before s' k')|now apply (explored_at j a)|]. now apply (proj2 (feas_exact s' k' j a 1 V' Ha H1 Hk' E1)). }
    pose proof (Hmin Ee 1%nat H1 R1). lia. }
  split; [exact Hline0|]. destruct (off_cases a off G Ho) as [(Sp & [(-> & E0)| ->])|(Sp & Est & _)].
  - assert (gslack k j = 0) as Hsl by (apply (proj1 (feas_exact s k j a 1 Hs Ha Ho Hk E0)), (lk_feas _ _ _ _ _ _ Hl)).
    assert (grank k j = 0) as Hrk by (unfold rank; rewrite (afterWord_at j a Ha), Sp, Hsl; reflexivity).
    split; [|intros _; exact Hrk]. intros k' Hline' Hr'. rewrite Hrk in Hr'.
    destruct Hline' as (Hst & Hk' & Hen & Hfi). destruct (starts_reach k' Hst) as (s' & R' & V' & _).
    assert (gslack k' j = 0) as Hsl'.
    { unfold rank in Hr'. rewrite (afterWord_at j a Ha), Sp in Hr'. cbn [andb] in Hr'. destruct (Z.eqb_spec (gslack k' j) 0); [assumption|].
      pose proof (tight_pos k' j). lia. }
    apply (Hearly s' k' R' V' Hk'); [now apply (proj2 (feas_exact s' k' j a 1 V' Ha Ho Hk' E0))|].
    now rewrite (cls_exact s' k' j a 1 V' Ha Ho Hk' Hsl'), (cls_exact s k j a 1 Hs Ha Ho Hk Hsl).
  - assert (forall k', gline k' j -> grank k' j = gtight k' j) as Hrk.
    { intros k' Hl'. unfold rank. pose proof (Hno Sp eq_refl k' Hl') as N. destruct (Z.eqb_spec (gslack k' j) 0); [congruence|]. now rewrite andb_false_r. }
    split.
    + intros k' Hline' Hr'. rewrite (Hrk k' Hline'), (Hrk k Hline0) in Hr'. destruct Hline' as (Hst & Hk' & Hen & Hfi).
      destruct (starts_reach k' Hst) as (s' & R' & V' & _). apply (Hearly s' k' R' V' Hk'); [now apply (fits_feas s' k' j a)|].
      apply classZ_inj. rewrite (cls_tight s' k' j a _ V' Ha Ho Hk' eq_refl Hfi), (cls_tight s k j a _ Hs Ha Ho Hk eq_refl); [exact Hr'|apply Hline0].
    + intros (k' & Hline' & Hr'). rewrite (Hrk k' Hline') in Hr'. pose proof (tight_pos k' j). lia.
  - specialize (Est He).
    assert (forall k', grank k' j = gtight k' j) as Hrk by (intros k'; unfold rank; now rewrite (afterWord_at j a Ha), Sp).
    split.
    + intros k' Hline' Hr'. rewrite !Hrk in Hr'. destruct Hline' as (Hst & Hk' & Hen & Hfi).
      destruct (starts_reach k' Hst) as (s' & R' & V' & _). apply (Hearly s' k' R' V' Hk'); [now apply (fits_feas s' k' j a)|].
      apply classZ_inj. rewrite (cls_tight s' k' j a _ V' Ha Ho Hk' Est Hfi), (cls_tight s k j a _ Hs Ha Ho Hk Est); [exact Hr'|apply Hline0].
    + intros (k' & Hline' & Hr'). rewrite Hrk in Hr'. pose proof (tight_pos k' j). lia.
Qed.
Lemma laid_link s k ps lines : laid s k ps lines -> exists i, link s i.
Proof. destruct 1; eauto. Qed.
Theorem laid_greedy s k ps lines : laid s k ps lines -> ggreedy k (map (map (at_f A)) lines).
Proof.
  induction 1 as [s k Hs Hk Hl|s k j a off ps lines Hs Hk Ha Ho He Hl Hlaid IH]; cbn [map].
  - rewrite <- end_seg, <- piece_seg. apply gr_last; [|rewrite (isLast_end _ z last_atom); exact Hz].
    apply (link_chosen s k (length ini) z (mainOff z) Hs Hk last_atom); [|now right|exact Hl|intros E; congruence].
    apply (main_cut A L lb m); [now rewrite Hz, orb_true_r|apply (good_nth _ _ last_atom)].
  - rewrite <- piece_seg. apply gr_cut; [|now rewrite (isLast_end j a Ha)|exact IH].
    apply (link_chosen s k j a off Hs Hk Ha Ho (or_introl He) Hl). intros _ off' Ho' Hr'.
    destruct (laid_link _ _ _ _ Hlaid) as (i & Hl'). now apply (link_least j a off i).
Qed.

(** every layout made of chosen lines is a chain *)
Definition least (s : src) (k : nat) : Prop := forall s', reach s' -> srcView s' k -> srcLe s s'.
Lemma chosen_link s k j a off : srcView s k -> reach s -> least s k -> (k <= j)%nat -> nth_error atoms j = Some a -> In off (cutOff a) ->
  isEnd a = false \/ off = mainOff a -> feas s (start j + off) = true ->
  (forall s' k', reach s' -> srcView s' k' -> (k' <= j)%nat -> feas s' (start j + off) = true -> cls s' (start j + off) = cls s (start j + off) -> (k <= k')%nat) ->
  link s (start j + off).
Proof.
  intros Hs Hr Hmin Hk Ha Ho He Hf Hearly. pose proof (nth_lt j a Ha) as Hj. destruct (cut_data j a off Ha Ho) as (_ & _ & _ & Hoff).
  assert (exists b, nth_error atoms k = Some b) as (b & Hb).
  { destruct (nth_error atoms k) eqn:E; [eauto|]. apply nth_error_None in E. rewrite app_length in E. cbn in E. lia. }
  constructor; [exact Hr|now apply (view_before s k)|now apply (explored_at j a)|exact Hf| |].
  - destruct (src_data s k b Hs Hb) as (-> & _). destruct (Nat.eq_dec k j) as [->|Hne].
    + rewrite Ha in Hb. injection Hb as ->. lia.
    + pose proof (start_lt k j b (boxOff b) Hb (block_len A lb b) ltac:(lia)). lia.
  - intros s' R' B' F' C'. destruct (reach_view s' R') as (k' & V'). pose proof (before_le s' k' j a off V' Ha ltac:(lia) B') as Hk'.
    destruct (Nat.eq_dec k' (S j)) as [->|Hne]; [apply (view_lt s k s' (S j) Hs V'); lia|].
    pose proof (Hearly s' k' R' V' ltac:(lia) F' C') as Hle.
    destruct (Nat.eq_dec k k') as [<-|Hne']; [now apply Hmin|]. apply (view_lt s k s' k' Hs V'). lia.
Qed.
Lemma greedy_laid k segs : ggreedy k segs -> forall s, srcView s k -> reach s -> least s k ->
  exists ps lines, laid s k ps lines /\ segs = map (map (at_f A)) lines.
Proof.
  induction 1 as [k j Hch Hla|k j segs Hch Hla Hgr IH]; intros s Hs Hr Hmin;
    destruct Hch as (Hline0 & Hlong & Hzero); pose proof Hline0 as (Hst & Hk & Hen & Hfi); destruct (endsAt_nth j Hen) as (a & Ha);
    pose proof (proj1 (endsAt_cut j a Ha) Hen) as Hm; rewrite (isLast_end j a Ha) in Hla; pose proof (good_nth j a Ha) as G.
  - destruct (end_nth j a Ha Hla) as [-> ->].
    exists [start (length ini) + mainOff z]%nat, [skipn k atoms]. split; [|cbn [map]; now rewrite piece_seg, end_seg].
    apply laid_last; [exact Hs|exact Hk|]. apply (chosen_link s k (length ini) z _ Hs Hr Hmin Hk Ha Hm (or_intror eq_refl)).
    + now apply (fits_feas s k (length ini) z _ Hs Ha Hm Hk eq_refl).
    + intros s' k' R' V' Hk' F' C'.
      assert (gline k' (length ini)) as Hl' by (apply (line_of s' k' _ z (mainOff z)); auto). apply (Hlong k' Hl').
      assert (forall x, grank x (length ini) = gtight x (length ini)) as Hrk.
      { intros x. unfold rank. rewrite (afterWord_at _ z Ha). unfold Frags.isEnd in Hla. unfold isSpaced. destruct (f_joint (at_f A z)); discriminate Hla || reflexivity. }
      rewrite !Hrk, <- (cls_tight s' k' _ z _ V' Ha Hm Hk' eq_refl), <- (cls_tight s k _ z _ Hs Ha Hm Hk eq_refl) by (assumption || apply Hl'). now rewrite C'.
  - (* the offset of the break *)
    assert (exists off, In off (cutOff a) /\ feas s (start j + off) = true /\
      (forall s' k', reach s' -> srcView s' k' -> (k' <= j)%nat -> feas s' (start j + off) = true -> cls s' (start j + off) = cls s (start j + off) -> (k <= k')%nat) /\
      (forall off', In off' (cutOff a) -> reach (Some (start j + off')%nat) -> (off <= off')%nat)) as (off & Ho & Hf & Hearly & Hleast).
    { destruct (isSpaced (at_f A a) && negb (f_mark (at_f A a))) eqn:Sp.
      - destruct (spaced_offs a Sp) as (Ec & Em & E1 & Ee). destruct (Z.eq_dec (gslack k j) 0) as [Hsl|Hsl].
        + assert (In 1%nat (cutOff a)) as H1 by (rewrite Ec; now left).
          assert (grank k j = 0) as Hrk by (unfold rank; rewrite (afterWord_at j a Ha), Sp, Hsl; reflexivity).
          exists 1%nat. split; [exact H1|]. split; [now apply (proj2 (feas_exact s k j a 1 Hs Ha H1 Hk E1))|]. split.
          * intros s' k' R' V' Hk' F' _. apply Hlong; [apply (line_of s' k' j a 1); auto|].
            rewrite Hrk. unfold rank. now rewrite (afterWord_at j a Ha), Sp, (proj1 (feas_exact s' k' j a 1 V' Ha H1 Hk' E1) F').
          * intros off' Ho' _. rewrite Ec in Ho'. destruct Ho' as [<-|[<-|[]]]; lia.
        + assert (grank k j <> 0) as Hrk.
          { unfold rank. destruct (Z.eqb_spec (gslack k j) 0); [congruence|]. rewrite andb_false_r. pose proof (tight_pos k j). lia. }
          assert (forall k', gline k' j -> gslack k' j <> 0) as Hno.
          { intros k' Hl' Hsl'. apply Hrk, Hzero. exists k'. split; [exact Hl'|]. unfold rank. now rewrite (afterWord_at j a Ha), Sp, Hsl'. }
          assert (forall k', gline k' j -> grank k' j = gtight k' j) as Hrt.
          { intros k' Hl'. unfold rank. pose proof (Hno k' Hl') as N. destruct (Z.eqb_spec (gslack k' j) 0); [congruence|]. now rewrite andb_false_r. }
          exists (mainOff a). split; [exact Hm|]. split; [now apply (fits_feas s k j a _ Hs Ha Hm Hk eq_refl)|]. split.
          * intros s' k' R' V' Hk' F' C'. assert (gline k' j) as Hl' by (apply (line_of s' k' j a (mainOff a)); auto). apply (Hlong k' Hl').
            rewrite (Hrt k' Hl'), (Hrt k Hline0), <- (cls_tight s' k' j a _ V' Ha Hm Hk' eq_refl), <- (cls_tight s k j a _ Hs Ha Hm Hk eq_refl) by (assumption || apply Hl').
            now rewrite C'.
          * intros off' Ho' R'. rewrite Ec in Ho'. destruct Ho' as [<-|[<-|[]]]; [exfalso|lia].
            assert (In 1%nat (cutOff a)) as H1 by (rewrite Ec; now left).
            inversion R' as [|s0 i0 R0 B0 E0 F0]; subst. destruct (reach_view s0 R0) as (k0 & V0).
            destruct (cut_data j a 1 Ha H1) as (_ & _ & _ & Hoff).
            pose proof (before_le s0 k0 j a 1 V0 Ha ltac:(lia) B0) as Hk0. destruct (Nat.eq_dec k0 (S j)) as [->|Hne].
            -- destruct s0 as [p0|]; [|discriminate V0]. destruct V0 as (j0 & (a0 & off0 & Ha0 & Ho0 & ->) & Ej). injection Ej as <-.
               rewrite Ha in Ha0. injection Ha0 as <-. rewrite Ec in Ho0. cbn in B0. destruct Ho0 as [<-|[<-|[]]]; lia.
            -- apply (Hno k0); [apply (line_of s0 k0 j a 1); auto; lia|]. apply (proj1 (feas_exact s0 k0 j a 1 V0 Ha H1 ltac:(lia) E1) F0).
      - assert (forall x, grank x j = gtight x j) as Hrk by (intros x; unfold rank; now rewrite (afterWord_at j a Ha), Sp).
        exists (mainOff a). split; [exact Hm|]. split; [now apply (fits_feas s k j a _ Hs Ha Hm Hk eq_refl)|]. split.
        + intros s' k' R' V' Hk' F' C'. assert (gline k' j) as Hl' by (apply (line_of s' k' j a (mainOff a)); auto). apply (Hlong k' Hl').
          rewrite !Hrk, <- (cls_tight s' k' j a _ V' Ha Hm Hk' eq_refl), <- (cls_tight s k j a _ Hs Ha Hm Hk eq_refl) by (assumption || apply Hl'). now rewrite C'.
        + intros off' Ho' _. destruct (off_cases a off' G Ho') as [(Sp' & _)|(_ & _ & H)]; [congruence|]. now apply H. }
    pose proof (chosen_link s k j a off Hs Hr Hmin Hk Ha Ho (or_introl Hla) Hf Hearly) as Hl.
    assert (reach (Some (start j + off)%nat)) as Hr2.
    { apply (reach_next _ _ _ _ s); [exact Hr|now apply (view_before s k)|now apply (explored_at j a)|exact Hf]. }
    destruct (IH (Some (start j + off)%nat) (view_at j a off Ha Ho) Hr2) as (ps & lines & Hlaid & ->).
    { intros s' R' V'. destruct s' as [p'|]; [|discriminate V']. destruct V' as (j0 & (a0 & off0 & Ha0 & Ho0 & ->) & Ej). injection Ej as <-.
      rewrite Ha in Ha0. injection Ha0 as <-. cbn. pose proof (Hleast off0 Ho0 R'). lia. }
    exists ((start j + off)%nat :: ps), (seg k j :: lines). split; [|cbn [map]; now rewrite piece_seg].
    now apply (laid_cut s k j a off).
Qed.
Lemma laid_chain s k ps lines : laid s k ps lines -> chain A ko nodes Wd body s ps /\ ps <> [].
Proof.
  induction 1 as [s k Hs Hk Hl|s k j a off ps lines Hs Hk Ha Ho He Hl Hlaid (IH & _)]; (split; [|discriminate]); cbn [chain].
  - split; [exact Hl|]. f_equal. symmetry. apply nodes_body.
  - split; [exact Hl|exact IH].
Qed.

End Chosen.

(** The search *)
Variable wF : F.
Hypothesis HwF : rep wF Wd.
Variable ord : nat -> nat -> list fclass.
Hypothesis Hord : forall i k c, In c (ord i k).

Lemma start_ok : findStartNode A nodes 0 = 0%nat \/
  (findStartNode A nodes 0 = 1%nat /\ exists n, nth_error nodes 0 = Some n /\ isPenalty n = true /\ explored A nodes 0 = false).
Proof.
  destruct atoms as [|a l] eqn:E; [now destruct ini|].
  assert (feq A (infinity A) (minusInfinity A) = false) as E1 by (unfold infinity, minusInfinity; rewrite (eq_small A L) by lia; reflexivity).
  assert (feq A (infinity A) (infinity A) = true) as E2 by (unfold infinity; rewrite (eq_small A L) by lia; reflexivity).
  rewrite nodesOf_cons. unfold Frags.atomNodes. destruct (f_mark (at_f A a)).
  - right. unfold markNodes. cbn [app findStartNode n_type newPenalty n_penalty newGlue]. rewrite E1. split; [reflexivity|].
    eexists. split; [reflexivity|]. split; [reflexivity|]. unfold explored. cbn [nth_error n_type newPenalty n_penalty]. now rewrite E2.
  - left. reflexivity.
Qed.

Lemma node_widths i n : nth_error nodes i = Some n -> zw A n <= 2 ^ 50.
Proof.
  intros Hi. destruct (isPenalty n) eqn:Ep.
  + destruct (decode i) as (j & a & off & Ha & -> & Ho).
    { apply nth_error_Some. congruence. }
    rewrite (nth_block j a off Ha Ho) in Hi. clear -Hi Ep Hhy0 Hhy L Hglue. apply nth_error_In in Hi.
    assert (zw A n = 0 \/ zw A n = hy) as [E|E]; [|lia|lia].
    pose proof (fint_small A L 0 ltac:(lia)) as E0. pose proof (rep_int A L _ _ Hhy) as Eh.
    unfold Frags.atomNodes, markNodes, joinNodes, pushHyphen, spaceNodes, finalNodes in Hi.
    destruct (f_mark (at_f A a)), (f_joint (at_f A a)); try destruct rh; cbn [app In] in Hi;
      repeat (destruct Hi as [<-|Hi]; [try discriminate Ep; unfold zw; cbn [n_sums newPenalty su_width]; auto|]); destruct Hi.
  + assert (zw A n <= PW A nodes (S i)) as Hle.
    { rewrite (PW_S A nodes i n Hi). unfold addW. rewrite Ep. pose proof (PW_nonneg A L nodes good_nodes i). lia. }
    pose proof (PW_le_all (S i)). lia.
Qed.
Theorem para_spec :
  (breakPoints A ko ord nodes [wF] = Ret None /\
    ~ exists lines, layout softOn (map (at_f A) atoms) lines /\ linesOk true lines = true) \/
  (exists bs lines, breakPoints A ko ord nodes [wF] = Ret (Some bs) /\ laid None 0 (map b_position bs) lines /\
    Forall (fun x => b_ratio x = fZ 0) bs).
Proof.
  pose proof nodes_body as (Hn & Hb & _).
  destruct (breakPoints_spec A L ko Hbad Hline Hflag Hfit nodes Wd wF HwF ltac:(lia) good_nodes) with (body := body) (fin := finNode A) (ord := ord)
    as [(E & Hno)|(bs & E & Hc & Hr & Hne)]; try assumption.
  - intros i. pose proof (PW_le_all i). lia.
  - intros i. pose proof (PS_all i). lia.
  - exact node_widths.
  - exact fin_forced.
  - intros i He. left. now apply explored_first.
  - apply start_ok.
  - left. split; [exact E|]. intros (lines & Hlay & Hok).
    destruct (layout_reach _ _ Hlay None 0%nat eq_refl ltac:(lia) eq_refl (reach_first _ _ _ _) Hok) as (s' & k' & H1 & H2 & H3 & _).
    rewrite (Hno s' H1 H2) in H3. discriminate.
  - right. destruct (chain_laid (map b_position bs) None 0%nat eq_refl ltac:(lia)) as (lines & Hl); [now destruct bs|exact Hc|].
    exists bs, lines. auto.
Qed.

(** Orders of iteration that lead to a chain *)
Definition rotation (c : fclass) : list fclass :=
  match c with C0 => [C0; C1; C2; C3] | C1 => [C1; C2; C3; C0] | C2 => [C2; C3; C0; C1] | C3 => [C3; C0; C1; C2] end.
Fixpoint steer (s : src) (ps : list nat) (i : nat) : fclass :=
  match ps with [] => C0 | p :: ps' => if (i =? p)%nat then cls A nodes Wd s p else steer (Some p) ps' i end.
Lemma steer_ok (f : nat -> fclass) ps : forall s, StronglySorted lt ps -> (forall p, In p ps -> f p = steer s ps p) ->
  steers A nodes Wd (fun i _ => rotation (f i)) s ps.
Proof.
  induction ps as [|p ps IH]; intros s Hs Hf; [exact I|]. cbn [steers]. apply StronglySorted_inv in Hs. destruct Hs as [Hs Hlt]. split.
  - rewrite (Hf p (or_introl eq_refl)). cbn [steer]. rewrite Nat.eqb_refl. destruct (cls A nodes Wd s p); eexists; reflexivity.
  - apply IH; [exact Hs|]. intros q Hq. rewrite (Hf q (or_intror Hq)). cbn [steer]. rewrite Forall_forall in Hlt. specialize (Hlt q Hq).
    destruct (Nat.eqb_spec q p); [lia|reflexivity].
Qed.
Theorem para_steered segs : greedy rh softOn m sp hy A (k_tolerance ko) Wd (map (at_f A) atoms) 0 segs ->
  exists f bs lines, breakPoints A ko (fun i _ => rotation (f i)) nodes [wF] = Ret (Some bs) /\ laid None 0 (map b_position bs) lines /\
    Forall (fun x => b_ratio x = fZ 0) bs /\ segs = map (map (at_f A)) lines.
Proof.
  intros Hg. destruct (greedy_laid 0 segs Hg None eq_refl (reach_first _ _ _ _)) as (ps & lines & Hl & ->).
  { intros s' _ _. now destruct s'. }
  destruct (laid_chain _ _ _ _ Hl) as [Hc Hne]. pose proof nodes_body as (Hn & Hb & _).
  exists (steer None ps).
  destruct (breakPoints_steered A L ko Hbad Hline Hflag Hfit nodes Wd wF HwF ltac:(lia) good_nodes) with (body := body) (fin := finNode A)
    (ord := fun i (_ : nat) => rotation (steer None ps i)) (ps := ps) as (bs & E & Hps & Hr); try assumption.
  - intros i. pose proof (PW_le_all i). lia.
  - intros i. pose proof (PS_all i). lia.
  - exact node_widths.
  - exact fin_forced.
  - intros i _ c. destruct (steer None ps i), c; cbn; tauto.
  - intros i He. left. now apply explored_first.
  - apply start_ok.
  - apply steer_ok; [|reflexivity]. eapply proj1, chain_sorted; eassumption.
  - exists bs, lines. rewrite Hps. auto.
Qed.

(** Rendering *)
Hypothesis Hz0 : forall x, rep x 0 -> fint A (downScale A o x) = 0.
Hypothesis Hsp1 : forall x, rep x sp -> fint A (downScale A o x) = 1.
Hypothesis Hhyph : rh = true ->
  feq A (fZ 0) (l_hyphenPenalty o) = false /\ feq A (fZ 200) (l_hyphenPenalty o) = false /\ feq A (fZ 400) (l_hyphenPenalty o) = false.
Variable attrs : state.
Hypothesis Hattrs : Forall (atomOk A attrs) atoms.
Notation lineShow := (lineShow A lb attrs).
Notation nexts := (nexts attrs).
Fixpoint showLines (it : iter) (lines : list (list atom)) : list (list rune) :=
  match lines with
  | [] => []
  | l :: ls => let it' := nexts (length l) it in
      (concat (startOfLine attrs it) ++ lineShow l ++ concat (endOfLine attrs it')) :: showLines it' ls
  end.

Lemma lineNodes s k j a b off : srcView s k -> nth_error atoms k = Some b -> nth_error atoms j = Some a -> (k <= j)%nat ->
  In off (cutOff a) ->
  skipn (first A nodes s) (firstn (S (start j + off)) nodes) =
  if (k =? j)%nat then skipn (boxOff a) (firstn (S off) (atomNodes a))
  else skipn (boxOff b) (atomNodes b) ++ nodesOf (skipn (S k) (firstn j atoms)) ++ firstn (S off) (atomNodes a).
Proof.
  intros Hs Hb Ha Hk Ho. destruct (src_data s k b Hs Hb) as (-> & _). destruct (cut_data j a off Ha Ho) as (_ & _ & _ & Hoff).
  replace (S (start j + off)) with (start j + S off)%nat by lia. rewrite (firstn_block j a) by (assumption || lia).
  destruct (Nat.eqb_spec k j) as [->|Hne].
  - rewrite Ha in Hb. injection Hb as ->. rewrite skipn_app. fold (start j).
    rewrite skipn_all2 by (unfold start; lia). cbn [app]. f_equal. unfold start. lia.
  - assert (nodesOf (firstn j atoms) = nodesOf (firstn k atoms) ++ atomNodes b ++ nodesOf (skipn (S k) (firstn j atoms))) as E.
    { rewrite <- nodesOf_cons, <- nodesOf_app. f_equal.
      assert (nth_error (firstn j atoms) k = Some b) as Eb.
      { rewrite <- (firstn_skipn j atoms) in Hb. rewrite nth_error_app1 in Hb; [exact Hb|].
        pose proof (nth_lt j a Ha). rewrite firstn_length, app_length. cbn [length]. lia. }
      rewrite <- (skipn_cons _ _ _ Eb). rewrite <- (firstn_skipn k (firstn j atoms)) at 1.
      rewrite firstn_firstn, Nat.min_l by lia. reflexivity. }
    rewrite E, <- !app_assoc. unfold start. rewrite skipn_app. rewrite skipn_all2 by lia. cbn [app].
    replace (length (nodesOf (firstn k atoms)) + boxOff b - length (nodesOf (firstn k atoms)))%nat with (boxOff b) by lia.
    rewrite skipn_app. pose proof (block_len A lb b). replace (boxOff b - length (atomNodes b))%nat with 0%nat by lia. reflexivity.
Qed.
Lemma nodes_inner l : flat_map (nodeShow A lb attrs false) (nodesOf l) = flat_map (fun a => boxShow A attrs a ++ spaceShow A a) l.
Proof.
  induction l as [|a l IH]; [reflexivity|]. rewrite nodesOf_cons, flat_map_app, IH. cbn [flat_map]. f_equal.
  apply (block_inner A L lb sp Hglue Hsp Hz0 Hsp1).
Qed.
Lemma lineShow_snoc l a : lineShow (l ++ [a]) = flat_map (fun a => boxShow A attrs a ++ spaceShow A a) l ++ boxShow A attrs a ++ hyphShow A lb a.
Proof.
  induction l as [|b l IH]; [reflexivity|]. cbn [app flat_map]. cbn [Show.lineShow].
  assert (exists x y, l ++ [a] = x :: y) as (x & y & E) by (destruct l; cbn; eauto). rewrite E in *. rewrite IH.
  now rewrite <- !app_assoc.
Qed.
Lemma nodes_boxes l : boxes A (nodesOf l) = length l.
Proof. induction l as [|a l IH]; [reflexivity|]. rewrite nodesOf_cons, boxes_app, IH, (block_boxes A lb Hglue). reflexivity. Qed.
Lemma nodes_ok l : Forall (atomOk A attrs) l -> Forall (nodeOk A lb attrs) (nodesOf l).
Proof.
  induction 1 as [|a l Ha _ IH]; [constructor|]. rewrite nodesOf_cons. apply Forall_app. split; [|exact IH].
  apply (block_ok A L lb sp Hglue Hsp Hz0 Hsp1); assumption.
Qed.
Lemma line_render s k j a off it w : srcView s k -> nth_error atoms j = Some a -> (k <= j)%nat -> In off (cutOff a) ->
  renderLine A o attrs (fZ 0) (skipn (first A nodes s) (firstn (S (start j + off)) nodes)) it w =
  Ret (w ++ lineShow (seg k j), nexts (length (seg k j)) it).
Proof.
  intros Hs Ha Hk Ho. pose proof (nth_lt j a Ha) as Hj.
  assert (exists b, nth_error atoms k = Some b) as (b & Hb).
  { destruct (nth_error atoms k) eqn:E; [eauto|]. apply nth_error_None in E. rewrite app_length in E. cbn in E. lia. }
  rewrite (renderLine_show A L).
  2: { apply Forall_skipn', Forall_firstn', nodes_ok. exact Hattrs. }
  rewrite (lineNodes s k j a b off Hs Hb Ha Hk Ho), (seg_snoc k j a Ha Hk), lineShow_snoc.
  pose proof (good_nth j a Ha) as G.
  destruct (cut_show A L lb m Hglue Hhp Hz0 attrs Hhyph a off G Ho) as [C1 C2].
  destruct (cut_boxes A lb Hglue a off Ho) as [B1 B2].
  destruct (Nat.eqb_spec k j) as [->|Hne].
  - rewrite C2, B2. rewrite skipn_all2 by (rewrite firstn_length; lia). reflexivity.
  - assert (skipn k (firstn j atoms) = b :: skipn (S k) (firstn j atoms)) as ->.
    { apply skipn_cons. rewrite <- (firstn_skipn j atoms) in Hb. rewrite nth_error_app1 in Hb; [exact Hb|].
      rewrite firstn_length, app_length. cbn [length]. lia. }
    f_equal. f_equal.
    + f_equal. rewrite app_assoc, showNodes_app, flat_map_app, nodes_inner, C1.
      2: { unfold Frags.atomNodes. destruct (f_mark (at_f A a)); discriminate. }
      cbn [flat_map]. f_equal. f_equal. apply (block_inner A L lb sp Hglue Hsp Hz0 Hsp1).
    + f_equal. rewrite !boxes_app, B1, nodes_boxes, (block_boxes_skip A lb Hglue), app_length. cbn [length]. lia.
Qed.

Lemma firstn_skip_slice (s i : nat) : (s <= S i)%nat -> (S i <= length nodes)%nat ->
  slice nodes (Z.of_nat s) (Z.of_nat i + 1) = Ret (skipn s (firstn (S i) nodes)).
Proof.
  intros H1 H2. unfold slice, zlen.
  destruct (Z.leb_spec 0 (Z.of_nat s)); [|lia]. destruct (Z.leb_spec (Z.of_nat s) (Z.of_nat i + 1)); [|lia].
  destruct (Z.leb_spec (Z.of_nat i + 1) (Z.of_nat (length nodes))); [|lia]. cbn [andb]. f_equal.
  rewrite Nat2Z.id. replace (Z.to_nat (Z.of_nat i + 1 - Z.of_nat s)) with (S i - s)%nat by lia.
  now rewrite skipn_firstn_comm.
Qed.
Lemma laid_render s k ps lines : laid s k ps lines -> forall bs, map b_position bs = ps -> Forall (fun x => b_ratio x = fZ 0) bs ->
  exists ls, cutLines A nodes bs (match s with None => 0%nat | Some p => p end) = Ret ls /\
  forall it, renderLines A o attrs ls it = Ret (showLines it lines).
Proof.
  assert (forall s i, link A ko nodes Wd s i -> skipNodes A (match s with None => 0%nat | Some p => p end) nodes = first A nodes s) as Hfirst.
  { intros [p|] i _; reflexivity. }
  assert (forall s i, link A ko nodes Wd s i -> slice nodes (Z.of_nat (first A nodes s)) (Z.of_nat i + 1) = Ret (skipn (first A nodes s) (firstn (S i) nodes))) as Hslice.
  { intros s' i Hl. pose proof (link_first _ _ Hl). pose proof (explored_lt_nodes _ (lk_explored _ _ _ _ _ _ Hl)).
    apply firstn_skip_slice; lia. }
  induction 1 as [s k Hs Hk Hl|s k j a off ps lines Hs Hk Ha Ho He Hl Hlaid IH]; intros bs Hps Hr.
  - destruct bs as [|b bs]; [discriminate|]. cbn [map] in Hps. injection Hps as Eb Hps. apply map_eq_nil in Hps. subst bs.
    inversion Hr as [|? ? Hb _]; subst. cbn [cutLines]. rewrite (Hfirst s _ Hl), Eb, (Hslice s _ Hl). cbn [gbind].
    eexists. split; [reflexivity|]. intros it. cbn [renderLines]. rewrite Hb.
    assert (In (mainOff z) (cutOff z)) as Hm.
    { apply (main_cut A L lb m); [now rewrite Hz, orb_true_r|apply (good_nth _ _ last_atom)]. }
    rewrite (line_render s k (length ini) z _ it _ Hs last_atom Hk Hm). cbn [gbind]. rewrite end_seg. cbn [showLines].
    now rewrite <- app_assoc.
  - destruct bs as [|b bs]; [discriminate|]. cbn [map] in Hps. injection Hps as Eb Hps.
    inversion Hr as [|? ? Hb Hr']; subst. destruct (IH bs eq_refl Hr') as (ls & E & Hls).
    cbn [cutLines]. rewrite (Hfirst s _ Hl), Eb, (Hslice s _ Hl). cbn [gbind]. rewrite E. cbn [gbind].
    eexists. split; [reflexivity|]. intros it. cbn [renderLines]. rewrite Hb.
    rewrite (line_render s k j a off it _ Hs Ha Hk Ho). cbn [gbind]. rewrite Hls. cbn [gbind showLines]. now rewrite <- app_assoc.
Qed.

(** Breaking and rendering *)
Theorem render_spec :
  (breakPoints A ko ord nodes [wF] = Ret None /\
    ~ exists lines, layout softOn (map (at_f A) atoms) lines /\ linesOk true lines = true) \/
  (exists bs lines, breakPoints A ko ord nodes [wF] = Ret (Some bs) /\
    render A o attrs nodes bs = Ret (showLines (iterator attrs) lines) /\
    concat lines = atoms /\ laid None 0 (map b_position bs) lines /\
    layout softOn (map (at_f A) atoms) (map (map (at_f A)) lines) /\ linesOk true (map (map (at_f A)) lines) = true).
Proof.
  destruct para_spec as [H|(bs & lines & E & Hl & Hr)]; [now left|right].
  exists bs, lines. split; [exact E|]. destruct (laid_layout _ _ _ _ Hl) as (H1 & H2 & H3 & _).
  destruct (laid_render _ _ _ _ Hl bs eq_refl Hr) as (ls & E1 & E2).
  unfold render. rewrite E1. cbn [gbind]. rewrite E2. auto.
Qed.
Theorem render_steered segs : greedy rh softOn m sp hy A (k_tolerance ko) Wd (map (at_f A) atoms) 0 segs ->
  exists f bs lines, breakPoints A ko (fun i _ => rotation (f i)) nodes [wF] = Ret (Some bs) /\
    render A o attrs nodes bs = Ret (showLines (iterator attrs) lines) /\ concat lines = atoms /\ segs = map (map (at_f A)) lines.
Proof.
  intros Hg. destruct (para_steered segs Hg) as (f & bs & lines & E & Hl & Hr & ->).
  exists f, bs, lines. split; [exact E|]. destruct (laid_layout _ _ _ _ Hl) as (_ & _ & H3 & _).
  destruct (laid_render _ _ _ _ Hl bs eq_refl Hr) as (ls & E1 & E2).
  unfold render. rewrite E1. cbn [gbind]. rewrite E2. auto.
Qed.
End Para.
