(** Lines made of any nodes. *)
From Verif Require Import Base Arith Unicode Ansi SpecAnsi AnsiProofs Attr KP Nodes Render SpecKP Cost KPProofs KPStart Show SpecFormat Format SpecAny AnyNodes.

Section Lines.
Variable A : arith.
Variable L : laws A.
Variable lb : breaker A.
Notation o := (lb_opts lb).
Notation rh := (l_renderHyphens o).
Notation fZ := (fZ A).
Notation rep := (rep A L).
Notation node := (node A).
Notation zw := (zw A).
Notation sumW := (sumW A).
Notation sumS := (sumS A).
Notation boxText := (boxText A).
Variable m : list rune -> Z.
Variable seqs : list (list rune).
Variable attrs : state.
Notation fine := (fine A L lb m attrs).
Hypothesis Hpen : bnd A L 100 (l_hyphenPenalty o).
Hypothesis Hz0 : forall x, rep x 0 -> fint A (downScale A o x) = 0.
Hypothesis Hz1 : forall x, rep x (m [32]) -> fint A (downScale A o x) = 1.
Hypothesis Hkept : Forall (inSeqs seqs) attrs.

(** ** What nodes show *)
Definition plainNode (isLast : bool) (n : node) : list rune :=
  match n_type n with
  | TBox => n_value n
  | TGlue => if zw n =? 0 then [] else [32]
  | TPenalty => if rh && feq A (n_penalty n) (l_hyphenPenalty o) && isLast then [45] else []
  end.
Fixpoint plainNodes (ns : list node) : list rune :=
  match ns with
  | [] => []
  | n :: ns' => plainNode (match ns' with [] => true | _ => false end) n ++ plainNodes ns'
  end.
Lemma pad_good n : goodNode A L n -> rep (padOf A n) (zw n).
Proof.
  intros H. unfold padOf. replace (zw n) with (zw n + 0) by lia. apply rep_add; [apply H| |].
  - replace 0 with (0 * zs A n) by lia. apply rep_mul; [apply rep_small; lia|apply H|]. unfold exactZ. lia.
  - rewrite Z.add_0_r. apply (rep_exact A L (su_width (n_sums n))). apply H.
Qed.
Lemma glue_shows n : fine n -> isGlue n = true -> spaces A lb n = if zw n =? 0 then 0 else 1.
Proof.
  intros H Hg. unfold spaces. pose proof (pad_good n (fi_good _ _ _ _ _ _ H)) as Hp. destruct (zw n =? 0) eqn:E.
  - apply Hz0. assert (zw n = 0) as E0 by lia. now rewrite E0 in Hp.
  - apply Hz1. destruct (fi_glue _ _ _ _ _ _ H Hg) as [E0|E0]; [lia|]. now rewrite E0 in Hp.
Qed.
Lemma fine_ok n : fine n -> nodeOk A lb attrs n.
Proof.
  intros H. unfold nodeOk. destruct (n_type n) eqn:Et; [exact I| |].
  - rewrite glue_shows by (try assumption; unfold isGlue; now rewrite Et). destruct (zw n =? 0); lia.
  - assert (isBox n = true) as Hb by (unfold isBox; now rewrite Et). destruct (fi_box _ _ _ _ _ _ H Hb) as (_ & i & a & H1 & H2 & _). eauto.
Qed.
Lemma show_dec b n : fine n -> decorated seqs (nodeShow A lb attrs b n) (plainNode b n).
Proof.
  intros H. unfold nodeShow, plainNode. destruct (n_type n) eqn:Et; [apply dec_same| |].
  - rewrite glue_shows by (try assumption; unfold isGlue; now rewrite Et). destruct (zw n =? 0); apply dec_same.
  - assert (isBox n = true) as Hb by (unfold isBox; now rewrite Et). destruct (fi_box _ _ _ _ _ _ H Hb) as (_ & i & a & H1 & H2 & <-).
    rewrite H1. unfold attrText. rewrite H2. apply dec_render. rewrite Forall_forall in Hkept. apply Hkept. now apply nth_error_In in H2.
Qed.
Lemma shows_dec ns : Forall fine ns -> decorated seqs (showNodes A lb attrs ns) (plainNodes ns).
Proof. induction 1 as [|n ns H _ IH]; [constructor|]. cbn [showNodes plainNodes]. apply dec_app; [now apply show_dec|exact IH]. Qed.
Lemma plain_dec ns : decorated (added rh) (plainNodes ns) (boxText ns).
Proof.
  induction ns as [|n ns IH]; [constructor|]. cbn [plainNodes]. change (boxText (n :: ns)) with (boxText ([n] ++ ns)). rewrite boxText_app.
  apply dec_app; [|exact IH]. unfold plainNode, AnyNodes.boxText. cbn [filter]. unfold isBox. destruct (n_type n).
  - cbn [map concat]. destruct (rh && feq A (n_penalty n) (l_hyphenPenalty o) && match ns with [] => true | _ => false end) eqn:E; [|constructor].
    apply andb_prop in E as [E _]. apply andb_prop in E as [E _]. rewrite <- (app_nil_r [45]). apply de_seq; [|constructor]. unfold added. rewrite E. cbn. auto.
  - cbn [map concat]. destruct (zw n =? 0); [constructor|]. rewrite <- (app_nil_r [32]). apply de_seq; [|constructor]. now left.
  - cbn [map concat]. rewrite app_nil_r. apply dec_same.
Qed.
Lemma plainNodes_snoc ns n : plainNodes (ns ++ [n]) = flat_map (plainNode false) ns ++ plainNode true n.
Proof.
  induction ns as [|x ns IH]; [cbn; now rewrite app_nil_r|]. cbn [app plainNodes flat_map]. rewrite IH, <- app_assoc. f_equal.
  destruct ns; reflexivity.
Qed.
Section Additive.
Hypothesis Hadd : forall a b, m (a ++ b) = m a + m b.
Lemma m_nil : m [] = 0. Proof. pose proof (Hadd [] []) as H. cbn in H. lia. Qed.
Lemma plain_width ns : Forall fine ns -> m (flat_map (plainNode false) ns) = sumW ns.
Proof.
  induction 1 as [|n ns H _ IH]; [apply m_nil|]. cbn [flat_map]. rewrite Hadd, IH. unfold KPProofs.sumW. cbn [map zsum]. f_equal.
  unfold plainNode, addW. unfold isPenalty. destruct (n_type n) eqn:Et.
  - rewrite andb_false_r. apply m_nil.
  - assert (isGlue n = true) as Hg by (unfold isGlue; now rewrite Et). destruct (fi_glue _ _ _ _ _ _ H Hg) as [E|E]; rewrite E.
    + rewrite Z.eqb_refl. apply m_nil.
    + destruct (m [32] =? 0) eqn:E0; [rewrite m_nil; lia|reflexivity].
  - assert (isBox n = true) as Hb by (unfold isBox; now rewrite Et). destruct (fi_box _ _ _ _ _ _ H Hb) as (E & _). congruence.
Qed.
End Additive.

(** ** Lines of a chain of breaks *)
Definition endGlue : node := newGlue A (fZ 0) (infinity A) (fZ 0).
Definition endPen : node := newPenalty A (fZ 0) (minusInfinity A) true.
Variable body : list node.
Variable text : list rune.
Variable W : Z.
Hypothesis Hfine : Forall fine body.
Hypothesis Hopen : Forall (fun n => isForcedBreak n = false) body.
Hypothesis Hadj : adj A true body.
Hypothesis Htext : boxText body = text.
Hypothesis Hwidth : sumW body <= 2 ^ 50.
Hypothesis Hstretch : forall i, - 2 ^ 17 <= sumS (firstn i body) <= 2 ^ 17.
Variable wF : F A.
Hypothesis HwF : rep wF W.
Hypothesis HW : - 2 ^ 50 <= W <= 2 ^ 50.
Notation nodes := (body ++ [endPen]).
Lemma rep00 : rep (fZ 0) 0. Proof. apply rep_small; lia. Qed.
Lemma rep_inf : rep (infinity A) 10000. Proof. apply rep_small; lia. Qed.
Lemma pen_forced : isForcedBreak endPen = true.
Proof.
  unfold isForcedBreak, endPen, newPenalty, minusInfinity. cbn. rewrite (rep_eq A L _ _ (-10000) (-10000)); [reflexivity|apply rep_small; lia|apply rep_small; lia].
Qed.
Lemma pen_inf : feq A (minusInfinity A) (infinity A) = false.
Proof. unfold minusInfinity, infinity. rewrite (rep_eq A L _ _ (-10000) 10000); [reflexivity|apply rep_small; lia|apply rep_small; lia]. Qed.
Lemma pen_not_hyphen : feq A (minusInfinity A) (l_hyphenPenalty o) = false.
Proof. rewrite (eq_sym A L). apply (bnd_neg A L 100 _ _ Hpen). lia. Qed.
Lemma fine_endPen : fine endPen.
Proof.
  constructor; try discriminate.
  - constructor; unfold KPProofs.zw, KPProofs.zs, endPen, newPenalty; cbn [n_sums su_width su_stretch su_shrink n_penalty].
    + rewrite (rep_int A L _ _ rep00). exact rep00.
    + rewrite (rep_int A L _ _ rep00). lia.
    + rewrite (rep_int A L _ _ rep00). exact rep00.
    + exact rep00.
    + intros H. pose proof pen_forced as E. unfold endPen, newPenalty in E. congruence.
    + reflexivity.
  - intros _ _ _ H. exfalso. cbn in H. rewrite pen_not_hyphen in H. discriminate.
  - intros _. unfold KPProofs.zw, endPen, newPenalty. cbn [n_sums su_width]. rewrite (rep_int A L _ _ rep00). lia.
Qed.
Lemma zw_endPen : zw endPen = 0. Proof. apply (rep_int A L _ _ rep00). Qed.
Lemma fine_nodes : Forall fine nodes.
Proof. apply Forall_app; split; [exact Hfine|]. constructor; [apply fine_endPen|constructor]. Qed.
Lemma good_nodes : Forall (goodNode A L) nodes.
Proof. eapply Forall_impl; [|exact fine_nodes]. intros n H. apply H. Qed.
Lemma adj_nodes : adj A true nodes.
Proof. apply adj_app; [exact Hadj|]. cbn [adj]. split; [discriminate|exact I]. Qed.
Lemma nodes_width : sumW nodes = sumW body.
Proof. rewrite sumW_app. unfold KPProofs.sumW. cbn. lia. Qed.
Lemma PW_le i : PW A nodes i <= sumW nodes.
Proof.
  unfold PW. rewrite <- (firstn_skipn i nodes) at 2. rewrite sumW_app.
  assert (0 <= sumW (skipn i nodes)); [|lia]. apply (sumW_nonneg A L). pose proof good_nodes as H. rewrite <- (firstn_skipn i nodes) in H. now apply Forall_app in H.
Qed.
Lemma PW_small i : PW A nodes i <= 2 ^ 50.
Proof. pose proof (PW_le i). rewrite nodes_width in H. lia. Qed.
Lemma PS_small i : - 2 ^ 18 <= PS A nodes i <= 2 ^ 18.
Proof.
  unfold PS. unfold KPProofs.sumS. rewrite firstn_app, map_app, zsum_app. pose proof (Hstretch i) as H. unfold KPProofs.sumS in H.
  assert (addS A endPen = 0) as E2 by reflexivity.
  destruct (i - length body)%nat as [|k]; cbn [firstn map zsum]; rewrite ?firstn_nil; cbn [map zsum]; rewrite ?E2; lia.
Qed.
Lemma zw_in n : In n nodes -> isPenalty n = false -> zw n <= sumW nodes.
Proof.
  intros Hin Hp. apply in_split in Hin as (a & b & E). pose proof good_nodes as H. rewrite E in *. rewrite sumW_app.
  apply Forall_app in H as [H1 H2]. inversion H2; subst. pose proof (sumW_nonneg A L _ H1). pose proof (sumW_nonneg A L _ H4).
  unfold KPProofs.sumW at 2. cbn [map zsum]. unfold addW at 1. rewrite Hp. unfold KPProofs.sumW in H0. lia.
Qed.
Lemma zw_small i n : nth_error nodes i = Some n -> zw n <= 2 ^ 50.
Proof.
  intros H. apply nth_error_In in H. destruct (isPenalty n) eqn:Ep.
  - pose proof fine_nodes as Hf. rewrite Forall_forall in Hf. now apply (fi_small _ _ _ _ _ _ (Hf n H)).
  - pose proof (zw_in n H Ep). rewrite nodes_width in H0. lia.
Qed.

Variable ko : kopts A.
Hypothesis Hbad : bnd A L 20 (k_badness ko).
Hypothesis Hline : bnd A L 100 (k_line ko).
Hypothesis Hflag : bnd A L 100 (k_flagged ko).
Hypothesis Hfit : bnd A L 100 (k_fitness ko).
Hypothesis Htol : fle A (infinity A) (k_tolerance ko) = false.
Variable ord : nat -> nat -> list fclass.
Hypothesis Hord : forall i k c, In c (ord i k).
(** Where the search starts *)
Variable st : nat.
Hypothesis Hst : (st <= length body)%nat.
Hypothesis Hno : forall i, (i < st)%nat -> explored A nodes i = false.
Hypothesis HPW : PW A nodes st = 0.
Hypothesis HPS : PS A nodes st = 0.
Hypothesis Hfirst : forall i, explored A nodes i = true ->
  (sk A nodes 0 < i)%nat \/ (i = length body /\ sk A nodes 0 = length body) \/ feas A ko nodes W None i = false.
Notation chain := (chain A ko nodes W body).
Notation link := (link A ko nodes W).
Notation first := (first A nodes).

Fixpoint spans (s : src) (ps : list nat) : list (list node) :=
  match ps with [] => [] | p :: ps' => skipn (first s) (firstn (S p) nodes) :: spans (Some p) ps' end.
Definition from (s : src) : nat := match s with None => 0%nat | Some p => p end.
Lemma slice_span (s i : nat) : (s <= S i)%nat -> (S i <= length nodes)%nat ->
  slice nodes (Z.of_nat s) (Z.of_nat i + 1) = Ret (skipn s (firstn (S i) nodes)).
Proof.
  intros H1 H2. unfold slice, zlen.
  destruct (Z.leb_spec 0 (Z.of_nat s)); [|lia]. destruct (Z.leb_spec (Z.of_nat s) (Z.of_nat i + 1)); [|lia].
  destruct (Z.leb_spec (Z.of_nat i + 1) (Z.of_nat (length nodes))); [|lia]. cbn [andb]. f_equal.
  rewrite Nat2Z.id. replace (Z.to_nat (Z.of_nat i + 1 - Z.of_nat s)) with (S i - s)%nat by lia.
  now rewrite skipn_firstn_comm.
Qed.
Lemma cut_spans bs : forall s, chain s (map b_position bs) -> Forall (fun x => b_ratio x = fZ 0) bs ->
  cutLines A nodes bs (from s) = Ret (map (pair (fZ 0)) (spans s (map b_position bs))).
Proof.
  induction bs as [|b bs IH]; intros s Hc Hr; [reflexivity|]. cbn [map KPProofs.chain] in Hc. destruct Hc as [Hl Hc]. inversion Hr as [|? ? Hb Hr']; subst.
  cbn [cutLines map spans]. replace (skipNodes A (from s) nodes) with (first s) by (destruct s; reflexivity).
  pose proof (lk_le _ _ _ _ _ _ Hl). pose proof (explored_lt A nodes _ (lk_explored _ _ _ _ _ _ Hl)).
  rewrite slice_span by lia. cbn [gbind]. rewrite (IH (Some (b_position b)) Hc Hr' : cutLines A nodes bs (b_position b) = _). cbn [gbind]. now rewrite Hb.
Qed.
Lemma span_fine s i : Forall fine (skipn s (firstn (S i) nodes)).
Proof.
  pose proof fine_nodes as H. rewrite <- (firstn_skipn (S i) nodes) in H. apply Forall_app in H as [H _].
  rewrite <- (firstn_skipn s (firstn (S i) nodes)) in H. now apply Forall_app in H.
Qed.
Lemma spans_fine ps : forall s, Forall (Forall fine) (spans s ps).
Proof. induction ps as [|p ps IH]; intros s; constructor; [apply span_fine|apply IH]. Qed.
Lemma render_spans ls : Forall (Forall fine) ls -> forall it,
  exists rs, renderLines A o attrs (map (pair (fZ 0)) ls) it = Ret rs /\ Forall2 (decorated seqs) rs (map plainNodes ls).
Proof.
  induction 1 as [|l ls Hl _ IH]; intros it; [exists []; split; [reflexivity|constructor]|]. cbn [map renderLines].
  rewrite (renderLine_show A L). 2: { eapply Forall_impl; [|exact Hl]. apply fine_ok. }
  cbn [gbind]. destruct (IH (nexts attrs (boxes A l) it)) as (rs & E & Hrs). rewrite E. cbn [gbind]. eexists. split; [reflexivity|].
  constructor; [|exact Hrs]. rewrite <- (app_nil_r (plainNodes l)). apply dec_app; [|apply dec_seqs, endOfLine_in, Hkept].
  rewrite <- (app_nil_l (plainNodes l)). apply dec_app; [apply dec_seqs, startOfLine_in, Hkept|now apply shows_dec].
Qed.
Lemma adj_nth (l : list node) : forall b i p n, adj A b l -> nth_error l i = Some p -> nth_error l (S i) = Some n -> isBox p = true -> isGlue n = true -> zw n = 0.
Proof.
  induction l as [|x l IH]; intros b i p n H Hp Hn Hb Hg; [destruct i; discriminate|]. cbn [adj] in H. destruct H as [_ H]. destruct i as [|i].
  - cbn in Hp. injection Hp as ->. destruct l as [|y l]; [discriminate|]. cbn in Hn. injection Hn as ->. cbn [adj] in H. now apply H.
  - cbn [nth_error] in Hp. now apply (IH (isBox x) i p n).
Qed.
Lemma break_width i n : (forall a b, m (a ++ b) = m a + m b) -> explored A nodes i = true -> nth_error nodes i = Some n ->
  m (plainNode true n) <= breakWidth A nodes i.
Proof.
  intros Hadd He Hn. pose proof fine_nodes as Hf. rewrite Forall_forall in Hf. specialize (Hf n (nth_error_In _ _ Hn)).
  unfold explored in He. unfold breakWidth. rewrite Hn in *. unfold plainNode, isPenalty. destruct (n_type n) eqn:Et; [| |discriminate].
  - assert (isPenalty n = true) as Hp by (unfold isPenalty; now rewrite Et). rewrite andb_true_r.
    pose proof (gn_w0 _ _ _ (fi_good _ _ _ _ _ _ Hf)). apply negb_true_iff in He.
    destruct (rh && feq A (n_penalty n) (l_hyphenPenalty o)) eqn:E; [|rewrite m_nil by exact Hadd; lia].
    apply andb_prop in E as [E1 E2]. rewrite (fi_pen _ _ _ _ _ _ Hf Hp He E1 E2). lia.
  - assert (isGlue n = true) as Hg by (unfold isGlue; now rewrite Et). destruct i as [|i]; [discriminate|].
    destruct (nth_error nodes i) as [p|] eqn:Ep; [|discriminate]. rewrite (adj_nth nodes true i p n adj_nodes Ep Hn He Hg). cbn [Z.eqb].
    rewrite m_nil by exact Hadd. lia.
Qed.
Lemma feas_aw s i : feas A ko nodes W s i = true -> aw A nodes s i <= W.
Proof.
  unfold feas, inTol, rat, ratioZ. intros H. destruct (aw A nodes s i <? W) eqn:E1; [lia|]. destruct (W <? aw A nodes s i) eqn:E2; [|lia].
  apply andb_prop in H as [_ H]. rewrite Htol in H. discriminate.
Qed.
Lemma span_width s i : (forall a b, m (a ++ b) = m a + m b) -> link s i -> m (plainNodes (skipn (first s) (firstn (S i) nodes))) <= W.
Proof.
  intros Hadd Hl. pose proof (lk_le _ _ _ _ _ _ Hl) as Hlt. pose proof (explored_lt A nodes _ (lk_explored _ _ _ _ _ _ Hl)) as Hi.
  destruct (nth_error nodes i) as [n|] eqn:En. 2: { apply nth_error_None in En. lia. }
  rewrite (firstn_S _ _ _ En), skipn_app, firstn_length_le by lia. replace (first s - i)%nat with 0%nat by lia. cbn [skipn].
  rewrite plainNodes_snoc, Hadd. pose proof (break_width i n Hadd (lk_explored _ _ _ _ _ _ Hl) En) as H2.
  pose proof (feas_aw s i (lk_feas _ _ _ _ _ _ Hl)) as H3.
  rewrite plain_width. 2: exact Hadd.
  2: { pose proof fine_nodes as H. rewrite <- (firstn_skipn i nodes) in H. apply Forall_app in H as [H _].
    rewrite <- (firstn_skipn (first s) (firstn i nodes)) in H. now apply Forall_app in H. }
  assert (PW A nodes i = PW A nodes (first s) + sumW (skipn (first s) (firstn i nodes))) as E.
  { unfold PW. rewrite <- sumW_app. f_equal. rewrite <- (firstn_skipn (first s) (firstn i nodes)) at 1. f_equal. rewrite firstn_firstn. f_equal. lia. }
  unfold aw in H3. assert (tW A nodes s <= PW A nodes (first s)); [|lia].
  destruct s as [p|]; cbn [tW KPProofs.first]; [lia|]. apply (sumW_nonneg A L). apply Forall_firstn'. exact good_nodes.
Qed.
Lemma spans_width ps : (forall a b, m (a ++ b) = m a + m b) -> forall s, chain s ps -> Forall (fun l => m (plainNodes l) <= W) (spans s ps).
Proof.
  intros Hadd. induction ps as [|p ps IH]; intros s H; [constructor|]. cbn [KPProofs.chain] in H. destruct H as [H1 H2]. constructor; [now apply span_width|now apply IH].
Qed.
(** no text is lost *)
Lemma no_box l : Forall (fun n => isBox n = false) l -> boxText l = [].
Proof. unfold AnyNodes.boxText. induction 1 as [|n l H _ IH]; [reflexivity|]. cbn [filter]. now rewrite H. Qed.
Lemma skip_text i j : (i <= j)%nat -> (forall q n, (i <= q < j)%nat -> nth_error nodes q = Some n -> isBox n = false) ->
  boxText (skipn i nodes) = boxText (skipn j nodes).
Proof.
  intros Hij H. rewrite <- (firstn_skipn (j - i) (skipn i nodes)), boxText_app, skipn_skipn'. replace (i + (j - i))%nat with j by lia.
  rewrite no_box; [reflexivity|]. apply Forall_forall. intros n Hn. apply In_nth_error in Hn as (k & Hk).
  assert (k < j - i)%nat as Hk2. { assert (nth_error (firstn (j - i) (skipn i nodes)) k <> None) by congruence. apply nth_error_Some in H0. rewrite firstn_length in H0. lia. }
  rewrite <- (nth_error_app1 _ (skipn (j - i) (skipn i nodes))) in Hk by (apply nth_error_Some; congruence). rewrite firstn_skipn, nth_error_skipn in Hk. apply (H (i + k)%nat); [lia|exact Hk].
Qed.
Lemma spans_text ps : forall s, chain s ps -> boxText (skipn (from s) nodes) = concat (map boxText (spans s ps)).
Proof.
  induction ps as [|p ps IH]; intros s H; cbn [KPProofs.chain] in H.
  - subst s. cbn [from spans map concat]. rewrite skipn_app, skipn_all, Nat.sub_diag. reflexivity.
  - destruct H as [Hl Hc]. cbn [spans map concat]. rewrite <- (IH (Some p) Hc). cbn [from].
    pose proof (lk_le _ _ _ _ _ _ Hl) as Hlt. pose proof (explored_lt A nodes _ (lk_explored _ _ _ _ _ _ Hl)) as Hi.
    assert (from s <= length body)%nat as Hs.
    { pose proof (lk_before _ _ _ _ _ _ Hl) as Hb. destruct s as [q|]; cbn [from] in *; [|lia]. cbn in Hb. rewrite app_length in Hi. cbn in Hi. lia. }
    destruct (sk_spec A nodes body endPen eq_refl pen_forced (from s) Hs) as (S1 & _ & S3).
    assert (first s = sk A nodes (from s)) as Ef by (destruct s; reflexivity).
    rewrite (skip_text (from s) (first s)); [|lia|].
    2: { intros q n Hq Hn. rewrite Ef in Hq. specialize (S3 q n Hq Hn). unfold stop in S3. now apply orb_false_iff in S3. }
    rewrite (skip_text p (S p)); [|lia|].
    2: { intros q n Hq Hn. assert (q = p) by lia. subst q. pose proof (lk_explored _ _ _ _ _ _ Hl) as He. unfold explored in He. rewrite Hn in He.
      unfold isBox. destruct (n_type n); [reflexivity|reflexivity|discriminate]. }
    rewrite <- boxText_app. f_equal. rewrite skipn_firstn_comm. rewrite <- (firstn_skipn (S p - first s) (skipn (first s) nodes)) at 1. f_equal.
    rewrite skipn_skipn'. f_equal. lia.
Qed.
Lemma concat_dec (l : list (list node)) : decorated (added rh) (concat (map plainNodes l)) (concat (map boxText l)).
Proof. induction l as [|x l IH]; [constructor|]. cbn [map concat]. apply dec_app; [apply plain_dec|exact IH]. Qed.

Lemma chain_from ps : forall s, chain s ps -> Forall (fun p => st <= p)%nat ps.
Proof.
  induction ps as [|p ps IH]; intros s H; constructor; cbn [KPProofs.chain] in H; [|now apply (IH (Some p))].
  destruct H as [Hl _]. pose proof (lk_explored _ _ _ _ _ _ Hl) as He. destruct (Nat.le_gt_cases st p) as [H|H]; [exact H|]. rewrite (Hno p H) in He. discriminate.
Qed.

(** Breaking and rendering the nodes *)
Theorem lines_from : breakFrom A ko nodes wF ord st = Ret None \/
  exists bs ls ts, breakFrom A ko nodes wF ord st = Ret (Some bs) /\ Forall (fun b => st <= b_position b)%nat bs /\ render A o attrs nodes bs = Ret ls /\ ls <> [] /\
    Forall2 (decorated seqs) ls ts /\ ((forall a b, m (a ++ b) = m a + m b) -> Forall (fun t => m t <= W) ts) /\
    decorated (added rh) (concat ts) text /\ zlen ls * (zlen ls + 1) <= 2 * costFrom A ko nodes wF ord st.
Proof.
  destruct (breakFrom_spec A L ko Hbad Hline Hflag Hfit nodes W wF HwF HW good_nodes PW_small PS_small zw_small body endPen
    eq_refl pen_forced Hopen ord Hord Hfirst st Hst Hno HPW HPS) as [[E _]|(bs & E & Hc & Hr & Hne)]; [now left|right].
  destruct (render_spans (spans None (map b_position bs)) (spans_fine _ _) (iterator attrs)) as (ls & El & Hls).
  exists bs, ls, (map plainNodes (spans None (map b_position bs))). split; [exact E|]. split.
  { apply Forall_map. apply (chain_from _ None). exact Hc. }
  split. { unfold render. rewrite (cut_spans bs None Hc Hr : cutLines A nodes bs 0 = _). cbn [gbind]. exact El. }
  split. { intros ->. inversion Hls as [Ex|]. destruct bs; [congruence|discriminate]. }
  split; [exact Hls|]. split; [|split].
  - intros Hadd. apply Forall_map. now apply spans_width.
  - assert (text = concat (map boxText (spans None (map b_position bs)))) as ->; [|apply concat_dec].
    rewrite <- (spans_text _ None Hc). cbn [from skipn]. rewrite boxText_app, <- Htext. symmetry. apply app_nil_r.
  - assert (zlen ls = zlen (map b_position bs)) as ->.
    { unfold zlen. f_equal. clear - Hls. revert Hls. generalize (@None nat). generalize (map b_position bs). intros ps s H.
      assert (length (map plainNodes (spans s ps)) = length ps) as <-; [|clear - H; induction H; cbn; congruence].
      rewrite map_length. clear. revert s. induction ps as [|p ps IH]; intros s; cbn; [reflexivity|]. now rewrite IH. }
    now apply (costFrom_least A L ko Hbad Hline Hflag Hfit nodes W wF HwF HW good_nodes PW_small PS_small zw_small body endPen eq_refl pen_forced Hopen ord Hord Hfirst).
Qed.
End Lines.
