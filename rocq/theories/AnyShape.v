(** Nodes that start with empty tokens. *)
From Verif Require Import Base Arith Unicode Ansi SpecAnsi AnsiProofs Attr KP Nodes Render SpecKP Cost KPProofs KPStart Show SpecFormat Format SpecAny AnyNodes AnyLines.

Section Shape.
Variable A : arith.
Variable L : laws A.
Variable lb : breaker A.
Notation o := (lb_opts lb).
Notation rh := (l_renderHyphens o).
Notation fZ := (fZ A).
Notation rep := (rep A L).
Notation node := (node A).
Notation zw := (zw A).
Notation sumW := (sumW A).
Notation sumS := (sumS A).
Notation boxText := (boxText A).
Notation endGlue := (endGlue A).
Notation endPen := (endPen A).
Variable m : list rune -> Z.
Variable seqs : list (list rune).
Variable attrs : state.
Notation fine := (fine A L lb m attrs).
Hypothesis Hpen : bnd A L 100 (l_hyphenPenalty o).
Hypothesis Hz0 : forall x, rep x 0 -> fint A (downScale A o x) = 0.
Hypothesis Hz1 : forall x, rep x (m [32]) -> fint A (downScale A o x) = 1.
Hypothesis Hkept : Forall (inSeqs seqs) attrs.
Variable W : Z.
Variable wF : F A.
Hypothesis HwF : rep wF W.
Hypothesis HW : - 2 ^ 50 <= W <= 2 ^ 50.
Variable ko : kopts A.
Hypothesis Hbad : bnd A L 20 (k_badness ko).
Hypothesis Hline : bnd A L 100 (k_line ko).
Hypothesis Hflag : bnd A L 100 (k_flagged ko).
Hypothesis Hfit : bnd A L 100 (k_fitness ko).
Hypothesis Htol : fle A (infinity A) (k_tolerance ko) = false.
Variable ord : nat -> nat -> list fclass.
Hypothesis Hord : forall i k c, In c (ord i k).

Definition blank : node := newPenalty A (fZ 0) (infinity A) false.
Definition blanks (n : nat) : list node := repeat blank n.
(** Nodes before the first box where no line is cut *)
Definition quiet (n : node) : Prop := isGlue n = true \/ (isPenalty n = true /\ feq A (n_penalty n) (infinity A) = true).
Definition calm (mid : list node) : Prop :=
  match mid with [] => True | x :: mid' => (quiet x \/ (isPenalty x = true /\ zw x = 0 /\ W <> 0)) /\ Forall quiet mid' end.

Lemma calm_nth l j n : calm l -> nth_error l j = Some n -> quiet n \/ (j = 0%nat /\ isPenalty n = true /\ zw n = 0 /\ W <> 0).
Proof.
  intros H Hn. destruct l as [|x l]; [destruct j; discriminate|]. destruct H as [H1 H2]. destruct j as [|j].
  - cbn in Hn. injection Hn as ->. destruct H1; [now left|right; auto].
  - left. cbn [nth_error] in Hn. apply nth_error_In in Hn. rewrite Forall_forall in H2. now apply H2.
Qed.
Lemma inf_inf : feq A (infinity A) (infinity A) = true.
Proof. rewrite (rep_eq A L _ _ 10000 10000); [reflexivity|apply rep_small; lia|apply rep_small; lia]. Qed.
Lemma inf_minus : feq A (infinity A) (minusInfinity A) = false.
Proof. unfold minusInfinity, infinity. rewrite (rep_eq A L _ _ 10000 (-10000)); [reflexivity|apply rep_small; lia|apply rep_small; lia]. Qed.
Lemma blank_idle : idle A blank.
Proof. repeat split; try reflexivity. unfold isForcedBreak, blank, newPenalty. cbn. apply inf_minus. Qed.
Lemma blanks_idle n : Forall (idle A) (blanks n).
Proof. apply Forall_forall. intros x H. apply repeat_spec in H. subst x. apply blank_idle. Qed.
Lemma blanks_sumW n : sumW (blanks n) = 0.
Proof. unfold blanks, KPProofs.sumW. induction n; [reflexivity|]. cbn [repeat map zsum]. rewrite IHn. reflexivity. Qed.
Lemma blanks_sumS n : sumS (blanks n) = 0.
Proof. unfold blanks, KPProofs.sumS. induction n; [reflexivity|]. cbn [repeat map zsum]. rewrite IHn. reflexivity. Qed.
Lemma sumS_app a b : sumS (a ++ b) = sumS a + sumS b.
Proof. unfold KPProofs.sumS. now rewrite map_app, zsum_app. Qed.
Lemma blanks_firstn i n : firstn i (blanks n) = blanks (min i n).
Proof. revert n. induction i as [|i IH]; intros [|n]; try reflexivity. cbn [blanks repeat firstn min]. f_equal. apply IH. Qed.
Lemma adj_blanks n l : adj A false l -> n <> 0%nat -> adj A true (blanks n ++ l).
Proof.
  intros H. destruct n as [|n]; [congruence|]. intros _. cbn [blanks repeat app adj]. split; [discriminate|]. change (isBox blank) with false.
  induction n as [|n IH]; [exact H|]. cbn [repeat app adj]. split; [discriminate|]. exact IH.
Qed.
Lemma adj_idle p l : Forall (idle A) p -> forall b, adj A b (p ++ l) -> p <> [] -> adj A false l.
Proof.
  induction 1 as [|n p (Hn & _) Hp IH]; intros b Ha Hne; [congruence|]. cbn [app adj] in Ha. destruct Ha as [_ Ha]. rewrite Hn in Ha.
  destruct p as [|q p]; [exact Ha|]. apply (IH false); [exact Ha|discriminate].
Qed.

Variable pre bt : list node.          (* the nodes before the start of the search, and after *)
Variable text : list rune.
Notation body := (pre ++ bt).
Hypothesis Hfine : Forall fine body.
Hypothesis Hopen : Forall (fun n => isForcedBreak n = false) body.
Hypothesis Hadj : adj A true body.
Hypothesis Htext : boxText body = text.
Hypothesis Hwidth : sumW body <= 2 ^ 50.
Hypothesis Hstretch : forall i, - 2 ^ 16 <= sumS (firstn i body) <= 2 ^ 16.
Hypothesis Hidle : Forall (idle A) pre.
Variable mid rest : list node.
Variable x : node.
Hypothesis Emid : bt ++ [endPen] = mid ++ x :: rest.
Hypothesis Hmid : Forall (fun n => isBox n = false /\ isForcedBreak n = false) mid.
Hypothesis Hcalm : calm mid.
Hypothesis Hx : isBox x || isForcedBreak x = true.
Notation st := (length pre).
Definition body' : list node := blanks st ++ bt.
Notation nodes' := (body' ++ [endPen]).

Lemma blanks_len n : length (blanks n) = n. Proof. apply repeat_length. Qed.
Lemma nodes'_eq : nodes' = blanks st ++ mid ++ x :: rest.
Proof. unfold body'. now rewrite <- app_assoc, Emid. Qed.
Lemma fine' : Forall fine body'.
Proof.
  apply Forall_app in Hfine as [_ H]. apply Forall_app. split; [|exact H]. apply Forall_forall. intros n Hn. apply repeat_spec in Hn. subst n. now apply (fine_inf A L).
Qed.
Lemma open' : Forall (fun n => isForcedBreak n = false) body'.
Proof. apply Forall_app in Hopen as [_ H]. apply Forall_app. split; [|exact H]. eapply Forall_impl; [|apply blanks_idle]. intros n Hn. apply Hn. Qed.
Lemma adj' : adj A true body'.
Proof.
  unfold body'. assert (pre = [] \/ pre <> []) as [E|E] by (destruct pre; [left; reflexivity|right; discriminate]).
  - rewrite E in *. exact Hadj.
  - apply adj_blanks; [|now destruct pre]. apply (adj_idle pre bt Hidle true); assumption.
Qed.
Lemma idle_text p : Forall (idle A) p -> boxText p = [].
Proof. intros H. apply no_box. eapply Forall_impl; [|exact H]. intros n Hn. apply Hn. Qed.
Lemma text' : boxText body' = text.
Proof. unfold body'. rewrite <- Htext, !boxText_app, (idle_text pre Hidle), (idle_text _ (blanks_idle st)). reflexivity. Qed.
Lemma pre_width : 0 <= sumW pre.
Proof. apply Forall_app in Hfine as [H _]. apply (sumW_nonneg A L). eapply Forall_impl; [|exact H]. intros n Hn. apply Hn. Qed.
Lemma width' : sumW body' <= 2 ^ 50.
Proof. unfold body'. rewrite sumW_app, blanks_sumW. rewrite sumW_app in Hwidth. pose proof pre_width. lia. Qed.
Lemma stretch' i : - 2 ^ 17 <= sumS (firstn i body') <= 2 ^ 17.
Proof.
  unfold body'. rewrite firstn_app, sumS_app, blanks_firstn, blanks_sumS, blanks_len.
  destruct (Nat.le_gt_cases i st) as [H|H].
  - replace (i - st)%nat with 0%nat by lia. cbn. lia.
  - pose proof (Hstretch i) as H1. pose proof (Hstretch st) as H2. rewrite firstn_app, sumS_app, firstn_all2 in H1 by lia.
    rewrite firstn_app, sumS_app, firstn_all, Nat.sub_diag in H2. cbn [firstn] in H2. change (sumS []) with 0 in H2. lia.
Qed.
Lemma nth_blank i : (i < st)%nat -> nth_error nodes' i = Some blank.
Proof.
  intros H. rewrite nodes'_eq, nth_error_app1 by (rewrite blanks_len; exact H). apply nth_error_repeat. exact H.
Qed.
Lemma no' i : (i < st)%nat -> explored A nodes' i = false.
Proof. intros H. unfold explored. rewrite (nth_blank i H). cbn [blank newPenalty n_type n_penalty]. now rewrite inf_inf. Qed.
Lemma firstn_st : firstn st nodes' = blanks st.
Proof. rewrite nodes'_eq, firstn_app, blanks_len, Nat.sub_diag. cbn [firstn]. rewrite app_nil_r. apply firstn_all2. rewrite blanks_len. lia. Qed.
Lemma PW' : PW A nodes' st = 0. Proof. unfold PW. rewrite firstn_st. apply blanks_sumW. Qed.
Lemma PS' : PS A nodes' st = 0. Proof. unfold PS. rewrite firstn_st. apply blanks_sumS. Qed.
Lemma sk' : sk A nodes' 0 = (st + length mid)%nat.
Proof.
  unfold sk, skipNodes. cbn [skipn]. rewrite nodes'_eq.
  assert (forall l j, Forall (fun n => isBox n = false /\ isForcedBreak n = false) l -> skip_loop A (l ++ x :: rest) j = Some (j + length l)%nat) as K.
  { induction l as [|n l IH]; intros j H; cbn [app skip_loop length]; [rewrite Hx; f_equal; lia|].
    inversion H as [|? ? [H1 H2] H3]; subst. rewrite H1, H2. cbn [orb]. rewrite IH by exact H3. f_equal. lia. }
  rewrite app_assoc, K; [rewrite app_length, blanks_len; reflexivity|]. apply Forall_app. split; [|exact Hmid].
  eapply Forall_impl; [|apply blanks_idle]. intros n Hn. split; apply Hn.
Qed.
Lemma nth_mid j : (j <= length mid)%nat -> nth_error nodes' (st + j) = nth_error (mid ++ [x]) j.
Proof.
  intros H. rewrite nodes'_eq, nth_error_app2 by (rewrite blanks_len; lia). rewrite blanks_len. replace (st + j - st)%nat with j by lia.
  change (x :: rest) with ([x] ++ rest). rewrite app_assoc. apply nth_error_app1. rewrite app_length. cbn. lia.
Qed.
Lemma quiet_explored j n : (j < length mid)%nat -> nth_error mid j = Some n -> quiet n -> explored A nodes' (st + j) = false.
Proof.
  intros Hj Hn Hq. unfold explored. rewrite (nth_mid j ltac:(lia)), nth_error_app1, Hn by exact Hj.
  destruct Hq as [Hq|[Hq Hp]].
  - unfold isGlue in Hq. destruct (n_type n); try discriminate. destruct (st + j)%nat as [|p] eqn:E; [reflexivity|].
    destruct (Nat.lt_ge_cases p st) as [H|H]; [rewrite (nth_blank p H); reflexivity|].
    replace p with (st + (j - 1))%nat by lia. rewrite (nth_mid (j - 1) ltac:(lia)), nth_error_app1 by lia.
    destruct (nth_error mid (j - 1)) as [q|] eqn:Eq; [|reflexivity]. apply nth_error_In in Eq. rewrite Forall_forall in Hmid. now apply Hmid.
  - unfold isPenalty in Hq. destruct (n_type n); try discriminate. now rewrite Hp.
Qed.
Lemma last_len : length nodes' = S (length body'). Proof. rewrite app_length. cbn. lia. Qed.
Lemma first' i : explored A nodes' i = true ->
  (sk A nodes' 0 < i)%nat \/ (i = length body' /\ sk A nodes' 0 = length body') \/ feas A ko nodes' W None i = false.
Proof.
  intros He. rewrite sk'. destruct (Nat.lt_ge_cases (st + length mid) i) as [H|H]; [now left|right].
  destruct (Nat.lt_ge_cases i st) as [H1|H1]; [rewrite (no' i H1) in He; discriminate|].
  destruct (Nat.eq_dec i (st + length mid)) as [->|H2].
  - left. assert (explored A nodes' (st + length mid) = true) as He' by exact He. unfold explored in He'.
    rewrite (nth_mid (length mid) (Nat.le_refl _)), nth_error_app2, Nat.sub_diag in He' by lia. cbn [nth_error] in He'.
    assert (isForcedBreak x = true) as Hf. { apply orb_prop in Hx as [Hb|Hf]; [|exact Hf]. unfold isBox in Hb. destruct (n_type x); discriminate. }
    assert ((st + length mid)%nat = length body') as E; [|rewrite E; auto].
    apply (not_forced A nodes' body' endPen eq_refl open' _ x); [|exact Hf].
    rewrite (nth_mid (length mid) (Nat.le_refl _)), nth_error_app2, Nat.sub_diag by lia. reflexivity.
  - right. replace i with (st + (i - st))%nat in * by lia. set (j := (i - st)%nat) in *. assert (j < length mid)%nat as Hj by lia.
    destruct (nth_error mid j) as [n|] eqn:En. 2: { apply nth_error_None in En. lia. }
    destruct (calm_nth mid j n Hcalm En) as [Hq|(Hj0 & Hq & Hz & HW0)].
    { rewrite (quiet_explored j n Hj En Hq) in He. discriminate. }
    clearbody j. subst j. rewrite Nat.add_0_r. unfold feas, inTol, rat, ratioZ, aw. cbn [tW tS]. rewrite PW', PS'. unfold breakWidth.
    pose proof (nth_mid 0 (Nat.le_0_l _)) as En0. rewrite Nat.add_0_r, (nth_error_app1 mid [x]), En in En0 by exact Hj. rewrite En0. rewrite Hq, Hz. cbn [Z.sub Z.add Z.opp].
    assert (fle A (infinity A) (k_tolerance ko) = false) as E0 by exact Htol.
    destruct (0 <? W) eqn:E1; [rewrite Z.ltb_irrefl, E0; apply andb_false_r|]. destruct (W <? 0) eqn:E2; [rewrite E0; apply andb_false_r|]. lia.
Qed.
Theorem shape_lines : breakFrom A ko (body ++ [endPen]) wF ord st = Ret None \/
  exists bs ls ts, breakFrom A ko (body ++ [endPen]) wF ord st = Ret (Some bs) /\ render A o attrs (body ++ [endPen]) bs = Ret ls /\ ls <> [] /\
    Forall2 (decorated seqs) ls ts /\ ((forall a b, m (a ++ b) = m a + m b) -> Forall (fun t => m t <= W) ts) /\
    decorated (added rh) (concat ts) text /\ zlen ls * (zlen ls + 1) <= 2 * costFrom A ko (body ++ [endPen]) wF ord st.
Proof.
  assert (length pre = length (blanks st)) as Hl by (now rewrite blanks_len).
  assert (breakFrom A ko (body ++ [endPen]) wF ord st = breakFrom A ko nodes' wF ord st) as E.
  { unfold body'. rewrite <- !app_assoc. apply breakFrom_same; [exact Hl|exact Hidle|apply blanks_idle]. }
  assert (costFrom A ko (body ++ [endPen]) wF ord st = costFrom A ko nodes' wF ord st) as Ec.
  { unfold body'. rewrite <- !app_assoc. apply cost_same; [exact Hl|exact Hidle|apply blanks_idle]. }
  rewrite E, Ec.
  destruct (lines_from A L lb m seqs attrs Hpen Hz0 Hz1 Hkept body' text W fine' open' adj' text' width' stretch' wF HwF HW ko Hbad Hline Hflag Hfit
    Htol ord Hord st) as [K|(bs & ls & ts & K1 & K2 & K3 & K4)].
  - unfold body'. rewrite app_length, blanks_len. lia.
  - exact no'.
  - exact PW'.
  - exact PS'.
  - exact first'.
  - now left.
  - right. exists bs, ls, ts. split; [exact K1|]. split; [|exact K4]. unfold render in *. rewrite <- app_assoc, (cut_same A pre (blanks st)); try assumption.
    + unfold body' in K3. now rewrite <- app_assoc in K3.
    + apply blanks_idle.
    + apply Exists_app. right. constructor. rewrite pen_forced by exact L. apply orb_true_r.
    + now left.
Qed.
End Shape.

(** Where the search starts, when the first tokens have no nodes *)
Section Leading.
Variable A : arith.
Variable L : laws A.
Variable lb : breaker A.
Variable W : Z.
Notation fZ := (fZ A).
Notation node := (node A).
Lemma zero_minus : feq A (fZ 0) (minusInfinity A) = false.
Proof. unfold minusInfinity. rewrite (rep_eq A L _ _ 0 (-10000)); [reflexivity|apply rep_small; lia|apply rep_small; lia]. Qed.
Lemma minus_minus : feq A (minusInfinity A) (minusInfinity A) = true.
Proof. unfold minusInfinity. rewrite (rep_eq A L _ _ (-10000) (-10000)); [reflexivity|apply rep_small; lia|apply rep_small; lia]. Qed.
Lemma zw_zero p f : zw A (newPenalty A (fZ 0) p f) = 0.
Proof. unfold zw. cbn. apply (rep_int A L _ _ (rep_small A L 0 ltac:(lia))). Qed.
Lemma nf_glue (n : node) : isGlue n = true -> isBox n = false /\ isForcedBreak n = false.
Proof. unfold isGlue, isBox, isForcedBreak, isPenalty. destruct (n_type n); try discriminate. split; reflexivity. Qed.
Lemma idle_glue (n : node) : isGlue n = true -> idle A n.
Proof. intros H. destruct (nf_glue n H). repeat split; try assumption. unfold isGlue, isPenalty in *. destruct (n_type n); try discriminate. reflexivity. Qed.
Lemma nf_zero f : isBox (newPenalty A (fZ 0) (fZ 0) f) = false /\ isForcedBreak (newPenalty A (fZ 0) (fZ 0) f) = false.
Proof. split; [reflexivity|]. unfold isForcedBreak, newPenalty. cbn. apply zero_minus. Qed.
Lemma idle_zero : idle A (newPenalty A (fZ 0) (fZ 0) false).
Proof. destruct (nf_zero false). repeat split; assumption. Qed.
Lemma nf_blank : isBox (blank A) = false /\ isForcedBreak (blank A) = false.
Proof. pose proof (blank_idle A L) as (H1 & H2 & _). now split. Qed.
Definition readyFor (ns : list node) : Prop := exists pre bt mid rest x,
  ns ++ [endGlue A] = pre ++ bt /\ findStartNode A (ns ++ [endGlue A; endPen A]) 0 = length pre /\ Forall (idle A) pre /\ bt ++ [endPen A] = mid ++ x :: rest /\
  Forall (fun n => isBox n = false /\ isForcedBreak n = false) mid /\ calm A W mid /\ isBox x || isForcedBreak x = true.
Local Ltac fin := rewrite <- ?app_assoc; cbn [app]; split; [reflexivity|]; split; [reflexivity|]; split; [repeat (apply Forall_cons || apply Forall_nil); assumption|]; split; [reflexivity|];
  split; [repeat (apply Forall_cons || apply Forall_nil); assumption|]; split; [|assumption];
  first [exact I|split; [first [left; assumption|right; split; [reflexivity|]; split; [apply zw_zero|lia]]|repeat (apply Forall_cons || apply Forall_nil); assumption]].
Lemma leading_ready k rest : starts A rest -> (k <= 2)%nat -> (W <> 0 \/ (k <= 1)%nat) -> readyFor (lead A lb k ++ rest).
Proof.
  intros (bx & r & Hb & Hr) Hk HW.
  assert (n_type bx = TBox) as Tb by (unfold isBox in Hb; destruct (n_type bx); (discriminate || reflexivity)).
  set (g := newGlue A (fZ 0) (l_glueStretch (lb_opts lb)) (fZ 0)). set (p := newPenalty A (fZ 0) (fZ 0) false).
  set (s := newGlue A (lb_spaceWidth lb) (fopp A (l_glueStretch (lb_opts lb))) (fZ 0)).
  assert (idle A g) as Ig by (now apply idle_glue). assert (idle A p) as Ip by apply idle_zero. assert (idle A s) as Is by (now apply idle_glue).
  assert (spaceNodes A lb = [g; p; s]) as Es by reflexivity.
  assert (isBox g = false /\ isForcedBreak g = false) as Ng by (now apply nf_glue).
  assert (isBox p = false /\ isForcedBreak p = false) as Np by apply nf_zero.
  assert (isBox s = false /\ isForcedBreak s = false) as Ns by (now apply nf_glue).
  assert (forall l a, findStartNode A (g :: p :: s :: l) a = findStartNode A l (S (S a))) as F3.
  { intros l a. cbn [findStartNode g p s newGlue newPenalty n_type n_penalty]. now rewrite zero_minus. }
  assert (isBox bx || isForcedBreak bx = true) as Hx by (now rewrite Hb).
  assert (quiet A g /\ quiet A s /\ quiet A (blank A)) as (Qg & Qs & Qb). { repeat split; try (now left). right. split; [reflexivity|]. apply (inf_inf A L). }
  destruct Hr as [->|(g' & Hg & ->)].
  - assert (forall l a, findStartNode A (bx :: l) a = a) as Fb by (intros l a; cbn [findStartNode]; now rewrite Tb).
    destruct k as [|[|[|k]]]; [| | |lia]; unfold lead; cbn [repeat concat app]; rewrite ?Es; cbn [app].
    + exists [], (bx :: r ++ [endGlue A]), [], (r ++ [endGlue A; endPen A]), bx. cbn [app]. rewrite Fb. fin.
    + exists [g; p], (s :: bx :: r ++ [endGlue A]), [s], (r ++ [endGlue A; endPen A]), bx. cbn [app]. rewrite F3, Fb. fin.
    + exists [g; p; s; g], (p :: s :: bx :: r ++ [endGlue A]), [p; s], (r ++ [endGlue A; endPen A]), bx. cbn [app]. rewrite !F3, Fb. fin.
  - fold (blank A). assert (idle A (blank A)) as Ib by apply (blank_idle A L). pose proof nf_blank as Nb. pose proof (nf_glue g' Hg) as Ng'. assert (quiet A g') as Qg' by (now left).
    assert (n_type g' = TGlue) as Tg by (unfold isGlue in Hg; destruct (n_type g'); (discriminate || reflexivity)).
    assert (forall l a, findStartNode A (blank A :: g' :: bx :: l) a = S a) as Fb.
    { intros l a. cbn [findStartNode blank newPenalty n_type n_penalty]. rewrite (inf_minus A L). cbn [findStartNode]. now rewrite Tg, Tb. }
    destruct k as [|[|[|k]]]; [| | |lia]; unfold lead; cbn [repeat concat app]; rewrite ?Es; cbn [app].
    + exists [blank A], (g' :: bx :: r ++ [endGlue A]), [g'], (r ++ [endGlue A; endPen A]), bx. cbn [app]. rewrite Fb. fin.
    + exists [g; p; s], (blank A :: g' :: bx :: r ++ [endGlue A]), [blank A; g'], (r ++ [endGlue A; endPen A]), bx. cbn [app]. rewrite F3, Fb. fin.
    + exists [g; p; s; g; p], (s :: blank A :: g' :: bx :: r ++ [endGlue A]), [s; blank A; g'], (r ++ [endGlue A; endPen A]), bx. cbn [app]. rewrite !F3, Fb. fin.
Qed.
Lemma empty_ready k : (k <= 3)%nat -> (W <> 0 \/ (k <= 2)%nat) -> readyFor (lead A lb k).
Proof.
  intros Hk HW.
  set (g := newGlue A (fZ 0) (l_glueStretch (lb_opts lb)) (fZ 0)). set (p := newPenalty A (fZ 0) (fZ 0) false).
  set (s := newGlue A (lb_spaceWidth lb) (fopp A (l_glueStretch (lb_opts lb))) (fZ 0)).
  assert (idle A g) as Ig by (now apply idle_glue). assert (idle A p) as Ip by apply idle_zero. assert (idle A s) as Is by (now apply idle_glue).
  assert (spaceNodes A lb = [g; p; s]) as Es by reflexivity.
  assert (isBox p = false /\ isForcedBreak p = false) as Np by apply nf_zero.
  assert (isBox s = false /\ isForcedBreak s = false) as Ns by (now apply nf_glue).
  assert (forall l a, findStartNode A (g :: p :: s :: l) a = findStartNode A l (S (S a))) as F3.
  { intros l a. cbn [findStartNode g p s newGlue newPenalty n_type n_penalty]. now rewrite zero_minus. }
  assert (isBox (endPen A) || isForcedBreak (endPen A) = true) as Hx by (rewrite (pen_forced A L); apply orb_true_r).
  assert (forall a, findStartNode A [endGlue A; endPen A] a = S a) as Fe.
  { intros a. cbn [findStartNode endGlue endPen newGlue newPenalty n_type n_penalty]. now rewrite minus_minus. }
  assert (idle A (endGlue A)) as Ie by (now apply idle_glue). assert (isBox (endGlue A) = false /\ isForcedBreak (endGlue A) = false) as Ne by (now apply nf_glue).
  assert (quiet A s) as Qs by (now left). assert (quiet A (endGlue A)) as Qe by (now left).
  destruct k as [|[|[|[|k]]]]; [| | | |lia]; unfold lead; cbn [repeat concat app]; rewrite ?Es; cbn [app].
  - exists [endGlue A], [], [], [], (endPen A). cbn [app]. rewrite Fe. fin.
  - exists [g; p; s], [endGlue A], [endGlue A], [], (endPen A). cbn [app]. rewrite F3, Fe. fin.
  - exists [g; p; s; g; p], [s; endGlue A], [s; endGlue A], [], (endPen A). cbn [app]. rewrite !F3, Fe. fin.
  - exists [g; p; s; g; p; s; g], [p; s; endGlue A], [p; s; endGlue A], [], (endPen A). cbn [app]. rewrite !F3, Fe. fin.
Qed.
End Leading.

(** Nodes from tokens *)
Section Any.
Variable A : arith.
Variable L : laws A.
Variable lb : breaker A.
Notation o := (lb_opts lb).
Notation rh := (l_renderHyphens o).
Notation rep := (rep A L).
Notation node := (node A).
Variable m : list rune -> Z.
Variable seqs : list (list rune).
Variable attrs : state.
Hypothesis Hpen : bnd A L 100 (l_hyphenPenalty o).
Hypothesis Hz0 : forall x, rep x 0 -> fint A (downScale A o x) = 0.
Hypothesis Hz1 : forall x, rep x (m [32]) -> fint A (downScale A o x) = 1.
Hypothesis Hkept : Forall (inSeqs seqs) attrs.
Variable W : Z.
Variable wF : F A.
Hypothesis HwF : rep wF W.
Hypothesis HW : - 2 ^ 50 <= W <= 2 ^ 50.
Variable ko : kopts A.
Hypothesis Hbad : bnd A L 20 (k_badness ko).
Hypothesis Hline : bnd A L 100 (k_line ko).
Hypothesis Hflag : bnd A L 100 (k_flagged ko).
Hypothesis Hfit : bnd A L 100 (k_fitness ko).
Hypothesis Htol : fle A (infinity A) (k_tolerance ko) = false.
Variable ord : nat -> nat -> list fclass.
Hypothesis Hord : forall i k c, In c (ord i k).
Variable ns : list node.
Variable text : list rune.
Variable w : Z.
Hypothesis Hch : chunk A L lb m attrs ns text w.
Hypothesis Hw : w <= 2 ^ 50.
Hypothesis Hready : readyFor A W ns.
Theorem lines_any : breakPoints A ko ord (ns ++ finalNodes A) [wF] = Ret None \/
  exists bs ls ts, breakPoints A ko ord (ns ++ finalNodes A) [wF] = Ret (Some bs) /\ render A o attrs (ns ++ finalNodes A) bs = Ret ls /\ ls <> [] /\
    Forall2 (decorated seqs) ls ts /\ ((forall a b, m (a ++ b) = m a + m b) -> Forall (fun t => m t <= W) ts) /\
    decorated (added rh) (concat ts) text /\
    ((forall i k, zlen (ord i k) <= 4) -> zlen ls * (zlen ls + 1) <= 2 * evaluations A ko ord (ns ++ finalNodes A) [wF]).
Proof.
  assert (forall n, (forall i k, zlen (ord i k) <= 4) -> n <= 2 * costFrom A ko (ns ++ finalNodes A) wF ord (findStartNode A (ns ++ finalNodes A) 0) ->
    n <= 2 * evaluations A ko ord (ns ++ finalNodes A) [wF]) as Kc.
  { intros n Ho Hn. unfold evaluations. pose proof (costLoop_le A ko ord (ns ++ finalNodes A) [wF] (skipn (findStartNode A (ns ++ finalNodes A) 0) (ns ++ finalNodes A)) Ho
      (prevOf A (ns ++ finalNodes A) (findStartNode A (ns ++ finalNodes A) 0)) (findStartNode A (ns ++ finalNodes A) 0) (noSums A) [firstActive A]) as H.
    unfold costFrom in Hn. unfold prevOf in *. lia. }
  destruct Hready as (pre & bt & mid & rest & x & E1 & E2 & H1 & E3 & H2 & H3 & H4).
  assert (ns ++ finalNodes A = (pre ++ bt) ++ [endPen A]) as En.
  { rewrite <- E1, <- app_assoc. reflexivity. }
  change (breakPoints A ko ord (ns ++ finalNodes A) [wF]) with (breakFrom A ko (ns ++ finalNodes A) wF ord (findStartNode A (ns ++ finalNodes A) 0)).
  assert (findStartNode A (ns ++ finalNodes A) 0 = length pre) as Ef by exact E2.
  rewrite Ef in *. rewrite En in *.
  assert (zw A (endGlue A) = 0) as Ez by (apply (rep_int A L _ _ (rep_small A L 0 ltac:(lia)))).
  assert (addS A (endGlue A) = 10000) as Es by (apply (rep_int A L _ _ (rep_small A L 10000 ltac:(lia)))).
  assert (Forall (fine A L lb m attrs) (pre ++ bt)) as G1.
  { rewrite <- E1. apply Forall_app; split; [apply Hch|]. constructor; [|constructor]. apply (fine_glue0 A L lb m attrs _ 10000). apply (rep_small A L). lia. }
  assert (Forall (fun n => isForcedBreak n = false) (pre ++ bt)) as G2.
  { rewrite <- E1. apply Forall_app; split; [apply Hch|]. constructor; [reflexivity|constructor]. }
  assert (adj A true (pre ++ bt)) as G3.
  { rewrite <- E1. apply adj_app; [apply Hch|]. cbn [adj]. split; [|exact I]. intros _ _. exact Ez. }
  assert (boxText A (pre ++ bt) = text) as G4.
  { rewrite <- E1, boxText_app. rewrite <- (ch_text _ _ _ _ _ _ _ _ Hch). apply app_nil_r. }
  assert (sumW A (pre ++ bt) <= 2 ^ 50) as G5.
  { rewrite <- E1, sumW_app. unfold KPProofs.sumW at 2. cbn [map zsum]. change (addW A (endGlue A)) with (zw A (endGlue A)). rewrite Ez.
    pose proof (ch_width _ _ _ _ _ _ _ _ Hch). lia. }
  assert (forall i, - 2 ^ 16 <= sumS A (firstn i (pre ++ bt)) <= 2 ^ 16) as G6.
  { intros i. rewrite <- E1. unfold KPProofs.sumS. rewrite firstn_app, map_app, zsum_app. pose proof (proj2 (ch_balanced _ _ _ _ _ _ _ _ Hch) i) as H. unfold KPProofs.sumS in H.
    assert (0 <= zsum (map (addS A) (firstn (i - length ns) [endGlue A])) <= 10000); [|lia].
    destruct (i - length ns)%nat as [|k]; cbn [firstn map zsum]; rewrite ?firstn_nil; cbn [map zsum]; rewrite ?Es; lia. }
  destruct (shape_lines A L lb m seqs attrs Hpen Hz0 Hz1 Hkept W wF HwF HW ko Hbad Hline Hflag Hfit Htol ord Hord pre bt text G1 G2 G3 G4 G5 G6 H1 mid rest x E3 H2 H3 H4)
    as [K|(bs & ls & ts & K1 & K2 & K3 & K4 & K5 & K6 & K7)]; [now left|right].
  exists bs, ls, ts. do 6 (split; [assumption|]). intros Ho. now apply Kc.
Qed.
End Any.
