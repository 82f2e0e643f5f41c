(** The search does not look at the nodes before the one where it starts. *)
From Verif Require Import Base Arith KP Cost Nodes Render KPProofs.

Section Start.
Variable A : arith.
Variable ko : kopts A.
Variable ord : nat -> nat -> list fclass.
Variable wF : F A.
Notation node := (node A).
Notation bpoint := (bpoint A).
(** Nodes where no line can start, which are not flagged. *)
Definition idle (n : node) : Prop := isBox n = false /\ isForcedBreak n = false /\ isPenalty n && n_flagged n = false.
Variable pre pre' rest : list node.
Hypothesis Hlen : length pre = length pre'.
Hypothesis Hpre : Forall idle pre.
Hypothesis Hpre' : Forall idle pre'.
Notation nodes := (pre ++ rest).
Notation nodes' := (pre' ++ rest).
Notation st := (length pre).

Lemma same_skipn i : (st <= i)%nat -> skipn i nodes = skipn i nodes'.
Proof. intros H. rewrite !skipn_app, (skipn_all2 pre), (skipn_all2 pre') by lia. now rewrite Hlen. Qed.
Lemma same_nth i : (st <= i)%nat -> nth_error nodes i = nth_error nodes' i.
Proof. intros H. rewrite !nth_error_app2 by lia. now rewrite Hlen. Qed.
Definition okpos (b : bpoint) : Prop := b_position b = 0%nat \/ (st <= b_position b)%nat.

Lemma demerits_same b nd r : okpos b -> demeritsAndClass A ko nodes b nd r = demeritsAndClass A ko nodes' b nd r.
Proof.
  intros Hb. unfold demeritsAndClass. destruct (Nat.le_gt_cases st (b_position b)) as [H|H]; [now rewrite same_nth|].
  assert (b_position b = 0%nat) as -> by (destruct Hb; lia). clear Hb.
  destruct pre as [|n p]; [cbn in H; lia|]. destruct pre' as [|n' p']; [discriminate|]. cbn [app nth_error].
  pose proof (Forall_inv Hpre) as (_ & _ & E). pose proof (Forall_inv Hpre') as (_ & _ & E').
  now rewrite <- !(andb_assoc (isPenalty nd && n_flagged nd)), E, E'.
Qed.
Lemma inner_same widths nd sum act : forall done cands lowest, Forall okpos done -> Forall okpos act ->
  inner A ko nodes widths nd sum done act cands lowest = inner A ko nodes' widths nd sum done act cands lowest /\
  forall d1 r1 c1 l1, inner A ko nodes widths nd sum done act cands lowest = Ret (d1, r1, c1, l1) -> Forall okpos d1 /\ Forall okpos r1.
Proof.
  induction act as [|b act IH]; intros done cands lowest Hd Ha; cbn [inner].
  - split; [reflexivity|]. intros d1 r1 c1 l1 [= <- <- _ _]. auto.
  - inversion Ha as [|? ? Hb Ha']; subst. destruct (idealWidth A widths (b_line b + 1)) as [w|]; cbn [gbind]; [|split; [reflexivity|discriminate]].
    rewrite <- (demerits_same b nd _ Hb). set (r := adjustmentRatio A b nd sum w).
    match goal with |- context [gbind ?x _] => destruct x as [[c2 l2]|] end; cbn [gbind]; [|split; [reflexivity|discriminate]].
    set (done' := if flt A r (fZ A (-1)) || isForcedBreak nd then done else done ++ [b]).
    assert (Forall okpos done') as Hd'. { unfold done'. destruct (_ || _); [exact Hd|]. apply Forall_app. split; [exact Hd|now constructor]. }
    destruct act as [|b2 act]; [split; [reflexivity|]; intros d1 r1 c1 l1 [= <- <- _ _]; auto|].
    destruct (b_line b + 1 <=? b_line b); [split; [reflexivity|]; intros d1 r1 c1 l1 [= <- <- _ _]; auto|]. now apply IH.
Qed.
Lemma insert_okpos rst index sum lowest cands order : (st <= index)%nat -> forall done, Forall okpos done ->
  Forall okpos (insertNew A ko done rst index sum lowest cands order).
Proof.
  intros Hi. induction order as [|c order IH]; intros done Hd; cbn [insertNew]; [exact Hd|]. destruct (_ || _); [now apply IH|].
  match goal with |- context [done ++ [?b]] => assert (Forall okpos (done ++ [b])) as K end.
  { apply Forall_app. split; [exact Hd|]. constructor; [right; exact Hi|constructor]. }
  destruct rst; [now apply IH|exact K].
Qed.
Lemma outer_same widths index nd sum fuel : (st <= index)%nat -> forall o k done act lowest, Forall okpos done -> Forall okpos act ->
  outer A ko fuel o k nodes widths index nd sum done act lowest = outer A ko fuel o k nodes' widths index nd sum done act lowest /\
  forall l, outer A ko fuel o k nodes widths index nd sum done act lowest = Ret l -> Forall okpos l.
Proof.
  intros Hi o. induction fuel as [|fuel IH]; intros k done act lowest Hd Ha; cbn [outer].
  - destruct act; split; try reflexivity; [intros l [= <-]; exact Hd|discriminate].
  - destruct act as [|b act]; [split; [reflexivity|intros l [= <-]; exact Hd]|].
    destruct (inner_same widths nd sum (b :: act) done (defaultCandidates A) lowest Hd Ha) as [E K]. rewrite <- E.
    destruct (inner A ko nodes widths nd sum done (b :: act) (defaultCandidates A) lowest) as [[[[d1 r1] c1] l1]|]; cbn [gbind]; [|split; [reflexivity|discriminate]].
    destruct (K _ _ _ _ eq_refl) as [K1 K2]. replace (sumFromNode A nodes' sum index) with (sumFromNode A nodes sum index).
    2: { unfold sumFromNode. now rewrite same_skipn. }
    apply IH; [|exact K2]. destruct (flt A l1 (fMax A)); [now apply insert_okpos|exact K1].
Qed.
Lemma loop_same widths rst : forall prev index sum act, (st <= index)%nat -> Forall okpos act ->
  breakLoop A ko ord nodes widths rst prev index sum act = breakLoop A ko ord nodes' widths rst prev index sum act.
Proof.
  induction rst as [|n rst IH]; intros prev index sum act Hi Ha; cbn [breakLoop]; [reflexivity|].
  assert (mainLoop A ko ord nodes widths index n sum act = mainLoop A ko ord nodes' widths index n sum act /\
    forall l, mainLoop A ko ord nodes widths index n sum act = Ret l -> Forall okpos l) as [K1 K2].
  { apply outer_same; [exact Hi|constructor|exact Ha]. }
  rewrite <- K1.
  destruct (n_type n); cbn [gbind].
  - destruct (negb _); cbn [gbind]; [|apply IH; [lia|exact Ha]].
    destruct (mainLoop A ko ord nodes widths index n sum act) as [l|]; cbn [gbind]; [|reflexivity]. apply IH; [lia|]. now apply K2.
  - destruct prev as [p|]; cbn [gbind]; [|apply IH; [lia|exact Ha]]. destruct (isBox p); cbn [gbind]; [|apply IH; [lia|exact Ha]].
    destruct (mainLoop A ko ord nodes widths index n sum act) as [l|]; cbn [gbind]; [|reflexivity]. apply IH; [lia|]. now apply K2.
  - apply IH; [lia|exact Ha].
Qed.
Theorem breakFrom_same : breakFrom A ko nodes wF ord st = breakFrom A ko nodes' wF ord st.
Proof.
  unfold breakFrom. rewrite <- same_skipn by lia.
  assert (forall r i s l, (st <= i)%nat -> Forall okpos l -> breakLoop A ko ord nodes [wF] r (prevOf A nodes st) i s l = breakLoop A ko ord nodes' [wF] r (prevOf A nodes' st) i s l) as K.
  2: { rewrite K; [reflexivity|lia|]. constructor; [left; reflexivity|constructor]. }
  intros r i s l Hi Hl. rewrite loop_same by assumption.
  assert (match prevOf A nodes st with Some p => isBox p | None => false end = match prevOf A nodes' st with Some p => isBox p | None => false end) as E.
  { assert (forall p q : list node, Forall idle p -> match prevOf A (p ++ q) (length p) with Some p => isBox p | None => false end = false) as K.
    { intros p q Hp. unfold prevOf. destruct (length p) as [|k] eqn:El; [reflexivity|]. rewrite nth_error_app1 by lia.
      destruct (nth_error p k) as [n|] eqn:En; [|reflexivity]. apply nth_error_In in En. rewrite Forall_forall in Hp. now apply Hp. }
    rewrite (K pre rest Hpre), Hlen. symmetry. apply (K pre' rest Hpre'). }
  destruct r as [|n r]; cbn [breakLoop]; [reflexivity|]. destruct (n_type n); try reflexivity.
  destruct (prevOf A nodes st) as [p|], (prevOf A nodes' st) as [p'|]; try rewrite E; try rewrite <- E; reflexivity.
Qed.

Lemma cost_loop_same widths rst : forall prev index sum act, (st <= index)%nat -> Forall okpos act ->
  costLoop A ko ord nodes widths rst prev index sum act = costLoop A ko ord nodes' widths rst prev index sum act.
Proof.
  induction rst as [|n rst IH]; intros prev index sum act Hi Ha; cbn [costLoop]; [reflexivity|]. cbv zeta.
  assert (mainLoop A ko ord nodes widths index n sum act = mainLoop A ko ord nodes' widths index n sum act /\
    forall l, mainLoop A ko ord nodes widths index n sum act = Ret l -> Forall okpos l) as [K1 K2].
  { apply outer_same; [exact Hi|constructor|exact Ha]. }
  rewrite <- K1. match goal with |- (if ?v then _ else _) = _ => destruct v end; [|apply IH; [lia|exact Ha]].
  destruct (mainLoop A ko ord nodes widths index n sum act) as [l|]; [|reflexivity]. f_equal. apply IH; [lia|]. now apply K2.
Qed.
Lemma prev_same : match prevOf A nodes st with Some p => isBox p | None => false end = match prevOf A nodes' st with Some p => isBox p | None => false end.
Proof.
  assert (forall p q : list node, Forall idle p -> match prevOf A (p ++ q) (length p) with Some p => isBox p | None => false end = false) as K.
  { intros p q Hp. unfold prevOf. destruct (length p) as [|k] eqn:El; [reflexivity|]. rewrite nth_error_app1 by lia.
    destruct (nth_error p k) as [n|] eqn:En; [|reflexivity]. apply nth_error_In in En. rewrite Forall_forall in Hp. now apply Hp. }
  rewrite (K pre rest Hpre), Hlen. symmetry. apply (K pre' rest Hpre').
Qed.
Theorem cost_same : costFrom A ko nodes wF ord st = costFrom A ko nodes' wF ord st.
Proof.
  unfold costFrom. rewrite <- same_skipn by lia. rewrite cost_loop_same; [|lia|constructor; [left; reflexivity|constructor]].
  destruct (skipn st nodes) as [|n r]; [reflexivity|]. cbn [costLoop]. cbv zeta. rewrite prev_same. reflexivity.
Qed.

(** Nor does the rendering *)
Lemma skip_pre p : Forall idle p -> forall j, skip_loop A (p ++ rest) j = skip_loop A rest (j + length p)%nat.
Proof.
  induction 1 as [|n p (H1 & H2 & _) _ IH]; intros j; cbn [app skip_loop length]; [now rewrite Nat.add_0_r|]. rewrite H1, H2. cbn [orb]. rewrite IH. f_equal. lia.
Qed.
Lemma skip_at_least r : forall j k, skip_loop A r j = Some k -> (j <= k)%nat.
Proof. induction r as [|n r IH]; intros j k; cbn [skip_loop]; [discriminate|]. destruct (_ || _); [intros [= ->]; lia|]. intros H. apply IH in H. lia. Qed.
Hypothesis Hstop : Exists (fun n => isBox n || isForcedBreak n = true) rest.
Lemma skip_some r : Exists (fun n : node => isBox n || isForcedBreak n = true) r -> forall j, exists k, skip_loop A r j = Some k.
Proof. induction 1 as [n r H|n r H IH]; intros j; cbn [skip_loop]; [rewrite H; eauto|]. destruct (_ || _); eauto. Qed.
Lemma skip_same p : p = 0%nat \/ (st <= p)%nat -> skipNodes A p nodes = skipNodes A p nodes' /\ (st <= skipNodes A p nodes)%nat.
Proof.
  intros [->|H]; unfold skipNodes.
  - cbn [skipn]. rewrite (skip_pre pre Hpre), (skip_pre pre' Hpre'), <- Hlen. split; [reflexivity|]. cbn [Nat.add].
    destruct (skip_some rest Hstop st) as (k & E). rewrite E. apply skip_at_least in E. lia.
  - rewrite same_skipn by exact H. split; [reflexivity|]. destruct (skip_loop _ _ _); lia.
Qed.
Lemma slice_same a b : (st <= a)%nat -> slice nodes (Z.of_nat a) b = slice nodes' (Z.of_nat a) b.
Proof.
  intros H. unfold slice, zlen. rewrite !app_length, Hlen. destruct (_ && _ && _); [|reflexivity]. rewrite Nat2Z.id, same_skipn by exact H. reflexivity.
Qed.
Theorem cut_same bs : Forall (fun b => st <= b_position b)%nat bs -> forall p, p = 0%nat \/ (st <= p)%nat -> cutLines A nodes bs p = cutLines A nodes' bs p.
Proof.
  induction 1 as [|b bs Hb _ IH]; intros p Hp; cbn [cutLines]; [reflexivity|]. destruct (skip_same p Hp) as [E1 E2]. rewrite <- E1, slice_same by exact E2.
  rewrite IH by (now right). reflexivity.
Qed.
End Start.
