(** A hyphen penalty that makes every demerits infinite, or not a number, compared to the penalty 10000. *)
From Verif Require Import Base Arith Unicode Split SpecSplit SplitProofs Ansi SpecAnsi AnsiProofs Attr Hyph KP Nodes Render SpecKP Cost KPProofs Tokens Align Options
  Call Settings SpecFormat Format SpecAny AnyNodes AnyLines AnyShape KPStart AnyCall Endless.
Open Scope Z_scope.

Lemma renderLine_cons A o attrs ratio n (m : node A) l it w : renderLine A o attrs ratio (n :: m :: l) it w =
  match n_type n with
  | TBox =>
      match n_attr n with
      | None => renderLine A o attrs ratio (m :: l) it (w ++ n_value n)
      | Some i => match nth_error attrs i with
                  | None => Panic
                  | Some a => renderLine A o attrs ratio (m :: l) (fst (next attrs it)) (w ++ concat (attrRender a))
                  end
      end
  | TGlue =>
      let pad := fadd A (su_width (n_sums n))
                   (fmul A ratio (if flt A ratio (fZ A 0) then su_shrink (n_sums n) else su_stretch (n_sums n))) in
      let! s := repeatSpaces (fint A (downScale A o pad)) in
      renderLine A o attrs ratio (m :: l) it (w ++ s)
  | TPenalty =>
      if l_renderHyphens o && feq A (n_penalty n) (l_hyphenPenalty o) && false
      then renderLine A o attrs ratio (m :: l) it (w ++ [45])
      else renderLine A o attrs ratio (m :: l) it w
  end.
Proof. reflexivity. Qed.

Section Forbid.
Variable A : arith.
Variable L : laws A.
Notation F := (F A).
Notation fZ := (fZ A).
Notation rep := (rep A L).
Notation node := (node A).
Notation bpoint := (bpoint A).
Variable p : F.
Hypothesis Hp1 : feq A p (infinity A) = false.
Hypothesis Hp2 : feq A p (minusInfinity A) = false.
Variables tol bad line fit : F.
Notation ko1 := (mkKopts tol bad line p fit).
Notation ko2 := (mkKopts tol bad line (infinity A) fit).
Variable sick : F -> Prop.
Hypothesis sick_add : forall x y, sick x -> sick (fadd A x y).
Hypothesis sick_lt : forall x y, sick x -> flt A x y = false.
Hypothesis sick_dem : forall nd ratio, n_type nd = TPenalty -> n_penalty nd = p -> sick (demeritsForRatio A ko1 nd ratio).

Inductive nrel : node -> node -> Prop :=
| nr_same n : nrel n n
| nr_dead w : nrel (newPenalty A w p true) (newPenalty A w (infinity A) true).
Lemma inf_forced : feq A (infinity A) (minusInfinity A) = false.
Proof. unfold minusInfinity, infinity. rewrite (rep_eq A L _ _ 10000 (-10000)); [reflexivity|apply rep_small; lia|apply rep_small; lia]. Qed.
Lemma nrel_fields n1 n2 : nrel n1 n2 -> n_type n1 = n_type n2 /\ n_flagged n1 = n_flagged n2 /\ n_value n1 = n_value n2 /\ n_attr n1 = n_attr n2 /\ n_sums n1 = n_sums n2 /\
  isForcedBreak n1 = isForcedBreak n2 /\ feq A (n_penalty n1) (minusInfinity A) = feq A (n_penalty n2) (minusInfinity A).
Proof.
  destruct 1 as [n|w]; [tauto|]. unfold isForcedBreak, newPenalty. cbn [n_type n_flagged n_value n_attr n_sums n_penalty isPenalty]. rewrite Hp2, inf_forced. tauto.
Qed.

Variable nodes1 nodes2 : list node.
Hypothesis Hrel : Forall2 nrel nodes1 nodes2.
Variable wF : F.
Variable ord : nat -> nat -> list fclass.
Notation main1 := (mainLoop A ko1 ord nodes1 [wF]).
Notation main2 := (mainLoop A ko2 ord nodes2 [wF]).
Notation flaggedPen n := (isPenalty n && n_flagged n).

Lemma nth_rel l1 l2 i : Forall2 nrel l1 l2 -> match nth_error l1 i, nth_error l2 i with Some a, Some b => nrel a b | None, None => True | _, _ => False end.
Proof. intros H. revert i. induction H as [|a b l1 l2 Hab _ IH]; intros [|i]; cbn [nth_error]; auto. apply IH. Qed.
Lemma sumFrom_rel l1 l2 : Forall2 nrel l1 l2 -> forall b sum, sumFrom A l1 b sum = sumFrom A l2 b sum.
Proof.
  induction 1 as [|a b l1 l2 Hab _ IH]; intros fi sum; [reflexivity|]. destruct (nrel_fields _ _ Hab) as (E1 & _ & _ & _ & E2 & E3 & _).
  cbn [sumFrom]. unfold isGlue, isBox. rewrite E1, E2, E3, !IH. reflexivity.
Qed.
Lemma skipn_rel l1 l2 i : Forall2 nrel l1 l2 -> Forall2 nrel (skipn i l1) (skipn i l2).
Proof. intros H. revert i. induction H; intros [|i]; cbn [skipn]; auto. Qed.
Lemma firstn_rel l1 l2 i : Forall2 nrel l1 l2 -> Forall2 nrel (firstn i l1) (firstn i l2).
Proof. intros H. revert i. induction H; intros [|i]; cbn [firstn]; auto. Qed.

(** ** The same node, after breaks that are not flagged *)
Definition calm (b : bpoint) : Prop := exists n, nth_error nodes2 (b_position b) = Some n /\ flaggedPen n = false.
Lemma dem_same nd b ratio : calm b -> demeritsAndClass A ko1 nodes1 b nd ratio = demeritsAndClass A ko2 nodes2 b nd ratio.
Proof.
  intros (n2 & E2 & Hf). unfold demeritsAndClass. pose proof (nth_rel _ _ (b_position b) Hrel) as Hr. rewrite E2 in *. destruct (nth_error nodes1 (b_position b)) as [n1|]; [|destruct Hr].
  destruct (nrel_fields _ _ Hr) as (T1 & T2 & _). unfold isPenalty in *. rewrite T1, T2. rewrite <- !andb_assoc. rewrite Hf, !andb_false_r. reflexivity.
Qed.
Lemma inner_same nd sum rest : Forall calm rest -> forall done cands low,
  inner A ko1 nodes1 [wF] nd sum done rest cands low = inner A ko2 nodes2 [wF] nd sum done rest cands low.
Proof.
  induction 1 as [|b rest Hb _ IH]; intros done cands low; [reflexivity|]. cbn [inner]. destruct (idealWidth A [wF] (b_line b + 1)) as [ideal|]; [|reflexivity]. cbn [gbind].
  cbn [k_tolerance]. rewrite (dem_same nd b _ Hb).
  match goal with |- gbind ?x _ = _ => destruct x as [[cs lo]|]; [|reflexivity] end. cbn [gbind].
  destruct rest as [|b' rest]; [reflexivity|]. destruct (_ <=? _); [reflexivity|]. apply IH.
Qed.
Lemma inner_rest ko nodes nd sum rest : forall done cands low d r cs lo, inner A ko nodes [wF] nd sum done rest cands low = Ret (d, r, cs, lo) -> incl r rest.
Proof.
  induction rest as [|b rest IH]; intros done cands low d r cs lo; cbn [inner]; [intros [= <- <- <- <-]; apply incl_refl|].
  destruct (idealWidth A [wF] (b_line b + 1)) as [ideal|]; [|discriminate]. cbn [gbind].
  match goal with |- gbind ?x _ = _ -> _ => destruct x as [[cs' lo']|]; [|discriminate] end. cbn [gbind].
  destruct rest as [|b' rest]; [intros [= <- <- <- <-]; intros z []|]. destruct (_ <=? _); [intros [= <- <- <- <-]; apply incl_tl, incl_refl|].
  intros E. apply IH in E. now apply incl_tl.
Qed.
Lemma insert_same done rest i sum low cands order : insertNew A ko1 done rest i sum low cands order = insertNew A ko2 done rest i sum low cands order.
Proof.
  revert done. induction order as [|c order IH]; intros done; [reflexivity|]. cbn [insertNew k_fitness]. destruct (_ || _); [apply IH|]. destruct rest; [apply IH|reflexivity].
Qed.
Lemma outer_same index nd sum fuel : forall o k done rest low, Forall calm rest ->
  outer A ko1 fuel o k nodes1 [wF] index nd sum done rest low = outer A ko2 fuel o k nodes2 [wF] index nd sum done rest low.
Proof.
  induction fuel as [|fuel IH]; intros o k done rest low Hc; [reflexivity|]. cbn [outer]. destruct rest as [|b rest]; [reflexivity|].
  rewrite (inner_same nd sum (b :: rest) Hc). destruct (inner A ko2 nodes2 [wF] nd sum done (b :: rest) _ low) as [[[[d r] cs] lo]|] eqn:E; [|reflexivity]. cbn [gbind].
  apply inner_rest in E. unfold sumFromNode. rewrite (sumFrom_rel _ _ (skipn_rel _ _ index Hrel)), insert_same. apply IH.
  apply Forall_forall. intros z Hz. rewrite Forall_forall in Hc. apply Hc, E, Hz.
Qed.
Lemma main_same index nd sum acts : Forall calm acts -> main1 index nd sum acts = main2 index nd sum acts.
Proof. intros H. unfold mainLoop. now apply outer_same. Qed.

(** ** A forbidden break *)
Hypothesis Hrat : forall x y a s, rep x a -> rep y s -> Z.abs a <= 2 ^ 52 -> 0 < s <= 2 ^ 22 -> flt A x wF = true -> flt A (fdiv A (fsub A wF x) y) (fZ (-1)) = false.
Record base (b : bpoint) : Prop := mkBase {
  ba_totals : exists w s, repT A L (b_totals b) w s /\ Z.abs w <= 2 ^ 50 /\ Z.abs s <= 2 ^ 21;
  ba_line : 0 <= b_line b;
  ba_pos : (b_position b < length nodes2)%nat
}.
Lemma ideal_one l : 0 <= l -> idealWidth A [wF] (l + 1) = Ret wF.
Proof.
  intros H. unfold idealWidth, zlen. cbn [length]. destruct (Z.ltb_spec (l + 1) (Z.of_nat 1 + 1)).
  - assert (l = 0) as -> by lia. reflexivity.
  - reflexivity.
Qed.
Lemma ratio_ok b nd sum w s : base b -> repT A L sum w s -> Z.abs w <= 2 ^ 50 -> Z.abs s <= 2 ^ 21 -> goodNode A L nd -> zw A nd <= 2 ^ 50 ->
  flt A (adjustmentRatio A b nd sum wF) (fZ (-1)) = false.
Proof.
  intros [(w' & s' & (U1 & U2 & U3) & Hw' & Hs') _ _] (T1 & T2 & T3) Hw Hs G Hz. unfold adjustmentRatio.
  assert (rep (fZ 0) 0) as R0 by (apply rep_Z; unfold exactZ; lia).
  assert (rep (fsub A (su_width sum) (su_width (b_totals b))) (w - w')) as R1 by (apply rep_sub; [exact T1|exact U1|unfold exactZ; lia]).
  assert (rep (fsub A (su_stretch sum) (su_stretch (b_totals b))) (s - s')) as R2 by (apply rep_sub; [exact T2|exact U2|unfold exactZ; lia]).
  assert (rep (fsub A (su_shrink sum) (su_shrink (b_totals b))) (0 - 0)) as R3 by (apply rep_sub; [exact T3|exact U3|unfold exactZ; lia]).
  assert (flt A (infinity A) (fZ (-1)) = false) as Ei by (unfold infinity; rewrite (rep_lt A L _ _ 10000 (-1)) by (apply rep_small; lia); reflexivity).
  set (act := if isPenalty nd then _ else _).
  assert (exists a, rep act a /\ Z.abs a <= 2 ^ 52) as (a & Ra & Ha).
  { unfold act. pose proof (gn_w0 _ _ _ G). destruct (isPenalty nd); [|exists (w - w'); split; [exact R1|lia]]. exists (w - w' + zw A nd). split; [|lia].
    apply rep_add; [exact R1|apply G|]. unfold exactZ. lia. }
  destruct (flt A act wF) eqn:E1.
  - rewrite (rep_lt A L _ _ _ _ R0 R2). destruct (Z.ltb_spec 0 (s - s')) as [H|H]; [|exact Ei]. apply (Hrat act _ a (s - s')); try assumption. lia.
  - destruct (flt A wF act); [|rewrite (rep_lt A L _ _ 0 (-1)) by (apply rep_small; lia); reflexivity].
    rewrite (rep_lt A L _ _ _ _ R0 R3). exact Ei.
Qed.
Lemma sick_min low d : flt A low (fMax A) = false -> sick d -> flt A (minf A low d) (fMax A) = false.
Proof. intros H1 H2. unfold minf. destruct (flt A low d); [exact H1|now apply sick_lt]. Qed.
Lemma length_rel l1 l2 : Forall2 nrel l1 l2 -> length l1 = length l2.
Proof. induction 1; cbn; congruence. Qed.
Lemma inner_dead hw sum w s rest : goodNode A L (newPenalty A hw (infinity A) true) -> zw A (newPenalty A hw (infinity A) true) <= 2 ^ 50 ->
  repT A L sum w s -> Z.abs w <= 2 ^ 50 -> Z.abs s <= 2 ^ 21 -> Forall base rest -> forall done cands low, flt A low (fMax A) = false ->
  exists lo, inner A ko1 nodes1 [wF] (newPenalty A hw p true) sum done rest cands low = Ret (done ++ rest, [], cands, lo) /\ flt A lo (fMax A) = false.
Proof.
  intros G Hz T Hw Hs. set (nd := newPenalty A hw p true).
  assert (isForcedBreak nd = false) as Ef by exact Hp2.
  induction 1 as [|b rest Hb _ IH]; intros done cands low Hl; cbn [inner]; [exists low; rewrite app_nil_r; auto|].
  rewrite (ideal_one _ (ba_line _ Hb)). cbn [gbind]. rewrite Ef, orb_false_r.
  pose proof (ratio_ok b _ sum w s Hb T Hw Hs G Hz) as Er. change (adjustmentRatio A b (newPenalty A hw (infinity A) true) sum wF) with (adjustmentRatio A b nd sum wF) in Er.
  set (ratio := adjustmentRatio A b nd sum wF) in *. rewrite Er. cbv iota.
  match goal with |- exists lo, gbind ?x _ = _ /\ _ => assert (exists lo, x = Ret (cands, lo) /\ flt A lo (fMax A) = false) as (lo & -> & Hlo) end.
  { destruct (_ && _); [|eauto]. unfold demeritsAndClass. pose proof (ba_pos _ Hb) as Hp. rewrite <- (length_rel _ _ Hrel) in Hp. apply nth_error_Some in Hp.
    destruct (nth_error nodes1 (b_position b)) as [pv|]; [|congruence]. cbn [gbind].
    match goal with |- exists lo, Ret (if flt A ?d _ then _ else _, _) = _ /\ _ => assert (sick d) as Hd end.
    { apply sick_add. pose proof (sick_dem nd ratio eq_refl eq_refl) as Hd. destruct (_ && _); destruct (isAwayFrom _ _); auto. }
    rewrite (sick_lt _ _ Hd). eexists. split; [reflexivity|]. now apply sick_min. }
  cbn [gbind]. destruct rest as [|b' rest]; [exists lo; auto|]. destruct (Z.leb_spec (b_line b + 1) (b_line b)); [lia|].
  destruct (IH (done ++ [b]) cands lo Hlo) as (lo' & E & Hlo'). exists lo'. rewrite E, <- app_assoc. auto.
Qed.
Lemma max_no : flt A (fMax A) (fMax A) = false.
Proof. destruct (flt A (fMax A) (fMax A)) eqn:E; [|reflexivity]. pose proof (lt_le A L _ _ E) as E'. rewrite (max_refl A L) in E'. discriminate. Qed.
Lemma main_dead index hw sum w s acts : goodNode A L (newPenalty A hw (infinity A) true) -> zw A (newPenalty A hw (infinity A) true) <= 2 ^ 50 ->
  repT A L sum w s -> Z.abs w <= 2 ^ 50 -> Z.abs s <= 2 ^ 21 -> Forall base acts ->
  main1 index (newPenalty A hw p true) sum acts = Ret acts.
Proof.
  intros G Hz T Hw Hs Ha. unfold mainLoop. destruct acts as [|b acts]; [reflexivity|]. cbn [length outer].
  destruct (inner_dead hw sum w s (b :: acts) G Hz T Hw Hs Ha [] (defaultCandidates A) (fMax A) max_no) as (lo & E & Hlo).
  rewrite E. cbn [gbind app]. rewrite Hlo. destruct (length acts); reflexivity.
Qed.

(** ** Breaks that are kept *)
Section Kept.
Variable P : bpoint -> Prop.
Notation candP cs := (forall c : fclass, P (cs c) \/ b_demerits (cs c) = fMax A).
Lemma inner_P nd sum rest : Forall P rest -> forall done cands low d r cs lo, Forall P done -> candP cands ->
  inner A ko2 nodes2 [wF] nd sum done rest cands low = Ret (d, r, cs, lo) -> Forall P d /\ Forall P r /\ candP cs.
Proof.
  induction 1 as [|b rest Hb Hr IH]; intros done cands low d r cs lo Hd Hc; cbn [inner]; [intros [= <- <- <- <-]; auto|].
  destruct (idealWidth A [wF] (b_line b + 1)) as [ideal|]; [|discriminate]. cbn [gbind].
  match goal with |- gbind ?x _ = _ -> _ => destruct x as [[cs' lo']|] eqn:E; [|discriminate] end. cbn [gbind].
  assert (candP cs') as Hc'.
  { destruct (_ && _); [|injection E as <- <-; exact Hc]. destruct (demeritsAndClass A ko2 nodes2 b nd _) as [[dm cl]|]; [|discriminate]. cbn [gbind] in E. injection E as <- _.
    destruct (flt A dm _); [|exact Hc]. intros c. unfold setCandidate. destruct (sameClass c cl); auto. }
  match goal with |- context [inner _ _ _ _ _ _ ?d' _ _ _] => assert (Forall P d') as Hd' end.
  { destruct (_ || _); [exact Hd|]. apply Forall_app. auto. }
  destruct rest as [|b' rest]; [intros [= <- <- <- <-]; auto|]. destruct (_ <=? _); [intros [= <- <- <- <-]; auto|]. now apply IH.
Qed.
Lemma insert_P index sum : (forall c class, P c -> P (mkBP index (b_line c + 1) class (b_demerits c) sum (b_ratio c) (Some c))) ->
  forall order done rest low cands, Forall P done -> candP cands -> Forall P (insertNew A ko2 done rest index sum low cands order).
Proof.
  intros Hn. induction order as [|c order IH]; intros done rest low cands Hd Hc; [exact Hd|]. cbn [insertNew].
  destruct (fle A (fMax A) (b_demerits (cands c))) eqn:E; cbn [orb]; [now apply IH|]. destruct (flt A _ _); [now apply IH|].
  destruct (Hc c) as [Hp|Hm]; [|rewrite Hm, (max_refl A L) in E; discriminate].
  destruct rest; [apply IH; [|exact Hc]|]; apply Forall_app; split; try exact Hd; constructor; auto.
Qed.
Lemma outer_P index nd sum : (forall c class, P c -> P (mkBP index (b_line c + 1) class (b_demerits c) (sumFromNode A nodes2 sum index) (b_ratio c) (Some c))) ->
  forall fuel o k done rest low acts, Forall P done -> Forall P rest -> outer A ko2 fuel o k nodes2 [wF] index nd sum done rest low = Ret acts -> Forall P acts.
Proof.
  intros Hn. induction fuel as [|fuel IH]; intros o k done rest low acts Hd Hr; cbn [outer].
  - destruct rest; [intros [= <-]; exact Hd|discriminate].
  - destruct rest as [|b rest]; [intros [= <-]; exact Hd|].
    destruct (inner A ko2 nodes2 [wF] nd sum done (b :: rest) _ low) as [[[[d r] cs] lo]|] eqn:E; [|discriminate]. cbn [gbind].
    destruct (inner_P nd sum (b :: rest) Hr _ (defaultCandidates A) _ _ _ _ _ Hd ltac:(intros c; now right) E) as (K1 & K2 & K3). apply IH; [|exact K2].
    destruct (flt A lo (fMax A)); [|exact K1]. apply insert_P; [exact Hn|exact K1|exact K3].
Qed.
Lemma main_P index nd sum acts acts' : (forall c class, P c -> P (mkBP index (b_line c + 1) class (b_demerits c) (sumFromNode A nodes2 sum index) (b_ratio c) (Some c))) ->
  Forall P acts -> main2 index nd sum acts = Ret acts' -> Forall P acts'.
Proof. intros Hn Ha. apply outer_P; [exact Hn|constructor|exact Ha]. Qed.
End Kept.

Definition shows (n : node) : Prop := isPenalty n = true -> feq A (n_penalty n) p = false /\ feq A (n_penalty n) (infinity A) = false.
Definition live (i : nat) : Prop := exists n, nth_error nodes1 i = Some n /\ nth_error nodes2 i = Some n /\ shows n.
Inductive okBP : bpoint -> Prop :=
| ok_first b : base b -> b_previous b = None -> okBP b
| ok_next b q : base b -> b_previous b = Some q -> live (b_position b) -> okBP q -> okBP b.
Lemma okBP_base b : okBP b -> base b. Proof. destruct 1; assumption. Qed.

Hypothesis Hgood : goodNodes A L nodes2.
Lemma sumFrom_rep rest : Forall (goodNode A L) rest -> forall first sum w s, repT A L sum w s -> 0 <= w -> w + sumW A rest <= 2 ^ 50 ->
  (forall i, Z.abs (s + sumS A (firstn i rest)) <= 2 ^ 21) -> exists w' s', repT A L (sumFrom A rest first sum) w' s' /\ Z.abs w' <= 2 ^ 50 /\ Z.abs s' <= 2 ^ 21.
Proof.
  induction 1 as [|n rest G Hg IH]; intros first sum w s T Hw HW HS; cbn [sumFrom].
  - exists w, s. specialize (HS 0%nat). cbn in HS, HW. rewrite Z.add_0_r in HS. split; [exact T|]. split; [lia|exact HS].
  - assert (0 <= sumW A rest) as W0 by now apply (sumW_nonneg A L).
    assert (sumW A (n :: rest) = addW A n + sumW A rest) as EW by reflexivity. rewrite EW in HW.
    assert (0 <= addW A n) as W1 by now apply (addW_nonneg A L).
    assert (Z.abs s <= 2 ^ 21) as Hs by (specialize (HS 0%nat); cbn in HS; now rewrite Z.add_0_r in HS).
    assert (Z.abs (s + addS A n) <= 2 ^ 21) as Hs1 by (specialize (HS 1%nat); cbn in HS; now rewrite Z.add_0_r in HS).
    assert (forall i, Z.abs (s + addS A n + sumS A (firstn i rest)) <= 2 ^ 21) as HS'.
    { intros i. specialize (HS (Datatypes.S i)). cbn [firstn] in HS. unfold sumS in HS. cbn [map zsum] in HS. unfold sumS. now rewrite <- Z.add_assoc. }
    unfold addW, addS, isPenalty, isGlue, isBox in *. destruct (n_type n) eqn:Et; cbn [orb].
    + destruct (_ && _); [exists w, s; split; [exact T|split; [lia|exact Hs]]|]. apply (IH _ _ w s); try assumption.
      intros i. specialize (HS' i). now rewrite Z.add_0_r in HS'.
    + apply (IH _ _ (w + zw A n) (s + zs A n)); try assumption; try lia. apply repT_add; [exact T|exact G|unfold exactZ; lia|unfold exactZ; lia].
    + exists w, s. split; [exact T|split; [lia|exact Hs]].
Qed.

(** ** The search *)
Hypothesis Hcalm : Forall (fun n => flaggedPen n = true -> n_penalty n = infinity A \/ isForcedBreak n = true) nodes2.
Hypothesis Hshow : forall n, goodNode A L n -> feq A (n_penalty n) p = false.
Definition forcedLast (l : list node) : Prop := forall pre n post, l = pre ++ n :: post -> isForcedBreak n = true -> post = [].
Lemma forcedLast_tl n l : forcedLast (n :: l) -> forcedLast l /\ (isForcedBreak n = true -> l = []).
Proof. intros H. split; [|intros Hf; now apply (H [] n l)]. intros pre m post -> Hf. now apply (H (n :: pre) m post). Qed.
Lemma loop_same done : forall rest1 rest2, Forall2 nrel rest1 rest2 -> nodes2 = done ++ rest2 -> nodes1 = firstn (length done) nodes1 ++ rest1 -> forcedLast rest2 ->
  forall prev1 prev2 sum w s acts, (match prev1, prev2 with Some a, Some b => isBox a = isBox b | None, None => True | _, _ => False end) ->
  repT A L sum w s -> 0 <= w -> w + sumW A rest2 <= 2 ^ 50 -> (forall i, Z.abs (s + sumS A (firstn i rest2)) <= 2 ^ 21) ->
  Forall okBP acts -> (Forall calm acts \/ rest2 = []) ->
  breakLoop A ko1 ord nodes1 [wF] rest1 prev1 (length done) sum acts = breakLoop A ko2 ord nodes2 [wF] rest2 prev2 (length done) sum acts /\
  forall acts', breakLoop A ko2 ord nodes2 [wF] rest2 prev2 (length done) sum acts = Ret acts' -> Forall okBP acts'.
Proof.
  intros rest1 rest2 Hr. revert done. induction Hr as [|n1 n2 rest1 rest2 Hn Hr IH]; intros done E2 E1 Hfl prev1 prev2 sum w s acts Hprev T Hw HW HS Ha Hc.
  { cbn [breakLoop]. split; [reflexivity|]. intros acts' [= <-]. exact Ha. }
  destruct Hc as [Hc|]; [|discriminate]. destruct (forcedLast_tl _ _ Hfl) as [Hfl' Hlast].
  destruct Hgood as [Gg Gs Gw Gt].
  assert (Forall (goodNode A L) (n2 :: rest2)) as G12 by (rewrite E2 in Gg; apply Forall_app in Gg; tauto).
  assert (Forall (fun n => zw A n <= 2 ^ 50) (n2 :: rest2)) as Z12 by (rewrite E2 in Gs; apply Forall_app in Gs; tauto).
  assert (flaggedPen n2 = true -> n_penalty n2 = infinity A \/ isForcedBreak n2 = true) as Hca.
  { rewrite E2 in Hcalm. apply Forall_app in Hcalm as [_ K]. now apply Forall_cons_iff in K as [K _]. }
  pose proof (fun fi => sumFrom_rep _ G12 fi sum w s T Hw HW HS) as Hsf.
  apply Forall_cons_iff in G12 as [G Hg]. apply Forall_cons_iff in Z12 as [Z1 Hz].
  assert (0 <= sumW A rest2) as W0 by now apply (sumW_nonneg A L).
  assert (sumW A (n2 :: rest2) = addW A n2 + sumW A rest2) as EW by reflexivity. rewrite EW in HW.
  assert (0 <= addW A n2) as W1 by now apply (addW_nonneg A L).
  assert (Z.abs s <= 2 ^ 21) as Hs by (specialize (HS 0%nat); cbn in HS; now rewrite Z.add_0_r in HS).
  assert (Z.abs (s + addS A n2) <= 2 ^ 21) as Hs1 by (specialize (HS 1%nat); cbn in HS; now rewrite Z.add_0_r in HS).
  assert (forall i, Z.abs (s + addS A n2 + sumS A (firstn i rest2)) <= 2 ^ 21) as HS'.
  { intros i. specialize (HS (Datatypes.S i)). cbn [firstn] in HS. unfold sumS in HS. cbn [map zsum] in HS. unfold sumS. now rewrite <- Z.add_assoc. }
  assert (nth_error nodes2 (length done) = Some n2) as N2 by (rewrite E2, nth_error_app2, Nat.sub_diag by lia; reflexivity).
  assert (length (firstn (length done) nodes1) = length done) as Ln.
  { rewrite firstn_length, (length_rel _ _ Hrel), E2, app_length. lia. }
  assert (nth_error nodes1 (length done) = Some n1) as N1.
  { rewrite E1, nth_error_app2, Ln, Nat.sub_diag by lia. reflexivity. }
  assert (sumFromNode A nodes2 sum (length done) = sumFrom A (n2 :: rest2) true sum) as Esum.
  { unfold sumFromNode. rewrite E2, skipn_app, skipn_all2, Nat.sub_diag by lia. reflexivity. }
  (* the node is the same: what the main loop keeps *)
  assert (n1 = n2 -> shows n2 -> forall acts', main2 (length done) n2 sum acts = Ret acts' -> Forall okBP acts' /\ (Forall calm acts' \/ rest2 = [])) as Hmain.
  { intros En Hsh acts' Em. split.
    - apply (main_P okBP (length done) n2 sum acts acts'); [|exact Ha|exact Em]. intros c class Hcp. apply okBP_base in Hcp as Hcb. apply ok_next with c; [|reflexivity| |exact Hcp].
      + rewrite Esum. constructor; cbn [b_totals b_line b_position]; [apply Hsf|pose proof (ba_line _ Hcb); lia|]. apply nth_error_Some. congruence.
      + exists n2. cbn [b_position]. rewrite N1, N2, En. auto.
    - destruct (isForcedBreak n2) eqn:Ef; [right; now apply Hlast|left].
      apply (main_P calm (length done) n2 sum acts acts'); [|exact Hc|exact Em]. intros c class _. exists n2. cbn [b_position]. split; [exact N2|].
      destruct (isPenalty n2 && n_flagged n2) eqn:Efl; [|reflexivity]. destruct (Hca eq_refl) as [Hi|]; [|congruence].
      apply andb_prop in Efl as [Ep _]. destruct (Hsh Ep) as [_ Hs2]. rewrite Hi in Hs2. unfold infinity in Hs2.
      rewrite (rep_eq A L _ _ 10000 10000) in Hs2 by (apply rep_small; lia). discriminate. }
  (* going on *)
  assert (nodes2 = (done ++ [n2]) ++ rest2) as E2' by (rewrite <- app_assoc; exact E2).
  assert (nodes1 = firstn (length (done ++ [n2])) nodes1 ++ rest1) as E1'.
  { rewrite app_length. cbn [length]. rewrite E1 at 2. rewrite firstn_app, Ln. replace (length done + 1 - length done)%nat with 1%nat by lia. cbn [firstn].
    rewrite firstn_all2 by lia. rewrite <- app_assoc. exact E1. }
  assert (length (done ++ [n2]) = S (length done)) as Ls by (rewrite app_length; cbn; lia).
  destruct (nrel_fields _ _ Hn) as (F1 & _ & _ & _ & F5 & _ & _).
  assert (isBox n1 = isBox n2) as Fb by (unfold isBox; now rewrite F1).
  cbn [breakLoop]. specialize (IH (done ++ [n2]) E2' E1' Hfl' (Some n1) (Some n2)). rewrite Ls in IH.
  unfold addW, addS in *. rewrite F1, F5. unfold isPenalty, isGlue in HW, W1, Hs1, HS', EW. destruct (n_type n2) eqn:Et.
  - (* penalty *)
    destruct Hn as [n|hw].
    + destruct (feq A (n_penalty n) (infinity A)) eqn:Ei; cbn [negb].
      * cbn [gbind]. apply IH with w s; try assumption; try lia; [|auto]. intros i. specialize (HS' i). now rewrite Z.add_0_r in HS'.
      * rewrite (main_same (length done) n sum acts Hc). destruct (main2 (length done) n sum acts) as [acts'|] eqn:Em; [|split; [reflexivity|discriminate]]. cbn [gbind].
        destruct (Hmain eq_refl ltac:(intros _; split; [now apply Hshow|exact Ei]) acts' eq_refl) as [K1 K2].
        apply IH with w s; try assumption; try lia. intros i. specialize (HS' i). now rewrite Z.add_0_r in HS'.
    + cbn [newPenalty n_penalty]. rewrite Hp1. cbn [negb].
      rewrite (main_dead (length done) hw sum w s acts G Z1 T ltac:(lia) Hs); [|eapply Forall_impl; [|exact Ha]; apply okBP_base]. cbn [gbind].
      assert (feq A (infinity A) (infinity A) = true) as -> by (unfold infinity; rewrite (rep_eq A L _ _ 10000 10000) by (apply rep_small; lia); reflexivity). cbn [negb gbind].
      apply IH with w s; try assumption; try lia; [|auto]. intros i. specialize (HS' i). now rewrite Z.add_0_r in HS'.
  - (* glue *)
    assert (n1 = n2) as -> by (destruct Hn; [reflexivity|discriminate Et]).
    assert (repT A L (sumsAdd A sum (n_sums n2)) (w + zw A n2) (s + zs A n2)) as T' by (apply repT_add; [exact T|exact G|unfold exactZ; lia|unfold exactZ; lia]).
    destruct prev1 as [a|], prev2 as [b|]; try contradiction; [rewrite Hprev; destruct (isBox b)|].
    + rewrite (main_same (length done) n2 sum acts Hc). destruct (main2 (length done) n2 sum acts) as [acts'|] eqn:Em; [|split; [reflexivity|discriminate]]. cbn [gbind].
      destruct (Hmain eq_refl ltac:(unfold shows, isPenalty; rewrite Et; discriminate) acts' eq_refl) as [K1 K2].
      apply IH with (w + zw A n2) (s + zs A n2); try assumption; lia.
    + cbn [gbind]. apply IH with (w + zw A n2) (s + zs A n2); try assumption; try lia. auto.
    + cbn [gbind]. apply IH with (w + zw A n2) (s + zs A n2); try assumption; try lia. auto.
  - (* box *)
    cbn [gbind]. pose proof T as (T1 & T2 & T3). apply IH with (w + zw A n2) s; try assumption; try lia; [| |auto].
    + repeat split; cbn [su_width su_stretch su_shrink]; [|exact T2|exact T3]. apply rep_add; [exact T1|apply G|unfold exactZ; lia].
    + intros i. specialize (HS' i). now rewrite Z.add_0_r in HS'.
Qed.

Hypothesis Hfin : forcedLast nodes2.
Hypothesis Hhead : forall n, nth_error nodes2 0 = Some n -> flaggedPen n = false.
Lemma start_rel l1 l2 : Forall2 nrel l1 l2 -> forall k, findStartNode A l1 k = findStartNode A l2 k.
Proof.
  induction 1 as [|a b l1 l2 Hab _ IH]; intros k; [reflexivity|]. cbn [findStartNode]. destruct (nrel_fields _ _ Hab) as (E1 & _ & _ & _ & _ & _ & E2).
  rewrite E1, E2, !IH. reflexivity.
Qed.
Lemma start_len l : forall k, (findStartNode A l k <= k + length l)%nat.
Proof.
  induction l as [|n l IH]; intros k; cbn [findStartNode length]; [lia|]. destruct (n_type n); [|specialize (IH (S k)); lia|lia].
  destruct (feq A (n_penalty n) _); [lia|]. specialize (IH k). lia.
Qed.
Lemma best_in acts : In (findBestBreak A acts) acts \/ b_previous (findBestBreak A acts) = None.
Proof.
  unfold findBestBreak. set (d := mkBP 0 0 C0 (fMax A) (noSums A) (fZ 0) None). assert (forall l b, (In b acts \/ b_previous b = None) -> incl l acts ->
    In (fold_left (fun best b => if flt A (b_demerits b) (b_demerits best) then b else best) l b) acts \/
    b_previous (fold_left (fun best b => if flt A (b_demerits b) (b_demerits best) then b else best) l b) = None) as H.
  { induction l as [|x l IH]; intros b Hb Hl; [exact Hb|]. cbn [fold_left]. apply IH; [|intros y Hy; apply Hl; now right].
    destruct (flt A _ _); [left; apply Hl; now left|exact Hb]. }
  apply H; [now right|apply incl_refl].
Qed.
Lemma chain_live b : okBP b -> forall acc, Forall (fun x => live (b_position x)) acc -> Forall (fun x => live (b_position x)) (chainOf A b acc).
Proof.
  induction 1 as [b Hb Hn|b q Hb Hq Hl Ho IH]; intros acc Ha; destruct b as [po li cl de to ra pr]; cbn [b_previous b_position] in *; subst pr; cbn [chainOf b_previous]; [exact Ha|].
  apply IH. constructor; assumption.
Qed.
Lemma breaks_same : breakPoints A ko1 ord nodes1 [wF] = breakPoints A ko2 ord nodes2 [wF] /\
  forall bs, breakPoints A ko2 ord nodes2 [wF] = Ret (Some bs) -> Forall (fun x => live (b_position x)) bs.
Proof.
  unfold breakPoints. rewrite (start_rel _ _ Hrel). set (st := findStartNode A nodes2 0).
  pose proof (start_len nodes2 0) as Hst. fold st in Hst. cbn [Nat.add] in Hst. pose proof Hgood as [Gg Gs Gw Gt].
  assert (sumW A nodes2 = sumW A (firstn st nodes2) + sumW A (skipn st nodes2)) as Esp.
  { rewrite <- (firstn_skipn st nodes2) at 1. unfold sumW. now rewrite map_app, zsum_app. }
  assert (0 <= sumW A (firstn st nodes2)) as H0 by (apply (sumW_nonneg A L); now apply Forall_firstn').
  assert (length (firstn st nodes2) = st) as Ld by (rewrite firstn_length; lia).
  destruct (Nat.eq_dec (length nodes2) 0) as [El|El].
  { assert (nodes2 = []) as E2 by (destruct nodes2; [reflexivity|discriminate]). pose proof (length_rel _ _ Hrel) as El1. rewrite E2 in El1.
    assert (nodes1 = []) as E1 by (destruct nodes1; [reflexivity|discriminate]). rewrite E1, E2, !skipn_nil. cbn [breakLoop gbind]. split; [reflexivity|].
    intros bs H. exfalso. revert H. unfold findBestBreak. cbn [fold_left]. match goal with |- context [if ?b then _ else _] => destruct b end; discriminate. }
  destruct (loop_same (firstn st nodes2) (skipn st nodes1) (skipn st nodes2)) with (prev1 := match st with O => None | S p => nth_error nodes1 p end)
    (prev2 := match st with O => None | S p => nth_error nodes2 p end) (sum := noSums A) (w := 0) (s := 0) (acts := [firstActive A]) as [E K].
  - now apply skipn_rel.
  - symmetry. apply firstn_skipn.
  - rewrite Ld. symmetry. apply firstn_skipn.
  - intros pre n post E Hf. apply (Hfin (firstn st nodes2 ++ pre) n post); [|exact Hf]. rewrite <- app_assoc, <- E. symmetry. apply firstn_skipn.
  - destruct st as [|q]; [exact I|]. pose proof (nth_rel _ _ q Hrel) as Hq. destruct (nth_error nodes1 q), (nth_error nodes2 q); try exact Hq.
    unfold isBox. destruct (nrel_fields _ _ Hq) as (-> & _). reflexivity.
  - assert (rep (fZ 0) 0) as R0 by (apply rep_Z; unfold exactZ; lia). repeat split; exact R0.
  - lia.
  - lia.
  - intros i. pose proof (Gt st). pose proof (Gt (st + i)%nat) as H1.
    assert (firstn (st + i) nodes2 = firstn st nodes2 ++ firstn i (skipn st nodes2)) as E1.
    { rewrite firstn_skipn_comm. replace (firstn st nodes2) with (firstn st (firstn (st + i) nodes2)).
      - symmetry. apply firstn_skipn.
      - rewrite firstn_firstn. f_equal. lia. }
    rewrite E1 in H1. unfold sumS in *. rewrite map_app, zsum_app in H1. lia.
  - constructor; [|constructor]. apply ok_first; [|reflexivity]. constructor; cbn [firstActive b_totals b_line b_position]; [|lia|lia].
    exists 0, 0. split; [|lia]. assert (rep (fZ 0) 0) as R0 by (apply rep_Z; unfold exactZ; lia). repeat split; exact R0.
  - left. constructor; [|constructor]. destruct (nth_error nodes2 0) as [n|] eqn:En; [|apply nth_error_None in En; lia]. exists n. split; [exact En|]. now apply Hhead.
  - rewrite Ld in E, K. rewrite E. destruct (breakLoop A ko2 ord nodes2 [wF] _ _ st _ _) as [acts|]; [|split; [reflexivity|discriminate]].
    cbn [gbind]. split; [reflexivity|]. intros bs. specialize (K acts eq_refl). destruct acts as [|b acts]; [discriminate|].
    destruct (best_in (b :: acts)) as [Hi|Hn].
    + rewrite Forall_forall in K. specialize (K _ Hi). unfold reverseBreakPoints. destruct (b_previous _); [|discriminate]. intros [= <-]. now apply chain_live.
    + unfold reverseBreakPoints. rewrite Hn. discriminate.
Qed.

(** ** The lines *)
Inductive lrel : list node -> list node -> Prop :=
| lr_nil : lrel [] []
| lr_last n : shows n -> lrel [n] [n]
| lr_cons n1 n2 m1 m2 l1 l2 : nrel n1 n2 -> lrel (m1 :: l1) (m2 :: l2) -> lrel (n1 :: m1 :: l1) (n2 :: m2 :: l2).
Lemma firstn_lrel k : forall l1 l2 n, Forall2 nrel l1 l2 -> nth_error l1 k = Some n -> nth_error l2 k = Some n -> shows n -> lrel (firstn (S k) l1) (firstn (S k) l2).
Proof.
  induction k as [|k IH]; intros l1 l2 n H E1 E2 Hs; destruct H as [|a b l1 l2 Hab H]; try discriminate; cbn [nth_error] in E1, E2.
  - injection E1 as <-. injection E2 as ->. cbn [firstn]. now constructor.
  - specialize (IH _ _ _ H E1 E2 Hs). change (firstn (S (S k)) (a :: l1)) with (a :: firstn (S k) l1). change (firstn (S (S k)) (b :: l2)) with (b :: firstn (S k) l2).
    destruct H as [|a' b' l1 l2 Hab' H]; [destruct k; discriminate|]. cbn [firstn] in *. now constructor.
Qed.
Lemma skip_rel l1 l2 : Forall2 nrel l1 l2 -> forall j, skip_loop A l1 j = skip_loop A l2 j.
Proof.
  induction 1 as [|a b l1 l2 Hab _ IH]; intros j; [reflexivity|]. cbn [skip_loop]. destruct (nrel_fields _ _ Hab) as (E1 & _ & _ & _ & _ & E2 & _).
  unfold isBox. rewrite E1, E2, !IH. reflexivity.
Qed.
Definition sameLines (x y : go (list (F * list node))) : Prop :=
  match x, y with
  | Ret a, Ret b => Forall2 (fun p q => fst p = fst q /\ lrel (snd p) (snd q)) a b
  | Panic, Panic => True
  | _, _ => False
  end.
Lemma cut_same bs : Forall (fun x : bpoint => live (b_position x)) bs -> forall st, sameLines (cutLines A nodes1 bs st) (cutLines A nodes2 bs st).
Proof.
  induction 1 as [|b bs (n & L1 & L2 & Ls) Hb IH]; intros st; cbn [cutLines]; [constructor|].
  assert (skipNodes A st nodes1 = skipNodes A st nodes2) as -> by (unfold skipNodes; now rewrite (skip_rel _ _ (skipn_rel _ _ st Hrel))).
  set (k := skipNodes A st nodes2). unfold slice. assert (zlen nodes1 = zlen nodes2) as -> by (unfold zlen; now rewrite (length_rel _ _ Hrel)).
  destruct ((_ <=? _) && _ && _) eqn:Eb; [|exact I]. cbn [gbind]. specialize (IH (b_position b)).
  destruct (cutLines A nodes1 bs (b_position b)) as [ls1|], (cutLines A nodes2 bs (b_position b)) as [ls2|]; cbn [gbind sameLines] in *; try exact IH.
  constructor; [|exact IH]. cbn [fst snd]. split; [reflexivity|].
  apply andb_prop in Eb as [Eb _]. apply andb_prop in Eb as [_ Eb]. apply Z.leb_le in Eb. rewrite !Nat2Z.id.
  destruct (Nat.eq_dec k (S (b_position b))) as [->|Hk].
  - replace (Z.to_nat _) with 0%nat by lia. constructor.
  - replace (Z.to_nat _) with (S (b_position b - k)) by lia. apply firstn_lrel with n; [now apply skipn_rel| | |exact Ls]; rewrite nth_error_skipn; replace (k + (b_position b - k))%nat with (b_position b) by lia; assumption.
Qed.
Variables o1 o2 : lopts A.
Hypothesis Ho_scale : l_scale o1 = l_scale o2.
Hypothesis Ho_hyphens : l_renderHyphens o1 = l_renderHyphens o2.
Hypothesis Ho1 : l_hyphenPenalty o1 = p.
Hypothesis Ho2 : l_hyphenPenalty o2 = infinity A.
Lemma line_same attrs ratio l1 l2 : lrel l1 l2 -> forall it w, renderLine A o1 attrs ratio l1 it w = renderLine A o2 attrs ratio l2 it w.
Proof.
  induction 1 as [|n Hs|n1 n2 m1 m2 l1 l2 Hn Hl IH]; intros it w; [reflexivity| |].
  - cbn [renderLine]. destruct (n_type n) eqn:Et; [|unfold downScale; now rewrite Ho_scale|reflexivity].
    destruct Hs as [S1 S2]; [unfold isPenalty; now rewrite Et|]. rewrite Ho1, Ho2, S1, S2, !andb_false_r. reflexivity.
  - rewrite (renderLine_cons A o1), (renderLine_cons A o2). destruct (nrel_fields _ _ Hn) as (E1 & E2 & E3 & E4 & E5 & _). rewrite E1, E3, E4, E5.
    rewrite !andb_false_r. unfold downScale. rewrite Ho_scale. destruct (n_type n2); [apply IH| |].
    + destruct (repeatSpaces _); [apply IH|reflexivity].
    + destruct (n_attr n2) as [i|]; [|apply IH]. destruct (nth_error attrs i); [apply IH|reflexivity].
Qed.
Lemma lines_same attrs a b : Forall2 (fun p q => fst p = fst q /\ lrel (snd p) (snd q)) a b -> forall it, renderLines A o1 attrs a it = renderLines A o2 attrs b it.
Proof.
  induction 1 as [|[r l1] [r' l2] a b [E Hl] _ IH]; intros it; [reflexivity|]. cbn [fst snd] in *. subst r'. cbn [renderLines]. rewrite (line_same attrs r l1 l2 Hl).
  destruct (renderLine A o2 attrs r l2 it _) as [[w it']|]; [|reflexivity]. cbn [gbind]. now rewrite IH.
Qed.
Lemma render_same attrs bs : Forall (fun x : bpoint => live (b_position x)) bs -> render A o1 attrs nodes1 bs = render A o2 attrs nodes2 bs.
Proof.
  intros Hb. pose proof (cut_same bs Hb 0) as H. unfold render. destruct (cutLines A nodes1 bs 0) as [a|], (cutLines A nodes2 bs 0) as [b|]; cbn [sameLines] in H; try contradiction; [|reflexivity].
  cbn [gbind]. now apply lines_same.
Qed.
End Forbid.

(** ** The nodes *)
Section Build.
Variable A : arith.
Variable L : laws A.
Notation F := (F A).
Notation fZ := (fZ A).
Notation node := (node A).
Variable u : unicode.
Variable p : F.
Variables lb1 lb2 : breaker A.
Notation o1 := (lb_opts lb1).
Notation o2 := (lb_opts lb2).
Record twins : Prop := mkTwins {
  tw_sp : lb_spaceWidth lb1 = lb_spaceWidth lb2;
  tw_hy : lb_hyphenWidth lb1 = lb_hyphenWidth lb2;
  tw_attrs : lb_attrs lb1 = lb_attrs lb2;
  tw_opts : exists tol bad line fit meas sc wb rh hh pp hyph punc minh gs,
    o1 = mkLopts (mkKopts tol bad line p fit) meas sc wb rh p hh pp hyph punc minh gs /\
    o2 = mkLopts (mkKopts tol bad line (infinity A) fit) meas sc wb rh (infinity A) hh pp hyph punc minh gs
}.
Hypothesis T : twins.
Notation nrel := (nrel A p).
Definition quiet (n : node) : Prop := isPenalty n = true -> n_penalty n = infinity A \/ n_penalty n = fZ 0 /\ n_flagged n = false.
Definition headOk (l : list node) : Prop := forall n, nth_error l 0 = Some n -> isPenalty n && n_flagged n = false.
Record brel (l1 l2 : list node) : Prop := { br_rel : Forall2 nrel l1 l2; br_quiet : Forall quiet l2; br_head : headOk l2 }.
Lemma brel_app l1 l2 m1 m2 : brel l1 l2 -> Forall2 nrel m1 m2 -> Forall quiet m2 -> headOk m2 -> brel (l1 ++ m1) (l2 ++ m2).
Proof.
  intros [H1 H2 H3] M1 M2 M3. constructor; [now apply Forall2_app|now apply Forall_app|]. destruct l2; [exact M3|]. exact H3.
Qed.
Definition grel {X} (x y : go (list node * X)) : Prop :=
  match x, y with
  | Ret (l1, a), Ret (l2, b) => brel l1 l2 /\ a = b
  | Panic, Panic => True
  | _, _ => False
  end.
Definition plainText (v : list rune) : Prop := Forall (fun r => punctSplitFunc u r = false /\ isHyphenRune r = false) v.
Lemma plain_punct v : plainText v -> isPunctuation u v = false.
Proof. destruct v as [|r [|]]; intros H; try reflexivity. apply Forall_inv in H. apply H. Qed.
Lemma plain_hyphen v : plainText v -> isHyphen v = false.
Proof. destruct v as [|r [|]]; intros H; try reflexivity. apply Forall_inv in H. apply H. Qed.
Lemma plain_concat vs : plainText (concat vs) -> Forall plainText vs.
Proof. induction vs as [|v vs IH]; intros H; [constructor|]. cbn [concat] in H. apply Forall_app in H as [H1 H2]. constructor; auto. Qed.

Ltac opts := destruct (tw_opts T) as (tol & bad & line & fit & meas & sc & wb & rh & hh & pp & hyph & punc & minh & gs & E1 & E2).
Lemma box_same start ts v : startBox A lb1 start ts v = startBox A lb2 start ts v.
Proof. opts. unfold startBox, measure, scale. rewrite E1, E2. reflexivity. Qed.
Lemma box_box start ts v bx ts' : startBox A lb2 start ts v = Ret (bx, ts') -> isPenalty bx = false.
Proof. unfold startBox. destruct (measure _ _ _); [|discriminate]. cbn [gbind]. intros [= <- _]. reflexivity. Qed.
Lemma inf_quiet w f : quiet (newPenalty A w (infinity A) f).
Proof. intros _. now left. Qed.
Lemma zero_quiet w : quiet (newPenalty A w (fZ 0) false).
Proof. intros _. now right. Qed.
Lemma other_quiet n : isPenalty n = false -> quiet n.
Proof. intros H H'. congruence. Qed.
Lemma hyphen_rel : Forall2 nrel (pushHyphen A lb1) (pushHyphen A lb2) /\ Forall quiet (pushHyphen A lb2).
Proof.
  pose proof (tw_hy T) as Hy. opts. unfold pushHyphen. rewrite Hy, E1, E2. cbn [l_renderHyphens l_hyphenPenalty l_glueStretch]. destruct rh; split.
  - repeat constructor.
  - constructor; [apply inf_quiet|]. constructor; [now apply other_quiet|]. constructor; [apply inf_quiet|]. constructor; [now apply other_quiet|constructor].
  - constructor; constructor.
  - constructor; [apply inf_quiet|constructor].
Qed.
Lemma one_box l1 l2 bx : brel l1 l2 -> isPenalty bx = false -> brel (l1 ++ [bx]) (l2 ++ [bx]).
Proof.
  intros H Hb. apply brel_app; [exact H|repeat constructor|constructor; [now apply other_quiet|constructor]|]. intros n. cbn [nth_error]. intros [= <-]. now rewrite Hb.
Qed.
Lemma brel_nonempty l1 l2 m1 m2 bx : brel (l1 ++ [bx]) (l2 ++ [bx]) -> Forall2 nrel m1 m2 -> Forall quiet m2 -> brel (l1 ++ [bx] ++ m1) (l2 ++ [bx] ++ m2).
Proof.
  intros [H1 H2 H3] M1 M2. rewrite !app_assoc. constructor; [now apply Forall2_app|now apply Forall_app|]. destruct l2; exact H3.
Qed.
Lemma parts_same start ps : forall ts q l1 l2, brel l1 l2 -> grel (partNodes A lb1 start ts q ps l1) (partNodes A lb2 start ts q ps l2).
Proof.
  induction ps as [|q' ps IH]; intros ts q l1 l2 H; cbn [partNodes]; rewrite box_same; destruct (startBox A lb2 start ts q) as [[bx ts']|] eqn:E; try exact I; cbn [gbind];
    apply box_box in E; pose proof (one_box _ _ _ H E) as H1.
  - split; [exact H1|reflexivity].
  - apply IH. destruct hyphen_rel. now apply brel_nonempty.
Qed.
Lemma hyph_same : l_hyphenator o1 = l_hyphenator o2. Proof. opts. now rewrite E1, E2. Qed.
Lemma punc_same : l_punctuator o1 = l_punctuator o2. Proof. opts. now rewrite E1, E2. Qed.
Lemma glue_same : l_glueStretch o1 = l_glueStretch o2. Proof. opts. now rewrite E1, E2. Qed.
Lemma can_same : l_wordBreak o1 = l_wordBreak o2 /\ l_minHyphenate o1 = l_minHyphenate o2. Proof. opts. now rewrite E1, E2. Qed.
Lemma words_same start ws : Forall plainText ws -> forall ts l1 l2, brel l1 l2 -> grel (wordNodes A lb1 start ts ws l1) (wordNodes A lb2 start ts ws l2).
Proof.
  induction 1 as [|w ws Hw _ IH]; intros ts l1 l2 H; cbn [wordNodes]; [split; [exact H|reflexivity]|]. rewrite (plain_hyphen _ Hw), hyph_same.
  destruct (l_hyphenator o2 w) as [[|q ps]|]; try exact I. cbn [gbind]. pose proof (parts_same start ps ts q l1 l2 H) as K.
  destruct (partNodes A lb1 start ts q ps l1) as [[m1 t1]|], (partNodes A lb2 start ts q ps l2) as [[m2 t2]|]; cbn [grel gbind] in *; try contradiction; [|exact I].
  destruct K as [K1 ->]. now apply IH.
Qed.
Lemma pieces_same start ws : Forall plainText ws -> forall ts l1 l2, brel l1 l2 -> grel (pieceNodes A u lb1 start ts ws l1) (pieceNodes A u lb2 start ts ws l2).
Proof.
  destruct can_same as [C1 C2].
  induction 1 as [|w ws Hw _ IH]; intros ts l1 l2 H; cbn [pieceNodes]; [split; [exact H|reflexivity]|]. rewrite (plain_punct _ Hw), C1, C2, box_same.
  destruct (_ || _).
  - destruct (startBox A lb2 start ts w) as [[bx ts']|] eqn:E; try exact I. cbn [gbind]. apply box_box in E. apply IH. now apply one_box.
  - destruct (splitWord_full w) as (ps & E & Ec & _). rewrite E. cbn [gbind]. rewrite <- Ec in Hw. pose proof (words_same start ps (plain_concat _ Hw) ts l1 l2 H) as K.
    destruct (wordNodes A lb1 start ts ps l1) as [[m1 t1]|], (wordNodes A lb2 start ts ps l2) as [[m2 t2]|]; cbn [grel gbind] in *; try contradiction; [|exact I].
    destruct K as [K1 ->]. now apply IH.
Qed.
Hypothesis Hpunct : forall w, exists ps, l_punctuator o2 w = Ret ps /\ concat ps = w.
Lemma stripped_same mem ps : plainText (concat (map (fun p => contents mem (s_text p)) ps)) -> forall attrs l1 l2, brel l1 l2 ->
  grel (strippedNodes A u lb1 mem ps attrs l1) (strippedNodes A u lb2 mem ps attrs l2).
Proof.
  induction ps as [|q ps IH]; intros Hp attrs l1 l2 H; cbn [strippedNodes]; [split; [exact H|reflexivity]|]. cbn [map concat] in Hp. apply Forall_app in Hp as [Hq Hp].
  rewrite punc_same. destruct (Hpunct (contents mem (s_text q))) as (ws & E & Ec). rewrite E. cbn [gbind]. rewrite <- Ec in Hq.
  pose proof (pieces_same (contents mem (s_start q)) ws (plain_concat _ Hq) (mkTs attrs None false) l1 l2 H) as K.
  destruct (pieceNodes A u lb1 _ _ ws l1) as [[m1 t1]|], (pieceNodes A u lb2 _ _ ws l2) as [[m2 t2]|]; cbn [grel gbind] in *; try contradiction; [|exact I].
  destruct K as [K1 ->]. now apply IH.
Qed.
Lemma brel_nil : brel [] []. Proof. constructor; [constructor|constructor|intros n; discriminate]. Qed.
Lemma box_nodes tok spare items attrs : mcap (tok ++ spare) -> lexed u tok items -> plainText (keptText items) ->
  grel (boxNodes A u lb1 tok spare attrs) (boxNodes A u lb2 tok spare attrs).
Proof.
  intros Hc Hl Hp. destruct (strip_parts u tok spare items Hc Hl) as (ps & E & Et & _). unfold boxNodes. rewrite E. cbn [gbind]. apply stripped_same; [|apply brel_nil]. now rewrite Et.
Qed.
Lemma same_refl l : Forall2 nrel l l.
Proof. induction l; constructor; [constructor|assumption]. Qed.
Definition ends (x y : go (list node * state)) : Prop :=
  match x, y with
  | Ret (l1, a), Ret (l2, b) => a = b /\ exists k1 k2, brel k1 k2 /\ l1 = k1 ++ finalNodes A /\ l2 = k2 ++ finalNodes A
  | Panic, Panic => True
  | _, _ => False
  end.
Lemma aligned_same spare tokens itemss : Forall2 (lexed u) tokens itemss -> forall tok items i attrs l1 l2, lexed u tok items -> plainText (keptText items) ->
  Forall (fun items => plainText (keptText items)) itemss -> (forall j t, nth_error (tok :: tokens) j = Some t -> mcap (t ++ spare (i + j)%nat)) -> brel l1 l2 ->
  ends (alignedLoop A u lb1 tok tokens spare i attrs l1) (alignedLoop A u lb2 tok tokens spare i attrs l2).
Proof.
  induction 1 as [|t its tokens itemss Ht _ IH]; intros tok items i attrs l1 l2 Hl Hp Hps Hc H; cbn [alignedLoop];
    pose proof (Hc 0%nat tok eq_refl) as Hc0; rewrite Nat.add_0_r in Hc0; pose proof (box_nodes tok (spare i) items attrs Hc0 Hl Hp) as K;
    destruct (boxNodes A u lb1 tok (spare i) attrs) as [[m1 t1]|], (boxNodes A u lb2 tok (spare i) attrs) as [[m2 t2]|]; cbn [grel gbind ends] in *; try contradiction; try exact I;
    destruct K as [[K1 K2 K3] ->].
  - split; [reflexivity|]. exists (l1 ++ m1), (l2 ++ m2). rewrite <- !app_assoc. split; [now apply brel_app|auto].
  - apply Forall_cons_iff in Hps as [Hp' Hps]. apply IH with its; try assumption.
    + intros j t' E. replace (S i + j)%nat with (i + S j)%nat by lia. now apply Hc.
    + rewrite !app_assoc. assert (brel (l1 ++ m1) (l2 ++ m2)) as H1 by now apply brel_app. assert (spaceNodes A lb1 = spaceNodes A lb2) as -> by (unfold spaceNodes; now rewrite glue_same, (tw_sp T)).
      apply brel_app; [exact H1|apply same_refl| |].
      * constructor; [now apply other_quiet|]. constructor; [apply zero_quiet|]. constructor; [now apply other_quiet|constructor].
      * intros n. cbn [nth_error spaceNodes]. intros [= <-]. reflexivity.
Qed.
Lemma nodes_same tokens spare itemss : Forall2 (lexed u) tokens itemss -> Forall (fun items => plainText (keptText items)) itemss ->
  (forall j t, nth_error tokens j = Some t -> mcap (t ++ spare j)) ->
  tokens = [] \/ ends (leftAlignedNodes A u lb1 tokens spare) (leftAlignedNodes A u lb2 tokens spare).
Proof.
  intros Hl Hp Hc. destruct Hl as [|tok items tokens itemss H Hl]; [now left|right]. apply Forall_cons_iff in Hp as [Hp Hps]. unfold leftAlignedNodes. rewrite (tw_attrs T).
  apply aligned_same with itemss items; try assumption. apply brel_nil.
Qed.
End Build.

(** ** The theorem on calls *)
Definition sameResult {A : arith} (R : breaker A -> breaker A -> Prop) (x y : go (option (list (list rune)) * breaker A)) : Prop :=
  match x, y with
  | Ret (a, lb1), Ret (b, lb2) => a = b /\ R lb1 lb2
  | Panic, Panic => True
  | _, _ => False
  end.
Lemma no_breaks A ko ord w : breakPoints A ko ord [] w = Ret None.
Proof.
  unfold breakPoints. cbn [findStartNode skipn breakLoop gbind]. unfold findBestBreak. cbn [fold_left].
  match goal with |- context [if ?b then _ else _] => destruct b end; reflexivity.
Qed.
Theorem forbid_call A L u p lb1 lb2 : twins A p lb1 lb2 -> feq A p (infinity A) = false -> feq A p (minusInfinity A) = false ->
  forall sick : F A -> Prop, (forall x y, sick x -> sick (fadd A x y)) -> (forall x y, sick x -> flt A x y = false) ->
  (forall nd ratio, n_type nd = TPenalty -> n_penalty nd = p -> sick (demeritsForRatio A (l_search (lb_opts lb1)) nd ratio)) ->
  (forall n, goodNode A L n -> feq A (n_penalty n) p = false) ->
  (forall w, exists ps, l_punctuator (lb_opts lb2) w = Ret ps /\ concat ps = w) ->
  forall tokens spare itemss maxWidth ord,
  (forall x y a s, rep A L x a -> rep A L y s -> Z.abs a <= 2 ^ 52 -> 0 < s <= 2 ^ 22 -> flt A x (scale A (lb_opts lb2) maxWidth) = true ->
    flt A (fdiv A (fsub A (scale A (lb_opts lb2) maxWidth) x) y) (fZ A (-1)) = false) ->
  readable u tokens spare itemss -> Forall (fun items => plainText u (keptText items)) itemss ->
  (exists nodes attrs, leftAlignedNodes A u lb2 tokens spare = Ret (nodes, attrs) /\ goodNodes A L nodes) ->
  sameResult (twins A p) (leftAlignUniform A u ord spare lb1 tokens maxWidth) (leftAlignUniform A u ord spare lb2 tokens maxWidth).
Proof.
  intros T Hp1 Hp2 sick S1 S2 S3 Hshow Hpu tokens spare itemss maxWidth ord Hrat (Hl & _ & Hc) Hpl (nodes2 & attrs & E2 & Hg).
  pose proof T as [T1 T2 T3 (tol & bad & line & fit & meas & sc & wb & rh & hh & pp & hyph & punc & minh & gs & O1 & O2)].
  assert (scale A (lb_opts lb1) maxWidth = scale A (lb_opts lb2) maxWidth) as Esc by (unfold scale; now rewrite O1, O2).
  assert (forall a, twins A p (mkBreaker (lb_opts lb1) (lb_spaceWidth lb1) (lb_hyphenWidth lb1) a) (mkBreaker (lb_opts lb2) (lb_spaceWidth lb2) (lb_hyphenWidth lb2) a)) as T'.
  { intros a. constructor; cbn [lb_spaceWidth lb_hyphenWidth lb_attrs lb_opts]; [exact T1|exact T2|reflexivity|]. do 14 eexists. split; [exact O1|exact O2]. }
  unfold leftAlignUniform. rewrite Esc, E2. cbn [gbind]. set (wF := scale A (lb_opts lb2) maxWidth) in *.
  destruct (nodes_same A u p lb1 lb2 T Hpu tokens spare itemss Hl Hpl Hc) as [->|Hn].
  { cbn [leftAlignedNodes] in *. injection E2 as <- <-. cbn [gbind]. rewrite T3, !no_breaks. cbn [gbind sameResult]. auto. }
  rewrite E2 in Hn. destruct (leftAlignedNodes A u lb1 tokens spare) as [[nodes1 attrs1]|]; [|destruct Hn]. cbn [ends] in Hn. destruct Hn as (-> & k1 & k2 & [B1 B2 B3] & -> & Ek2).
  cbn [gbind]. set (nodes1 := k1 ++ finalNodes A) in *.
  assert (Forall2 (nrel A p) nodes1 nodes2) as Hrel by (rewrite Ek2; apply Forall2_app; [exact B1|apply same_refl]).
  assert (forall n, quiet A n -> isForcedBreak n = false) as Hq.
  { intros n Hn. unfold isForcedBreak. destruct (isPenalty n) eqn:Ep; [|reflexivity]. destruct (Hn Ep) as [->|[-> _]].
    { unfold minusInfinity, infinity. rewrite (rep_eq A L _ _ 10000 (-10000)); [reflexivity|apply rep_small; lia|apply rep_small; lia]. }
    unfold minusInfinity, infinity. rewrite (rep_eq A L _ _ 0 (-10000)); [reflexivity|apply rep_small; lia|apply rep_small; lia]. }
  assert (Forall (fun n => isPenalty n && n_flagged n = true -> n_penalty n = infinity A \/ isForcedBreak n = true) nodes2) as Hcalm.
  { rewrite Ek2. apply Forall_app. split.
    - eapply Forall_impl; [|exact B2]. intros n Hn Hf. apply andb_prop in Hf as [F1 F2]. destruct (Hn F1) as [E|[_ E]]; [now left|congruence].
    - constructor; [discriminate|]. constructor; [|constructor]. intros _. right. unfold isForcedBreak. cbn [newPenalty isPenalty n_type n_penalty]. unfold minusInfinity.
      rewrite (rep_eq A L _ _ (-10000) (-10000)); [reflexivity|apply rep_small; lia|apply rep_small; lia]. }
  assert (forcedLast A nodes2) as Hfin.
  { intros pre n post E Hf. rewrite Ek2 in E. clear - E Hf B2 Hq. revert pre E. induction B2 as [|x k2 Hx _ IH]; intros pre E.
    - destruct pre as [|a [|b pre]]; cbn [app finalNodes] in E; [injection E as E1 _; subst n; discriminate Hf|injection E as _ _ E3; now symmetry|].
      injection E as _ _ E3. destruct pre; discriminate.
    - destruct pre as [|a pre]; cbn [app] in E; injection E as E1 E3; [|now apply (IH pre)]. subst n. rewrite (Hq _ Hx) in Hf. discriminate. }
  assert (forall n, nth_error nodes2 0 = Some n -> isPenalty n && n_flagged n = false) as Hhead.
  { rewrite Ek2. intros n. destruct k2 as [|x k2]; cbn [app nth_error finalNodes]; [intros [= <-]; reflexivity|]. intros [= <-]. now apply B3. }
  rewrite O1 in S3. cbn [l_search] in S3.
  destruct (breaks_same A L p Hp1 Hp2 tol bad line fit sick S1 S2 S3 nodes1 nodes2 Hrel wF ord Hrat Hg Hcalm Hshow Hfin Hhead) as [Eb Kb].
  assert (l_search (lb_opts lb1) = mkKopts tol bad line p fit) as -> by now rewrite O1.
  assert (l_search (lb_opts lb2) = mkKopts tol bad line (infinity A) fit) as -> by now rewrite O2. rewrite Eb.
  destruct (breakPoints A _ ord nodes2 [wF]) as [[bs|]|]; cbn [gbind sameResult]; [|auto|exact I].
  rewrite (render_same A L p Hp2 tol bad line fit sick S1 S2 S3 nodes1 nodes2 Hrel wF ord Hrat Hshow Hhead (lb_opts lb1) (lb_opts lb2)); [|now rewrite O1, O2|now rewrite O1|now rewrite O2|now apply Kb].
  destruct (render A (lb_opts lb2) attrs nodes2 bs); cbn [gbind sameResult]; auto.
Qed.
