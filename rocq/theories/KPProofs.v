(** The search of KP.v, for a list of nodes whose measures are integers and whose penalties are not negative. *)
From Coq Require Import Permutation Sorted.
From Verif Require Import Base Arith KP Cost Render.

Fixpoint zsum (l : list Z) : Z := match l with [] => 0 | x :: l' => x + zsum l' end.
Lemma zsum_app a b : zsum (a ++ b) = zsum a + zsum b.
Proof. induction a; cbn [zsum app]; lia. Qed.

Lemma Forall_firstn' {T} (P : T -> Prop) l i : Forall P l -> Forall P (firstn i l).
Proof. intros H. rewrite <- (firstn_skipn i l) in H. now apply Forall_app in H. Qed.
Lemma Forall_skipn' {T} (P : T -> Prop) l i : Forall P l -> Forall P (skipn i l).
Proof. intros H. rewrite <- (firstn_skipn i l) in H. now apply Forall_app in H. Qed.
Lemma nth_error_skipn {T} (l : list T) p q : nth_error (skipn p l) q = nth_error l (p + q).
Proof. revert l; induction p as [|p IH]; intros l; [reflexivity|]. destruct l; [now destruct q|]. apply IH. Qed.
Lemma firstn_S {T} (l : list T) i n : nth_error l i = Some n -> firstn (S i) l = firstn i l ++ [n].
Proof.
  revert i. induction l as [|x l IH]; intros [|i] H; cbn in H; try discriminate.
  - injection H as ->. reflexivity.
  - cbn [firstn app]. f_equal. now apply IH.
Qed.
Lemma skipn_cons {T} (l : list T) i n : nth_error l i = Some n -> skipn i l = n :: skipn (S i) l.
Proof.
  revert i. induction l as [|x l IH]; intros [|i] H; cbn in H; try discriminate.
  - injection H as ->. reflexivity.
  - cbn [skipn]. rewrite (IH i H). reflexivity.
Qed.
Lemma find_app {T} (f : T -> bool) a b : find f (a ++ b) = match find f a with Some x => Some x | None => find f b end.
Proof. induction a as [|x a IH]; cbn [find app]; [reflexivity|]. destruct (f x); [reflexivity|exact IH]. Qed.
Lemma find_split {T} (f : T -> bool) l b : find f l = Some b ->
  exists pre post, l = pre ++ b :: post /\ f b = true /\ Forall (fun x => f x = false) pre.
Proof.
  induction l as [|x l IH]; cbn [find]; [discriminate|]. destruct (f x) eqn:E.
  - injection 1 as ->. exists [], l. auto.
  - intros H. destruct (IH H) as (pre & post & -> & Hb & Hp). exists (x :: pre), post. auto.
Qed.
Lemma in_pre_split {T} (l1 l2 : list T) pre b post : l1 ++ l2 = pre ++ b :: post ->
  (exists post', l1 = pre ++ b :: post') \/ (exists pre', pre = l1 ++ pre' /\ l2 = pre' ++ b :: post).
Proof.
  revert pre. induction l1 as [|x l1 IH]; intros pre H; cbn [app] in H.
  - right. now exists pre.
  - destruct pre as [|y pre]; cbn [app] in H; injection H as -> H.
    + left. now exists l1.
    + destruct (IH pre H) as [(post' & ->)|(pre' & -> & ->)]; [left; now exists post'|right; now exists pre'].
Qed.

Section Proofs.
Variable A : arith.
Variable L : laws A.
Notation F := (F A).
Notation fZ := (fZ A).
Notation rep := (rep A L).
Notation bnd := (bnd A L).
Notation node := (node A).
Notation bpoint := (bpoint A).
Variable ko : kopts A.
Hypothesis Hbad : bnd 20 (k_badness ko).
Hypothesis Hline : bnd 100 (k_line ko).
Hypothesis Hflag : bnd 100 (k_flagged ko).
Hypothesis Hfit : bnd 100 (k_fitness ko).

Lemma exactZ_small n : -10000 <= n <= 10000 -> exactZ n.
Proof. unfold exactZ. lia. Qed.
Lemma rep_small n : -10000 <= n <= 10000 -> rep (fZ n) n.
Proof. intros H. apply rep_Z. now apply exactZ_small. Qed.

(** integer views *)
Definition zw (n : node) : Z := fint A (su_width (n_sums n)).
Definition zs (n : node) : Z := fint A (su_stretch (n_sums n)).
Definition addW (n : node) : Z := if isPenalty n then 0 else zw n.
Definition addS (n : node) : Z := if isGlue n then zs n else 0.
Definition sumW (l : list node) : Z := zsum (map addW l).
Definition sumS (l : list node) : Z := zsum (map addS l).

Record goodNode (n : node) : Prop := {
  gn_w : rep (su_width (n_sums n)) (zw n);
  gn_w0 : 0 <= zw n;
  gn_s : rep (su_stretch (n_sums n)) (zs n);
  gn_h : rep (su_shrink (n_sums n)) 0;
  gn_p : isForcedBreak n = false -> bnd 100 (n_penalty n);
  gn_f : isForcedBreak n = true -> n_penalty n = minusInfinity A
}.

Variable nodes : list node.
Variable Wd : Z.          (* the width of lines *)
Variable wF : F.
Hypothesis HwF : rep wF Wd.
Hypothesis HWd : - 2 ^ 50 <= Wd <= 2 ^ 50.
Hypothesis Hgood : Forall goodNode nodes.

Definition PW (i : nat) : Z := sumW (firstn i nodes).
Definition PS (i : nat) : Z := sumS (firstn i nodes).
Hypothesis HPW : forall i, PW i <= 2 ^ 50.
Hypothesis HPS : forall i, - 2 ^ 18 <= PS i <= 2 ^ 18.

(** the next box (or forced break) from a position on *)
Definition sk (p : nat) : nat := skipNodes A p nodes.

(** Where a line starts: at the beginning, or after the break at some node. *)
Definition src := option nat.
Definition tW (s : src) : Z := match s with None => 0 | Some p => PW (sk p) end.
Definition tS (s : src) : Z := match s with None => 0 | Some p => PS (sk p) end.
Definition ratioZ (aw st : Z) : F :=
  if aw <? Wd then (if 0 <? st then fdiv A (fZ (Wd - aw)) (fZ st) else infinity A)
  else if Wd <? aw then infinity A else fZ 0.
Definition breakWidth (i : nat) : Z :=
  match nth_error nodes i with Some n => if isPenalty n then zw n else 0 | None => 0 end.
Definition aw (s : src) (i : nat) : Z := PW i - tW s + breakWidth i.
Definition rat (s : src) (i : nat) : F := ratioZ (aw s i) (PS i - tS s).
Definition inTol (r : F) : bool := fle A (fZ (-1)) r && fle A r (k_tolerance ko).
Definition feas (s : src) (i : nat) : bool := inTol (rat s i).
Definition cls (s : src) (i : nat) : fclass := newFitnessClass A (rat s i).
Definition explored (i : nat) : bool :=
  match nth_error nodes i with
  | None => false
  | Some n => match n_type n with
              | TBox => false
              | TGlue => match i with O => false | S p => match nth_error nodes p with Some m => isBox m | None => false end end
              | TPenalty => negb (feq A (n_penalty n) (infinity A))
              end
  end.

Lemma zsum_nonneg l : Forall (fun x => 0 <= x) l -> 0 <= zsum l.
Proof. induction 1; cbn [zsum]; lia. Qed.
Lemma addW_nonneg n : goodNode n -> 0 <= addW n.
Proof. intros H. unfold addW. destruct (isPenalty n); [lia|apply H]. Qed.
Lemma sumW_nonneg l : Forall goodNode l -> 0 <= sumW l.
Proof.
  intros H. apply zsum_nonneg, Forall_map. eapply Forall_impl; [|exact H]. intros n Hn. now apply addW_nonneg.
Qed.
Lemma PW_nonneg i : 0 <= PW i.
Proof. apply sumW_nonneg. now apply Forall_firstn'. Qed.
Lemma tW_bound s : 0 <= tW s <= 2 ^ 50.
Proof. destruct s; cbn [tW]; [|lia]. split; [apply PW_nonneg|apply HPW]. Qed.
Lemma tS_bound s : - 2 ^ 18 <= tS s <= 2 ^ 18.
Proof. destruct s; cbn [tS]; [apply HPS|lia]. Qed.

Lemma good_at i n : nth_error nodes i = Some n -> goodNode n.
Proof. intros H. apply nth_error_In in H. rewrite Forall_forall in Hgood. now apply Hgood. Qed.

(** widths of single nodes are bounded through the prefix sums, except for penalties *)
Hypothesis Hpen : forall i n, nth_error nodes i = Some n -> zw n <= 2 ^ 50.

Lemma breakWidth_bound i : 0 <= breakWidth i <= 2 ^ 50.
Proof.
  unfold breakWidth. destruct (nth_error nodes i) as [n|] eqn:E; [|lia].
  destruct (isPenalty n); [|lia]. split; [apply (good_at i n E)|eapply Hpen; eassumption].
Qed.

Definition repT (t : sums A) (w s : Z) : Prop := rep (su_width t) w /\ rep (su_stretch t) s /\ rep (su_shrink t) 0.

Lemma repT_add t n w s : repT t w s -> goodNode n -> exactZ (w + zw n) -> exactZ (s + zs n) ->
  repT (sumsAdd A t (n_sums n)) (w + zw n) (s + zs n).
Proof.
  intros (H1 & H2 & H3) G E1 E2. unfold sumsAdd. repeat split; cbn [su_width su_stretch su_shrink].
  - apply rep_add; [exact H1|apply G|exact E1].
  - apply rep_add; [exact H2|apply G|exact E2].
  - change 0 with (0 + 0). apply rep_add; [exact H3|apply G|unfold exactZ; lia].
Qed.

(** The adjustment ratio is the integer one. *)
Lemma ratio_is b s i n sum : nth_error nodes i = Some n -> repT (b_totals b) (tW s) (tS s) -> repT sum (PW i) (PS i) ->
  adjustmentRatio A b n sum wF = rat s i.
Proof.
  intros Hn (T1 & T2 & T3) (S1 & S2 & S3). unfold adjustmentRatio, rat, aw.
  pose proof (tW_bound s) as B1. pose proof (tS_bound s) as B2. pose proof (PW_nonneg i) as B3. pose proof (HPW i) as B4.
  pose proof (HPS i) as B5. pose proof (breakWidth_bound i) as B6. pose proof (good_at i n Hn) as G.
  assert (rep (fsub A (su_width sum) (su_width (b_totals b))) (PW i - tW s)) as R0.
  { apply rep_sub; [exact S1|exact T1|unfold exactZ; lia]. }
  set (act := if isPenalty n then _ else _).
  assert (rep act (PW i - tW s + breakWidth i)) as R1.
  { unfold act, breakWidth in *. rewrite Hn in *. destruct (isPenalty n).
    - apply rep_add; [exact R0|apply G|unfold exactZ; lia].
    - rewrite Z.add_0_r. exact R0. }
  set (a := PW i - tW s + breakWidth i) in *.
  assert (rep (fsub A (su_stretch sum) (su_stretch (b_totals b))) (PS i - tS s)) as R2.
  { apply rep_sub; [exact S2|exact T2|unfold exactZ; lia]. }
  assert (rep (fsub A (su_shrink sum) (su_shrink (b_totals b))) (0 - 0)) as R3.
  { apply rep_sub; [exact S3|exact T3|unfold exactZ; lia]. }
  unfold ratioZ.
  rewrite (rep_lt A L _ _ _ _ R1 HwF), (rep_lt A L _ _ _ _ HwF R1).
  rewrite (rep_lt A L _ _ _ _ (rep_small 0 ltac:(lia)) R2), (rep_lt A L _ _ _ _ (rep_small 0 ltac:(lia)) R3).
  destruct (Z.ltb_spec a Wd) as [H1|H1].
  - destruct (Z.ltb_spec 0 (PS i - tS s)) as [H2|H2]; [|reflexivity].
    f_equal.
    + apply (rep_nz A L); [|lia]. apply rep_sub; [exact HwF|exact R1|unfold exactZ; lia].
    + apply (rep_nz A L); [exact R2|lia].
  - destruct (Z.ltb_spec Wd a) as [H2|H2]; reflexivity.
Qed.

Lemma rat_cases s i : rat s i = infinity A \/ rat s i = fZ 0 \/
  exists a b, rat s i = fdiv A (fZ a) (fZ b) /\ 0 < a <= 2 ^ 53 /\ 0 < b <= 2 ^ 20 /\
    a = Wd - aw s i /\ b = PS i - tS s.
Proof.
  unfold rat, ratioZ. set (a := aw s i). destruct (Z.ltb_spec a Wd) as [H|H].
  - destruct (Z.ltb_spec 0 (PS i - tS s)) as [H'|H']; [|tauto]. right. right. exists (Wd - a), (PS i - tS s).
    pose proof (tS_bound s). pose proof (HPS i). split; [reflexivity|].
    assert (- 2 ^ 50 <= a); [|lia]. unfold a, aw. pose proof (tW_bound s). pose proof (PW_nonneg i).
    pose proof (breakWidth_bound i). lia.
  - destruct (Wd <? a); tauto.
Qed.
Lemma rat_low s i : flt A (rat s i) (fZ (-1)) = false /\ fle A (fZ (-1)) (rat s i) = true.
Proof.
  destruct (rat_cases s i) as [->|[->|(a & b & -> & Ha & Hb & _)]].
  - unfold infinity. rewrite (rep_lt A L _ _ 10000 (-1)), (rep_le A L _ _ (-1) 10000) by (apply rep_small; lia). split; reflexivity.
  - rewrite (rep_lt A L _ _ 0 (-1)), (rep_le A L _ _ (-1) 0) by (apply rep_small; lia). split; reflexivity.
  - now apply quo_low.
Qed.
Lemma rat_bnd s i : bnd 54 (rat s i).
Proof.
  destruct (rat_cases s i) as [->|[->|(a & b & -> & Ha & Hb & _)]].
  - unfold infinity. apply (bnd_rep A L _ _ 10000); [apply rep_small|..]; lia.
  - apply (bnd_rep A L _ _ 0); [apply rep_small|..]; lia.
  - now apply quo_bnd.
Qed.

Lemma demerits_bnd n r : goodNode n -> bnd 54 r -> bnd 400 (demeritsForRatio A ko n r).
Proof.
  intros G Hr. unfold demeritsForRatio.
  set (bad := fadd A (k_line ko) _). assert (bnd 184 bad) as Hb.
  { apply (bnd_add A L 183); [lia| |].
    - apply (bnd_mono A L 100); [exact Hline|lia].
    - apply (bnd_mul A L 20 163); [lia|lia|exact Hbad|]. apply (bnd_pow3 A L 54); [lia|]. now apply bnd_abs. }
  assert (bnd 400 (fpow A bad (fZ 2))) as Hq.
  { apply (bnd_mono A L (2 * 184 + 1)); [|lia]. apply (bnd_pow2 A L 184); [lia|exact Hb]. }
  destruct (isPenalty n) eqn:Ep; [|exact Hq]. cbn [andb].
  destruct (flt A (fZ 0) (n_penalty n)) eqn:E0.
  - assert (isForcedBreak n = false) as Nf.
    { destruct (isForcedBreak n) eqn:Ef; [|reflexivity]. rewrite (gn_f n G Ef) in E0. unfold minusInfinity in E0.
      rewrite (rep_lt A L _ _ 0 (-10000)) in E0 by (apply rep_small; lia). discriminate. }
    apply (bnd_mono A L (2 * 185 + 1)); [|lia]. apply (bnd_pow2 A L 185); [lia|].
    apply (bnd_add A L 184); [lia|exact Hb|]. apply (bnd_mono A L 100); [|lia]. now apply G.
  - destruct (feq A (n_penalty n) (minusInfinity A)) eqn:Ef; [exact Hq|]. cbn [negb].
    assert (isForcedBreak n = false) as Nf by (unfold isForcedBreak; rewrite Ep, Ef; reflexivity).
    apply (bnd_sub0 A L); [exact Hq|exact E0|now apply G|lia].
Qed.

(** Break points *)
Definition srcOf (b : bpoint) : src := match b_previous b with None => None | Some _ => Some (b_position b) end.
Definition before (s : src) (i : nat) : Prop := match s with None => True | Some p => (p < i)%nat end.
Inductive okb : bpoint -> Prop :=
| okb_first : okb (firstActive A)
| okb_next : forall p i c t, okb p -> explored i = true -> before (srcOf p) i -> feas (srcOf p) i = true ->
    repT t (tW (Some i)) (tS (Some i)) ->
    okb (mkBP i (b_line p + 1) c (fZ 0) t (fZ 0) (Some p)).

Lemma explored_lt i : explored i = true -> (i < length nodes)%nat.
Proof.
  unfold explored. intros H. apply nth_error_Some. destruct (nth_error nodes i); [discriminate|discriminate H].
Qed.
Lemma repT_zero : repT (noSums A) 0 0.
Proof. repeat split; cbn; apply rep_small; lia. Qed.
Lemma okb_totals b : okb b -> repT (b_totals b) (tW (srcOf b)) (tS (srcOf b)).
Proof. destruct 1; [apply repT_zero|exact H3]. Qed.
Lemma okb_demerits b : okb b -> b_demerits b = fZ 0.
Proof. destruct 1; reflexivity. Qed.
Lemma okb_ratio b : okb b -> b_ratio b = fZ 0.
Proof. destruct 1; reflexivity. Qed.
Lemma okb_line b : okb b -> 0 <= b_line b.
Proof. induction 1; cbn [b_line firstActive]; lia. Qed.
Lemma okb_position b : okb b -> nodes <> [] -> (b_position b < length nodes)%nat.
Proof.
  destruct 1; intros N; cbn [b_position firstActive]; [destruct nodes; [congruence|cbn; lia]|now apply explored_lt].
Qed.

(** Candidates: for each class, the first feasible active break point of the list *)
Definition hasClass (i : nat) (c : fclass) (b : bpoint) : bool := feas (srcOf b) i && sameClass (cls (srcOf b) i) c.
Definition pick (i : nat) (l : list bpoint) (c : fclass) : option bpoint := find (hasClass i c) l.
Definition candOf (i : nat) (l : list bpoint) (c : fclass) : bpoint :=
  match pick i l c with Some b => b | None => defaultCandidates A c end.
Lemma pick_okb i l c b : Forall okb l -> pick i l c = Some b -> okb b.
Proof. intros H E. apply find_some in E. rewrite Forall_forall in H. now apply H. Qed.

Lemma ideal_one line : 0 <= line -> idealWidth A [wF] (line + 1) = Ret wF.
Proof.
  intros H. unfold idealWidth. change (zlen [wF]) with 1.
  destruct (Z.ltb_spec (line + 1) (1 + 1)) as [H1|H1].
  - assert (line = 0) by lia. subst. reflexivity.
  - reflexivity.
Qed.

Lemma zero_bnd : bnd 0 (fZ 0).
Proof. apply (bnd_rep A L _ _ 0); [apply rep_small|..]; lia. Qed.
Lemma sameClass_refl c : sameClass c c = true.
Proof. destruct c; reflexivity. Qed.
Lemma sameClass_eq c d : sameClass c d = true -> c = d.
Proof. destruct c, d; (reflexivity || discriminate). Qed.
Lemma sameClass_sym c d : sameClass c d = sameClass d c.
Proof. destruct c, d; reflexivity. Qed.

(* the demerits of a feasible break point *)
Lemma demeritsAndClass_ok b i n : okb b -> nth_error nodes i = Some n -> nodes <> [] ->
  exists d, demeritsAndClass A ko nodes b n (rat (srcOf b) i) = Ret (d, cls (srcOf b) i) /\ bnd 410 d.
Proof.
  intros Hb Hn N. unfold demeritsAndClass.
  destruct (nth_error nodes (b_position b)) as [m|] eqn:Em.
  2: { apply nth_error_None in Em. pose proof (okb_position b Hb N). lia. }
  eexists. split; [reflexivity|].
  pose proof (demerits_bnd n (rat (srcOf b) i) (good_at i n Hn) (rat_bnd _ _)) as D0.
  rewrite (okb_demerits b Hb).
  set (d1 := if isPenalty n && n_flagged n && isPenalty m && n_flagged m then _ else _).
  assert (bnd 401 d1) as D1.
  { unfold d1. destruct (_ && _); [|apply (bnd_mono A L 400); [exact D0|lia]].
    apply (bnd_add A L 400); [lia|exact D0|]. apply (bnd_mono A L 100); [exact Hflag|lia]. }
  set (d2 := if isAwayFrom _ _ then _ else _).
  assert (bnd 402 d2) as D2.
  { unfold d2. destruct (isAwayFrom _ _); [|apply (bnd_mono A L 401); [exact D1|lia]].
    apply (bnd_add A L 401); [lia|exact D1|]. apply (bnd_mono A L 100); [exact Hfit|lia]. }
  apply (bnd_mono A L 403); [|lia]. apply (bnd_add A L 402); [lia|exact D2|].
  apply (bnd_mono A L 0); [exact zero_bnd|lia].
Qed.

(** The loop over the active list *)
Definition lowestOk (i : nat) (l : list bpoint) (low : F) : Prop :=
  if existsb (fun b => feas (srcOf b) i) l then bnd 410 low else low = fMax A.
Definition keptOf (n : node) (l : list bpoint) : list bpoint := if isForcedBreak n then [] else l.

Lemma inner_spec i n sum (Hn : nth_error nodes i = Some n) (N : nodes <> []) (Hs : repT sum (PW i) (PS i)) :
  forall rest done seen cands low, Forall okb rest ->
  (forall c, cands c = candOf i seen c) -> Forall okb seen -> lowestOk i seen low ->
  exists cands' low', inner A ko nodes [wF] n sum done rest cands low = Ret (done ++ keptOf n rest, [], cands', low') /\
    (forall c, cands' c = candOf i (seen ++ rest) c) /\ lowestOk i (seen ++ rest) low'.
Proof.
  induction rest as [|b rest IH]; intros done seen cands low Hrest Hc Hseen Hlow.
  - exists cands, low. rewrite !app_nil_r. cbn [inner]. split; [|split; assumption].
    unfold keptOf. destruct (isForcedBreak n); now rewrite app_nil_r.
  - pose proof (Forall_inv Hrest) as Hb. pose proof (Forall_inv_tail Hrest) as Hrest'. cbn [inner].
    rewrite (ideal_one (b_line b) (okb_line b Hb)). cbn [gbind].
    rewrite (ratio_is b (srcOf b) i n sum Hn (okb_totals b Hb) Hs).
    destruct (rat_low (srcOf b) i) as [R1 R2]. rewrite R1, R2. cbn [orb andb].
    destruct (demeritsAndClass_ok b i n Hb Hn N) as (d & Ed & Bd). rewrite Ed. cbn [gbind].
    set (done' := if isForcedBreak n then done else done ++ [b]).
    assert (done' ++ keptOf n rest = done ++ keptOf n (b :: rest)) as Ek.
    { unfold done', keptOf. destruct (isForcedBreak n); [reflexivity|]. now rewrite <- app_assoc. }
    (* one step *)
    assert (exists cands1 low1,
      (if fle A (rat (srcOf b) i) (k_tolerance ko)
       then Ret (if flt A d (b_demerits (cands (cls (srcOf b) i))) then setCandidate A cands (cls (srcOf b) i) b else cands,
                 minf A low d)
       else Ret (cands, low)) = Ret (cands1, low1) /\
      (forall c, cands1 c = candOf i (seen ++ [b]) c) /\ lowestOk i (seen ++ [b]) low1) as (cands1 & low1 & E1 & Hc1 & Hlow1).
    { assert (feas (srcOf b) i = fle A (rat (srcOf b) i) (k_tolerance ko)) as Ef by (unfold feas, inTol; rewrite R2; reflexivity).
      rewrite <- Ef. destruct (feas (srcOf b) i) eqn:Efe.
      - eexists _, _. split; [reflexivity|]. split.
        + intros c. unfold candOf, pick. rewrite find_app. cbn [find]. unfold hasClass at 2. rewrite Efe. cbn [andb].
          rewrite Hc. unfold candOf, pick.
          destruct (find (hasClass i (cls (srcOf b) i)) seen) as [b0|] eqn:Eb0.
          * assert (okb b0) as Hb0 by (apply (pick_okb i seen (cls (srcOf b) i)); assumption).
            rewrite (okb_demerits b0 Hb0). rewrite (bnd_nonneg A L 410 d Bd). rewrite Hc. unfold candOf, pick.
            destruct (find (hasClass i c) seen) as [b1|] eqn:Eb1; [reflexivity|].
            destruct (sameClass (cls (srcOf b) i) c) eqn:Es; [|reflexivity].
            apply sameClass_eq in Es. subst c. congruence.
          * cbn [b_demerits defaultCandidates]. rewrite (proj1 (bnd_max A L 410 d ltac:(lia) Bd)).
            unfold setCandidate. rewrite sameClass_sym. destruct (sameClass (cls (srcOf b) i) c) eqn:Es.
            -- apply sameClass_eq in Es. subst c. now rewrite Eb0.
            -- rewrite Hc. unfold candOf, pick. destruct (find (hasClass i c) seen); reflexivity.
        + unfold lowestOk in *. rewrite existsb_app. cbn [existsb]. rewrite Efe, orb_true_r. unfold minf.
          destruct (existsb (fun b => feas (srcOf b) i) seen).
          * destruct (flt A low d); assumption.
          * rewrite Hlow. rewrite (lt_asym A L _ _ (proj1 (bnd_max A L 410 d ltac:(lia) Bd))). exact Bd.
      - exists cands, low. split; [reflexivity|]. split.
        + intros c. rewrite Hc. unfold candOf, pick. rewrite find_app. cbn [find]. unfold hasClass at 3. rewrite Efe. cbn [andb].
          destruct (find (hasClass i c) seen); reflexivity.
        + unfold lowestOk in *. rewrite existsb_app. cbn [existsb]. rewrite Efe, !orb_false_r. exact Hlow. }
    match goal with |- context [gbind ?x _] => replace x with (@Ret (candidates A * F) (cands1, low1)) end.
    cbn [gbind]. assert (b_line b + 1 <=? b_line b = false) as -> by (apply Z.leb_gt; lia).
    assert (Forall okb (seen ++ [b])) as Hseen1 by (apply Forall_app; split; [exact Hseen|now constructor]).
    destruct (IH done' (seen ++ [b]) cands1 low1 Hrest' Hc1 Hseen1 Hlow1) as (cands' & low' & E' & Hc' & Hlow').
    rewrite <- app_assoc in Hc', Hlow'. cbn [app] in Hc', Hlow'.
    exists cands', low'. split; [|split; assumption].
    destruct rest as [|b1 rest].
    + cbn [inner] in E'. rewrite E'. now rewrite Ek.
    + rewrite E'. now rewrite Ek.
Qed.

(** The totals after a break *)
Variable body : list node.
Variable fin : node.
Hypothesis Hnodes : nodes = body ++ [fin].
Hypothesis Hfin : isForcedBreak fin = true.
Hypothesis Hbody : Forall (fun n => isForcedBreak n = false) body.
Notation last := (length body).

Lemma nodes_ne : nodes <> [].
Proof. rewrite Hnodes. now destruct body. Qed.
Lemma nodes_len : length nodes = S last.
Proof. rewrite Hnodes, app_length. cbn. lia. Qed.
Lemma nth_last : nth_error nodes last = Some fin.
Proof. rewrite Hnodes, nth_error_app2, Nat.sub_diag by lia. reflexivity. Qed.
Lemma fin_penalty : isPenalty fin = true.
Proof. unfold isForcedBreak in Hfin. now apply andb_prop in Hfin. Qed.
Lemma not_forced i n : nth_error nodes i = Some n -> isForcedBreak n = true -> i = last.
Proof.
  intros H Hf. destruct (Nat.lt_ge_cases i last) as [Hl|Hl].
  - rewrite Hnodes, nth_error_app1 in H by exact Hl. apply nth_error_In in H. rewrite Forall_forall in Hbody.
    rewrite (Hbody n H) in Hf. discriminate.
  - assert (nth_error nodes i <> None) as N by congruence. apply nth_error_Some in N. rewrite nodes_len in N. lia.
Qed.

(** [sk p] is the least stop (box or forced break) from p on *)
Definition stop (n : node) : bool := isBox n || isForcedBreak n.
Lemma skip_loop_spec rest : forall j, match skip_loop A rest j with
  | Some k => (j <= k)%nat /\ (exists n, nth_error rest (k - j) = Some n /\ stop n = true) /\
  forall q n, (q < k - j)%nat -> nth_error rest q = Some n -> stop n = false
  | None => Forall (fun n => stop n = false) rest
  end.
Proof.
  induction rest as [|n rest IH]; intros j; cbn [skip_loop]; [constructor|]. fold (stop n).
  destruct (stop n) eqn:E.
  - rewrite Nat.sub_diag. split; [lia|]. split; [exists n; auto|]. intros; lia.
  - specialize (IH (S j)). destruct (skip_loop A rest (S j)) as [k|].
    + destruct IH as (H1 & (m & Hm & Sm) & H3). split; [lia|]. replace (k - j)%nat with (S (k - S j)) by lia. split.
      * exists m. auto.
      * intros [|q] m' Hq Hm'; cbn in Hm'; [congruence|]. apply (H3 q); [lia|exact Hm'].
    + now constructor.
Qed.
Lemma sk_spec p : (p <= last)%nat -> (p <= sk p <= last)%nat /\
  (exists n, nth_error nodes (sk p) = Some n /\ stop n = true) /\
  forall q n, (p <= q < sk p)%nat -> nth_error nodes q = Some n -> stop n = false.
Proof.
  intros Hp. unfold sk, skipNodes. pose proof (skip_loop_spec (skipn p nodes) 0) as H.
  destruct (skip_loop A (skipn p nodes) 0) as [k|].
  - destruct H as (_ & (n & Hn & Sn) & H3). rewrite Nat.sub_0_r in *. rewrite nth_error_skipn in Hn.
    assert (nth_error nodes (p + k) <> None) as N by congruence. apply nth_error_Some in N. rewrite nodes_len in N.
    split; [lia|]. split; [exists n; auto|]. intros q m Hq Hm. apply (H3 (q - p)%nat); [lia|].
    rewrite nth_error_skipn. now replace (p + (q - p))%nat with q by lia.
  - exfalso. rewrite Forall_forall in H. specialize (H fin). unfold stop in H. rewrite Hfin, orb_true_r in H.
    discriminate H. pose proof nth_last as E. replace last with (p + (last - p))%nat in E by lia.
    rewrite <- nth_error_skipn in E. now apply nth_error_In in E.
Qed.
Lemma sk_eq p q n : (p <= q <= last)%nat -> nth_error nodes q = Some n -> stop n = true ->
  (forall r m, (p <= r < q)%nat -> nth_error nodes r = Some m -> stop m = false) -> sk p = q.
Proof.
  intros Hpq Hn Sn H. destruct (sk_spec p ltac:(lia)) as (H1 & (m & Hm & Sm) & H3).
  destruct (Nat.lt_trichotomy (sk p) q) as [C|[C|C]]; [|exact C|].
  - rewrite (H (sk p) m) in Sm; [discriminate|lia|exact Hm].
  - rewrite (H3 q n) in Sn; [discriminate|lia|exact Hn].
Qed.
Lemma sk_same p i : (p <= i <= sk p)%nat -> (p <= last)%nat -> sk i = sk p.
Proof.
  intros H Hp. destruct (sk_spec p Hp) as (H1 & (n & Hn & Sn) & H3).
  apply (sk_eq i (sk p) n); [lia|exact Hn|exact Sn|]. intros r m Hr. apply H3. lia.
Qed.

Lemma PW_S i n : nth_error nodes i = Some n -> PW (S i) = PW i + addW n.
Proof. intros H. unfold PW, sumW. rewrite (firstn_S _ _ _ H), map_app, zsum_app. cbn [map zsum]. lia. Qed.
Lemma PS_S i n : nth_error nodes i = Some n -> PS (S i) = PS i + addS n.
Proof. intros H. unfold PS, sumS. rewrite (firstn_S _ _ _ H), map_app, zsum_app. cbn [map zsum]. lia. Qed.
Lemma PW_exact i : exactZ (PW i).
Proof. unfold exactZ. pose proof (PW_nonneg i). pose proof (HPW i). lia. Qed.
Lemma PS_exact i : exactZ (PS i).
Proof. unfold exactZ. pose proof (HPS i). lia. Qed.

Lemma isGlue_types (n : node) : isGlue n = true -> isBox n = false /\ isPenalty n = false.
Proof. unfold isGlue, isBox, isPenalty. destruct (n_type n); try discriminate; auto. Qed.
Lemma isBox_types (n : node) : isBox n = true -> isGlue n = false /\ isPenalty n = false.
Proof. unfold isGlue, isBox, isPenalty. destruct (n_type n); try discriminate; auto. Qed.
Lemma isPenalty_types (n : node) : isPenalty n = true -> isGlue n = false /\ isBox n = false.
Proof. unfold isGlue, isBox, isPenalty. destruct (n_type n); try discriminate; auto. Qed.
Lemma forced_penalty (n : node) : isPenalty n = false -> isForcedBreak n = false.
Proof. unfold isForcedBreak. now intros ->. Qed.

Lemma add_glue t i n : nth_error nodes i = Some n -> isGlue n = true -> repT t (PW i) (PS i) ->
  repT (sumsAdd A t (n_sums n)) (PW (S i)) (PS (S i)).
Proof.
  intros Hn Hg Ht. pose proof (PW_exact (S i)) as E1. pose proof (PS_exact (S i)) as E2.
  pose proof (isGlue_types n Hg) as [_ Np]. rewrite (PW_S i n Hn), (PS_S i n Hn) in *. unfold addW, addS in *.
  rewrite Hg, Np in *. apply repT_add; [exact Ht|exact (good_at i n Hn)|exact E1|exact E2].
Qed.
Lemma keep_penalty t i n : nth_error nodes i = Some n -> isPenalty n = true -> repT t (PW i) (PS i) ->
  repT t (PW (S i)) (PS (S i)).
Proof.
  intros Hn Hg Ht. pose proof (isPenalty_types n Hg) as [Ng _]. rewrite (PW_S i n Hn), (PS_S i n Hn). unfold addW, addS.
  rewrite Hg, Ng, !Z.add_0_r. exact Ht.
Qed.
Lemma add_box t i n : nth_error nodes i = Some n -> isBox n = true -> repT t (PW i) (PS i) ->
  repT (mkSums (fadd A (su_width t) (su_width (n_sums n))) (su_stretch t) (su_shrink t)) (PW (S i)) (PS (S i)).
Proof.
  intros Hn Hg (T1 & T2 & T3). pose proof (isBox_types n Hg) as [Ng Np]. pose proof (PW_exact (S i)) as E1.
  rewrite (PW_S i n Hn), (PS_S i n Hn) in *. unfold addW, addS in *.
  rewrite Ng, Np, ?Z.add_0_r in *. repeat split; cbn [su_width su_stretch su_shrink]; [|exact T2|exact T3].
  apply rep_add; [exact T1|apply (good_at i n Hn)|exact E1].
Qed.

Lemma sumFrom_spec k : forall i t first, (sk i - i = k)%nat -> (i <= last)%nat -> repT t (PW i) (PS i) ->
  repT (sumFrom A (skipn i nodes) first t) (PW (sk i)) (PS (sk i)).
Proof.
  induction k as [|k IH]; intros i t first Hk Hi Ht; destruct (sk_spec i Hi) as (H1 & (m & Hm & Sm) & H3).
  - assert (sk i = i) as E by lia. rewrite E in *. rewrite (skipn_cons _ _ _ Hm). cbn [sumFrom].
    unfold stop in Sm. destruct (isBox m) eqn:Eb.
    + destruct (isBox_types m Eb) as [-> _]. cbn [orb]. exact Ht.
    + cbn [orb] in Sm. destruct (isForcedBreak m) eqn:Ef; [|discriminate]. pose proof (not_forced i m Hm Ef) as El.
      assert (isPenalty m = true) as Ep by (unfold isForcedBreak in Ef; now apply andb_prop in Ef).
      destruct (isPenalty_types m Ep) as [-> _]. cbn [orb].
      rewrite skipn_all2 by (rewrite nodes_len; lia). destruct first; exact Ht.
  - assert (exists n, nth_error nodes i = Some n) as (n & Hn).
    { destruct (nth_error nodes i) as [n|] eqn:E; [eauto|]. apply nth_error_None in E. rewrite nodes_len in E. lia. }
    assert (stop n = false) as Sn by (apply (H3 i); [lia|exact Hn]).
    assert (sk (S i) = sk i) as E by (apply sk_same; lia).
    rewrite (skipn_cons _ _ _ Hn). cbn [sumFrom]. unfold stop in Sn. apply orb_false_elim in Sn. destruct Sn as [Eb Ef].
    rewrite Eb, Ef. cbn [orb andb]. rewrite <- E.
    destruct (isGlue n) eqn:Eg.
    + apply IH; [lia|lia|]. now apply add_glue.
    + apply IH; [lia|lia|]. apply (keep_penalty _ _ n); [exact Hn| |exact Ht].
      unfold isPenalty, isGlue, isBox in *. destruct (n_type n); congruence || discriminate.
Qed.
Lemma sumFromNode_spec i t : (i <= last)%nat -> repT t (PW i) (PS i) ->
  repT (sumFromNode A nodes t i) (tW (Some i)) (tS (Some i)).
Proof. intros Hi Ht. unfold sumFromNode. now apply (sumFrom_spec (sk i - i)). Qed.

(** The main loop *)
Variable ord : nat -> nat -> list fclass.
Hypothesis Hord : forall i k c, In c (ord i k).

Definition newAt (i : nat) (t : sums A) (b : bpoint) (c : fclass) : bpoint :=
  mkBP i (b_line b + 1) c (fZ 0) t (fZ 0) (Some b).
Definition news (i : nat) (t : sums A) (l : list bpoint) (o : list fclass) : list bpoint :=
  flat_map (fun c => match pick i l c with Some b => [newAt i t b c] | None => [] end) o.

Lemma insertNew_spec i t l low cands (Hl : Forall okb l) (Hc : forall c, cands c = candOf i l c) (Hlow : bnd 410 low) :
  forall o done, insertNew A ko done [] i t low cands o = done ++ news i t l o.
Proof.
  induction o as [|c o IH]; intros done; cbn [insertNew news flat_map]; [now rewrite app_nil_r|].
  rewrite Hc. unfold candOf. destruct (pick i l c) as [b|] eqn:Ep.
  - pose proof (pick_okb i l c b Hl Ep) as Hb. rewrite (okb_demerits b Hb), (okb_ratio b Hb).
    rewrite (proj2 (bnd_max A L 0 (fZ 0) ltac:(lia) zero_bnd)).
    assert (bnd 411 (fadd A low (k_fitness ko))) as Bl.
    { apply (bnd_add A L 410); [lia|exact Hlow|]. apply (bnd_mono A L 100); [exact Hfit|lia]. }
    assert (flt A (fadd A low (k_fitness ko)) (fZ 0) = false) as -> by (now apply (bnd_nonneg A L 411)).
    cbn [orb]. rewrite IH, <- app_assoc. reflexivity.
  - cbn [b_demerits defaultCandidates]. rewrite (max_refl A L). cbn [orb app]. apply IH.
Qed.
Lemma news_nil i t l o : existsb (fun b => feas (srcOf b) i) l = false -> news i t l o = [].
Proof.
  intros H. unfold news. induction o as [|c o IH]; [reflexivity|]. cbn [flat_map]. rewrite IH.
  destruct (pick i l c) as [b|] eqn:E; [|reflexivity]. apply find_some in E. destruct E as [E1 E2].
  unfold hasClass in E2. apply andb_prop in E2. destruct E2 as [E2 _].
  assert (existsb (fun b => feas (srcOf b) i) l = true); [|congruence]. apply existsb_exists. eauto.
Qed.
Lemma mainLoop_spec i n sum l : nth_error nodes i = Some n -> repT sum (PW i) (PS i) -> Forall okb l -> l <> [] ->
  mainLoop A ko ord nodes [wF] i n sum l = Ret (keptOf n l ++ news i (sumFromNode A nodes sum i) l (ord i 0%nat)).
Proof.
  intros Hn Hs Hl Nl. unfold mainLoop. destruct l as [|b0 l0] eqn:El; [congruence|]. cbn [length outer]. rewrite <- El in *.
  destruct (inner_spec i n sum Hn nodes_ne Hs l [] [] (defaultCandidates A) (fMax A)) as (cands & low & E & Hc & Hlow).
  - exact Hl.
  - reflexivity.
  - constructor.
  - reflexivity.
  - rewrite E. cbn [gbind app]. cbn [app] in Hc, Hlow. unfold lowestOk in Hlow.
    destruct (existsb (fun b => feas (srcOf b) i) l) eqn:Ex.
    + rewrite (proj1 (bnd_max A L 410 low ltac:(lia) Hlow)). rewrite (insertNew_spec i _ l low cands Hl Hc Hlow).
      now destruct (length l0).
    + rewrite Hlow. rewrite (news_nil i _ l _ Ex), app_nil_r.
      assert (flt A (fMax A) (fMax A) = false) as ->.
      { destruct (flt A (fMax A) (fMax A)) eqn:Em; [|reflexivity]. apply lt_le in Em; [|exact L].
        rewrite (max_refl A L) in Em. discriminate. }
      now destruct (length l0).
Qed.

(** Reachable breaks, and the lines of a solution *)
Definition srcLe (s t : src) : Prop :=
  match s, t with None, _ => True | Some _, None => False | Some a, Some b => (a <= b)%nat end.
Inductive reach : src -> Prop :=
| reach_first : reach None
| reach_next : forall s i, reach s -> before s i -> explored i = true -> feas s i = true -> reach (Some i).
Definition first (s : src) : nat := match s with None => sk 0 | Some p => sk p end.
Definition earliest (s : src) (i : nat) : Prop :=
  forall s', reach s' -> before s' i -> feas s' i = true -> cls s' i = cls s i -> srcLe s s'.
Record link (s : src) (i : nat) : Prop := {
  lk_reach : reach s; lk_before : before s i; lk_explored : explored i = true; lk_feas : feas s i = true;
  lk_le : (first s <= i)%nat; lk_earliest : earliest s i
}.
Inductive clean : bpoint -> Prop :=
| clean_first : clean (firstActive A)
| clean_next : forall p i c t, clean p -> link (srcOf p) i -> clean (newAt i t p c).
Definition sameT (s t : src) : Prop := tW s = tW t /\ tS s = tS t.

Lemma okb_reach b : okb b -> reach (srcOf b).
Proof.
  induction 1; [constructor|]. unfold srcOf at 1. cbn [b_previous b_position]. apply (reach_next (srcOf p)); assumption.
Qed.
Lemma srcLe_refl s : srcLe s s.
Proof. destruct s; cbn; (lia || auto). Qed.
Lemma before_srcLe s i : before s i -> srcLe s (Some i).
Proof. destruct s; cbn; (lia || auto). Qed.

Record Inv (i : nat) (l : list bpoint) : Prop := {
  inv_ok : Forall okb l;
  inv_before : Forall (fun b => before (srcOf b) i) l;
  inv_sorted : StronglySorted srcLe (map srcOf l);
  inv_complete : forall s, reach s -> before s i -> exists b, In b l /\ srcOf b = s;
  inv_shadow : forall pre b post, l = pre ++ b :: post ->
    clean b \/ exists b', In b' pre /\ sameT (srcOf b') (srcOf b);
  inv_ne : l <> []
}.

Lemma sorted_split l1 x l2 : StronglySorted srcLe (l1 ++ x :: l2) -> forall y, In y (x :: l2) -> srcLe x y.
Proof.
  induction l1 as [|z l1 IH]; cbn [app]; intros H y Hy.
  - apply StronglySorted_inv in H. destruct H as [_ H]. rewrite Forall_forall in H.
    destruct Hy as [->|Hy]; [apply srcLe_refl|now apply H].
  - apply StronglySorted_inv in H. now apply IH.
Qed.
Lemma hasClass_same i c b b' : sameT (srcOf b') (srcOf b) -> hasClass i c b' = hasClass i c b.
Proof. intros [H1 H2]. unfold hasClass, feas, cls, rat, aw. now rewrite H1, H2. Qed.

(** What is picked starts a clean line, the longest of its class *)
Lemma pick_spec i l c b : Inv i l -> pick i l c = Some b ->
  In b l /\ clean b /\ feas (srcOf b) i = true /\ cls (srcOf b) i = c /\ before (srcOf b) i /\ earliest (srcOf b) i.
Proof.
  intros I H. destruct (find_split _ _ _ H) as (pre & post & El & Hb & Hpre).
  assert (In b l) as Hin by (rewrite El; apply in_or_app; cbn; auto).
  assert (Hb' := Hb). unfold hasClass in Hb'. apply andb_prop in Hb'. destruct Hb' as [Hf Hc]. apply sameClass_eq in Hc.
  pose proof (inv_before i l I) as Hbef. rewrite Forall_forall in Hbef.
  repeat split; try assumption.
  - destruct (inv_shadow i l I pre b post El) as [Hcl|(b' & Hb' & Hs)]; [exact Hcl|]. exfalso.
    rewrite Forall_forall in Hpre. pose proof (Hpre b' Hb') as E. rewrite (hasClass_same i c b b' Hs) in E. congruence.
  - now apply Hbef.
  - intros s' Hr Hb' Hf' Hc'. destruct (inv_complete i l I s' Hr Hb') as (b' & Hin' & <-).
    rewrite El in Hin'. apply in_app_or in Hin'. destruct Hin' as [Hin'|Hin'].
    + exfalso. rewrite Forall_forall in Hpre. pose proof (Hpre b' Hin') as E. unfold hasClass in E.
      rewrite Hf', Hc', Hc, sameClass_refl in E. discriminate.
    + pose proof (inv_sorted i l I) as Hs. rewrite El, map_app in Hs. cbn [map] in Hs.
      apply (sorted_split _ _ _ Hs). change (srcOf b :: map srcOf post) with (map srcOf (b :: post)). now apply in_map.
Qed.

(** No break is possible before the first box. *)
Hypothesis Hfirst : forall i, explored i = true -> (sk 0 < i)%nat \/ (i = last /\ sk 0 = last) \/ feas None i = false.

Lemma news_in i t l o b : In b (news i t l o) -> exists c p, pick i l c = Some p /\ b = newAt i t p c.
Proof.
  unfold news. intros H. apply in_flat_map in H. destruct H as (c & _ & H).
  destruct (pick i l c) as [p|] eqn:E; [|destruct H]. destruct H as [<-|[]]. eauto.
Qed.
Lemma news_has i t l o s b : In b l -> srcOf b = s -> feas s i = true -> (forall c, In c o) ->
  exists b', In b' (news i t l o).
Proof.
  intros Hb <- Hf Ho. destruct (pick i l (cls (srcOf b) i)) as [p|] eqn:E.
  - exists (newAt i t p (cls (srcOf b) i)). apply in_flat_map. exists (cls (srcOf b) i). split; [apply Ho|].
    rewrite E. cbn. auto.
  - exfalso. pose proof (find_none _ _ E b Hb) as N. unfold hasClass in N. rewrite Hf, sameClass_refl in N. discriminate.
Qed.
Lemma news_src i t l o : Forall (fun s => s = Some i) (map srcOf (news i t l o)).
Proof.
  apply Forall_forall. intros s H. apply in_map_iff in H. destruct H as (b & <- & H). apply news_in in H.
  destruct H as (c & p & _ & ->). reflexivity.
Qed.

Lemma sorted_app l1 l2 : StronglySorted srcLe l1 -> StronglySorted srcLe l2 ->
  (forall x y, In x l1 -> In y l2 -> srcLe x y) -> StronglySorted srcLe (l1 ++ l2).
Proof.
  induction l1 as [|x l1 IH]; intros H1 H2 H; [exact H2|]. apply StronglySorted_inv in H1. destruct H1 as [H1 H3].
  cbn [app]. constructor.
  - apply IH; [exact H1|exact H2|]. intros a b Ha Hb. apply H; [now right|exact Hb].
  - apply Forall_app. split; [exact H3|]. apply Forall_forall. intros y Hy. apply H; [now left|exact Hy].
Qed.
Lemma sorted_const i l : Forall (fun s => s = Some i) l -> StronglySorted srcLe l.
Proof.
  induction 1; constructor; [assumption|]. eapply Forall_impl; [|exact H0]. intros s ->. subst. apply srcLe_refl.
Qed.


Lemma new_clean i t l c p : Inv i l -> explored i = true -> pick i l c = Some p ->
  (first (srcOf p) <= i)%nat -> clean (newAt i t p c).
Proof.
  intros I He Hp Hf. destruct (pick_spec i l c p I Hp) as (H1 & H2 & H3 & H4 & H5 & H6).
  constructor; [exact H2|]. constructor; try assumption. apply okb_reach. pose proof (inv_ok i l I) as O.
  rewrite Forall_forall in O. now apply O.
Qed.

Lemma step_inv i n t l : Inv i l -> nth_error nodes i = Some n -> (i < last)%nat -> explored i = true ->
  repT t (tW (Some i)) (tS (Some i)) -> Inv (S i) (l ++ news i t l (ord i 0%nat)).
Proof.
  intros I Hn Hi He Ht. constructor.
  - apply Forall_app. split; [apply I|]. apply Forall_forall. intros b Hb. apply news_in in Hb.
    destruct Hb as (c & p & Hp & ->). destruct (pick_spec i l c p I Hp) as (H1 & H2 & H3 & H4 & H5 & H6).
    constructor; try assumption. pose proof (inv_ok i l I) as O. rewrite Forall_forall in O. now apply O.
  - apply Forall_app. split.
    + eapply Forall_impl; [|apply (inv_before i l I)]. intros b. cbv beta. destruct (srcOf b); cbn; (lia || auto).
    + apply Forall_forall. intros b Hb. apply news_in in Hb. destruct Hb as (c & p & Hp & ->). cbn. lia.
  - rewrite map_app. apply sorted_app; [apply I|apply (sorted_const i), news_src|].
    intros x y Hx Hy. pose proof (news_src i t l (ord i 0%nat)) as Hs. rewrite Forall_forall in Hs. rewrite (Hs y Hy).
    apply in_map_iff in Hx. destruct Hx as (b & <- & Hb). apply before_srcLe. pose proof (inv_before i l I) as B.
    rewrite Forall_forall in B. now apply B.
  - intros s Hr Hb. destruct s as [p|].
    + cbn [before] in Hb. destruct (Nat.eq_dec p i) as [->|Np].
      * inversion Hr; subst. destruct (inv_complete i l I s H0 H1) as (b & Hin & Hsrc).
        destruct (news_has i t l (ord i 0%nat) s b Hin Hsrc H3 (Hord i 0%nat)) as (b' & Hb').
        exists b'. split; [apply in_or_app; now right|]. apply news_in in Hb'. destruct Hb' as (c & q & _ & ->). reflexivity.
      * destruct (inv_complete i l I (Some p) Hr) as (b & Hin & Hsrc); [cbn; lia|].
        exists b. split; [apply in_or_app; now left|exact Hsrc].
    + destruct (inv_complete i l I None Hr Logic.I) as (b & Hin & Hsrc).
      exists b. split; [apply in_or_app; now left|exact Hsrc].
  - intros pre b post E. destruct (in_pre_split _ _ _ _ _ E) as [(post' & E')|(pre' & -> & E')].
    + apply (inv_shadow i l I pre b post' E').
    + assert (In b (news i t l (ord i 0%nat))) as Hb by (rewrite E'; apply in_or_app; cbn; auto).
      apply news_in in Hb. destruct Hb as (c & p & Hp & ->).
      destruct (pick_spec i l c p I Hp) as (H1 & H2 & H3 & H4 & H5 & H6).
      destruct (Nat.lt_ge_cases (first (srcOf p)) i) as [Hlt|Hge].
      * left. apply (new_clean i t l); auto. lia.
      * right. exists p. split; [apply in_or_app; now left|].
        change (srcOf (newAt i t p c)) with (Some i). destruct (srcOf p) as [q|].
        -- cbn [first before] in *. unfold sameT. cbn [tW tS]. rewrite (sk_same q i) by lia. auto.
        -- exfalso. cbn [first] in Hge. destruct (Hfirst i He) as [H|[[H _]|H]]; [lia|lia|congruence].
  - destruct l; [exfalso; now apply (inv_ne i [] I)|discriminate].
Qed.
Lemma skip_inv i l : Inv i l -> explored i = false -> Inv (S i) l.
Proof.
  intros I He. constructor; try apply I.
  - eapply Forall_impl; [|apply (inv_before i l I)]. intros b. cbv beta. destruct (srcOf b); cbn; (lia || auto).
  - intros s Hr Hb. apply (inv_complete i l I s Hr). destruct s as [p|]; [|exact Logic.I]. cbn [before] in *.
    destruct (Nat.eq_dec p i) as [->|]; [|lia]. inversion Hr; subst. congruence.
Qed.

Lemma last_explored : explored last = true.
Proof.
  unfold explored. rewrite nth_last. pose proof fin_penalty as E. unfold isPenalty in E. destruct (n_type fin); try discriminate.
  assert (goodNode fin) as G by (apply (good_at last); exact nth_last). rewrite (gn_f fin G Hfin).
  unfold minusInfinity, infinity. rewrite (rep_eq A L _ _ (-10000) 10000) by (apply rep_small; lia). reflexivity.
Qed.

Definition prevOf (i : nat) : option node := match i with O => None | S p => nth_error nodes p end.
Lemma loop_spec k : forall i sum l, (last - i = k)%nat -> (i <= last)%nat -> Inv i l -> repT sum (PW i) (PS i) ->
  exists t l', Inv last l' /\ breakLoop A ko ord nodes [wF] (skipn i nodes) (prevOf i) i sum l =
    Ret (news last t l' (ord last 0%nat)).
Proof.
  induction k as [|k IH]; intros i sum l Hk Hi I Hs.
  - assert (i = last) as -> by lia. pose proof nth_last as Hn. rewrite (skipn_cons _ _ _ Hn).
    rewrite skipn_all2 by (rewrite nodes_len; lia). cbn [breakLoop].
    pose proof last_explored as He. unfold explored in He. rewrite Hn in He.
    pose proof fin_penalty as E. unfold isPenalty in E. destruct (n_type fin) eqn:Et; try discriminate.
    rewrite He. rewrite (mainLoop_spec last fin sum l Hn Hs (inv_ok _ _ I) (inv_ne _ _ I)). cbn [gbind].
    unfold keptOf. rewrite Hfin. cbn [app]. eexists _, l. split; [exact I|reflexivity].
  - assert (exists n, nth_error nodes i = Some n) as (n & Hn).
    { destruct (nth_error nodes i) as [n|] eqn:E; [eauto|]. apply nth_error_None in E. rewrite nodes_len in E. lia. }
    assert (isForcedBreak n = false) as Nf.
    { destruct (isForcedBreak n) eqn:E; [|reflexivity]. pose proof (not_forced i n Hn E). lia. }
    assert (explored i = true -> exists t', mainLoop A ko ord nodes [wF] i n sum l = Ret (l ++ news i t' l (ord i 0%nat)) /\
      Inv (S i) (l ++ news i t' l (ord i 0%nat))) as Hmain.
    { intros He. exists (sumFromNode A nodes sum i). split.
      - rewrite (mainLoop_spec i n sum l Hn Hs (inv_ok _ _ I) (inv_ne _ _ I)). unfold keptOf. now rewrite Nf.
      - apply (step_inv i n); try assumption; [lia|]. now apply sumFromNode_spec. }
    rewrite (skipn_cons _ _ _ Hn). cbn [breakLoop].
    assert (Some n = prevOf (S i)) as Epv by (symmetry; exact Hn).
    destruct (n_type n) eqn:Et.
    + assert (isPenalty n = true) as Ep by (unfold isPenalty; now rewrite Et).
      assert (explored i = negb (feq A (n_penalty n) (infinity A))) as Ee by (unfold explored; now rewrite Hn, Et).
      rewrite <- Ee. destruct (explored i) eqn:Eex.
      * destruct (Hmain eq_refl) as (t' & -> & I'). cbn [gbind]. rewrite Epv. apply IH; [lia|lia|exact I'|].
        now apply (keep_penalty sum i n).
      * cbn [gbind]. rewrite Epv. apply IH; [lia|lia| |now apply (keep_penalty sum i n)]. apply skip_inv; [exact I|exact Eex].
    + assert (isGlue n = true) as Ep by (unfold isGlue; now rewrite Et).
      assert (explored i = match prevOf i with Some m => isBox m | None => false end) as Ee.
      { unfold explored, prevOf. rewrite Hn, Et. now destruct i. }
      assert (repT (sumsAdd A sum (n_sums n)) (PW (S i)) (PS (S i))) as Hs' by (now apply add_glue).
      destruct (prevOf i) as [m|].
      * destruct (isBox m).
        -- destruct (Hmain Ee) as (t' & -> & I'). cbn [gbind]. rewrite Epv. apply IH; [lia|lia|exact I'|exact Hs'].
        -- cbn [gbind]. rewrite Epv. apply IH; [lia|lia|now apply skip_inv|exact Hs'].
      * cbn [gbind]. rewrite Epv. apply IH; [lia|lia|now apply skip_inv|exact Hs'].
    + assert (isBox n = true) as Ep by (unfold isBox; now rewrite Et).
      assert (explored i = false) as Ee by (unfold explored; now rewrite Hn, Et).
      cbn [gbind]. rewrite Epv. apply IH; [lia|lia|now apply skip_inv|]. now apply add_box.
Qed.

(** The break points returned *)
Fixpoint chain (s : src) (ps : list nat) : Prop :=
  match ps with
  | [] => s = Some last
  | p :: ps' => link s p /\ chain (Some p) ps'
  end.
Lemma clean_chain b : clean b -> forall acc, chain (srcOf b) (map b_position acc) -> Forall (fun x => b_ratio x = fZ 0) acc ->
  chain None (map b_position (chainOf A b acc)) /\ Forall (fun x => b_ratio x = fZ 0) (chainOf A b acc).
Proof.
  induction 1 as [|p i c t Hp IH Hl]; intros acc Hc Hr; [split; assumption|].
  cbn [chainOf newAt b_previous]. apply IH.
  - cbn [map b_position chain]. split; [exact Hl|]. exact Hc.
  - constructor; [reflexivity|exact Hr].
Qed.

Lemma init_inv i : (forall j, (j < i)%nat -> explored j = false) -> Inv i [firstActive A].
Proof.
  intros H. constructor.
  - repeat constructor.
  - repeat constructor.
  - repeat constructor.
  - intros s Hr Hb. exists (firstActive A). split; [now left|]. destruct s as [p|]; [|reflexivity]. exfalso. cbn in Hb.
    inversion Hr; subst. rewrite (H p Hb) in H3. discriminate.
  - intros [|x pre] b post E; cbn [app] in E; injection E; intros.
    + subst b. left. constructor.
    + symmetry in H0. apply app_eq_nil in H0. destruct H0; discriminate.
  - discriminate.
Qed.

(** Lines are not empty if the width is not 0 *)
Lemma lk_first s i : zw fin = 0 -> Wd <> 0 -> fle A (infinity A) (k_tolerance ko) = false -> explored (sk 0) = false -> link s i -> (first s < i)%nat.
Proof.
  intros Hfin0 HW Htol H0 [_ Hb He Hf Hle _]. destruct (Nat.eq_dec (first s) i) as [E|E]; [exfalso|lia]. destruct s as [p|]; cbn [first before] in *; [|congruence].
  assert (i <= last)%nat as Hi. { pose proof (explored_lt i He) as H. rewrite nodes_len in H. lia. }
  destruct (sk_spec p ltac:(lia)) as (_ & (n & Hn & Hs) & _). rewrite E in Hn.
  assert (i = last) as ->.
  { unfold explored in He. rewrite Hn in He. unfold stop in Hs. apply orb_prop in Hs as [Hs|Hs].
    - unfold isBox in Hs. destruct (n_type n); discriminate.
    - pose proof (not_forced i n Hn Hs). lia. }
  unfold feas, rat, aw in Hf. cbn [tW tS] in Hf. rewrite E, !Z.sub_diag in Hf. unfold breakWidth in Hf.
  rewrite nth_last, fin_penalty, Hfin0 in Hf. cbn [Z.add] in Hf. unfold ratioZ in Hf.
  assert (inTol (infinity A) = false) as E0 by (unfold inTol; now rewrite Htol, andb_false_r).
  rewrite Z.ltb_irrefl in Hf. destruct (0 <? Wd) eqn:E1; [congruence|]. destruct (Wd <? 0) eqn:E2; [congruence|]. lia.
Qed.

(** all demerits are 0: the first break point of the last list is returned *)
Lemma best_first i t l o : findBestBreak A (news i t l o) = match news i t l o with b :: _ => b | [] => mkBP 0 0 C0 (fMax A) (noSums A) (fZ 0) None end.
Proof.
  assert (Forall (fun x => b_demerits x = fZ 0) (news i t l o)) as Hall.
  { apply Forall_forall. intros x Hx. apply news_in in Hx. destruct Hx as (c & p & _ & ->). reflexivity. }
  destruct (news i t l o) as [|b bs]; [reflexivity|]. unfold findBestBreak. cbn [fold_left b_demerits].
  pose proof (Forall_inv Hall) as Ed. apply Forall_inv_tail in Hall. rewrite Ed, (proj1 (bnd_max A L 0 (fZ 0) ltac:(lia) zero_bnd)).
  induction bs as [|x bs IH]; [reflexivity|]. cbn [fold_left]. rewrite (Forall_inv Hall), Ed, (bnd_nonneg A L 0 (fZ 0) zero_bnd).
  apply IH. exact (Forall_inv_tail Hall).
Qed.

(** [breakPoints], once the first node is known *)
Definition breakFrom (st : nat) : go (option (list bpoint)) :=
  let! actives := breakLoop A ko ord nodes [wF] (skipn st nodes) (prevOf st) st (noSums A) [firstActive A] in
  match actives with
  | [] => Ret None
  | _ => Ret (reverseBreakPoints A (findBestBreak A actives))
  end.
Theorem breakFrom_spec st : (st <= last)%nat -> (forall i, (i < st)%nat -> explored i = false) -> PW st = 0 -> PS st = 0 ->
  (breakFrom st = Ret None /\ forall s, reach s -> before s last -> feas s last = false) \/
  (exists bs, breakFrom st = Ret (Some bs) /\ chain None (map b_position bs) /\ Forall (fun x => b_ratio x = fZ 0) bs /\ bs <> []).
Proof.
  intros Hst Hno HW HS. unfold breakFrom.
  destruct (loop_spec (last - st) st (noSums A) [firstActive A]) as (t & l' & I & E); [lia|exact Hst|now apply init_inv|rewrite HW, HS; exact repT_zero|].
  rewrite E. cbn [gbind]. destruct (news last t l' (ord last 0%nat)) as [|b bs] eqn:En.
  - left. split; [reflexivity|]. intros s Hr Hb. destruct (feas s last) eqn:Ef; [|reflexivity]. exfalso.
    destruct (inv_complete _ _ I s Hr Hb) as (b & Hin & Hsrc).
    destruct (news_has last t l' (ord last 0%nat) s b Hin Hsrc Ef (Hord last 0%nat)) as (b' & Hb').
    rewrite En in Hb'. destruct Hb'.
  - right.
    assert (Forall (fun x => exists c p, pick last l' c = Some p /\ x = newAt last t p c) (b :: bs)) as Hall.
    { rewrite <- En. apply Forall_forall. intros x. apply news_in. }
    assert (findBestBreak A (b :: bs) = b) as -> by (rewrite <- En; rewrite best_first, En; reflexivity).
    pose proof (Forall_inv Hall) as (c & p & Hp & Eb).
    destruct (pick_spec last l' c p I Hp) as (H1 & H2 & H3 & H4 & H5 & H6).
    assert (first (srcOf p) <= last)%nat as Hf.
    { destruct (srcOf p) as [q|]; cbn [first before] in *; [apply sk_spec; lia|]. apply (sk_spec 0). lia. }
    assert (clean b) as Hclean by (rewrite Eb; now apply (new_clean last t l' c p I last_explored)).
    unfold reverseBreakPoints. assert (b_previous b = Some p) as Ep by (rewrite Eb; reflexivity). rewrite Ep.
    exists (chainOf A b []). split; [reflexivity|].
    destruct (clean_chain b Hclean []) as [C1 C2]; [rewrite Eb; reflexivity|constructor|]. split; [exact C1|].
    split; [exact C2|]. intros Ne. rewrite Ne in C1. cbn in C1. discriminate.
Qed.

(** The lines that the search looks at: breakpoints are never forgotten *)
Definition costFrom (st : nat) : Z := costLoop A ko ord nodes [wF] (skipn st nodes) (prevOf st) st (noSums A) [firstActive A].
Lemma seen_le i l seen : Inv i l -> NoDup seen -> (forall s, In s seen -> reach s /\ before s i) -> zlen seen <= zlen l.
Proof.
  intros I Hd Hs. assert (incl seen (map srcOf l)) as Hi.
  { intros s H. destruct (Hs s H) as [H1 H2]. destruct (inv_complete _ _ I s H1 H2) as (b & Hb & <-). now apply in_map. }
  pose proof (NoDup_incl_length Hd Hi) as H. rewrite map_length in H. unfold zlen. lia.
Qed.
Lemma loop_cost k : forall i sum l seen ps, (last - i = k)%nat -> (i <= last)%nat -> Inv i l -> repT sum (PW i) (PS i) ->
  NoDup seen -> (forall s, In s seen -> reach s /\ before s i) -> StronglySorted lt ps ->
  (forall p, In p ps -> (i <= p <= last)%nat /\ explored p = true /\ reach (Some p)) ->
  zlen ps * (2 * zlen seen + zlen ps - 1) <= 2 * costLoop A ko ord nodes [wF] (skipn i nodes) (prevOf i) i sum l.
Proof.
  induction k as [|k IH]; intros i sum l seen ps Hk Hi I Hs Hnd Hseen Hsort Hps; pose proof (seen_le i l seen I Hnd Hseen) as Hle;
    (assert (exists n, nth_error nodes i = Some n) as (n & Hn)
       by (destruct (nth_error nodes i) as [n|] eqn:E; [eauto|]; apply nth_error_None in E; rewrite nodes_len in E; lia));
    rewrite (skipn_cons _ _ _ Hn); cbn [costLoop]; cbv zeta;
    match goal with |- context [if ?v then _ else _] => assert (v = explored i) as -> by (unfold explored, prevOf; rewrite Hn; destruct (n_type n); [reflexivity|now destruct i|reflexivity]) end.
  - assert (i = last) as -> by lia. rewrite last_explored. rewrite (mainLoop_spec last n sum l Hn Hs (inv_ok _ _ I) (inv_ne _ _ I)).
    rewrite skipn_all2 by (rewrite nodes_len; lia). cbn [costLoop]. assert (0 <= zlen l) by (unfold zlen; lia).
    destruct ps as [|p ps]; [change (zlen (@nil nat)) with 0; lia|]. destruct ps as [|q ps]; [replace (zlen [p]) with 1 by reflexivity; lia|]. exfalso.
    pose proof (Hps p (or_introl eq_refl)) as (H1 & _). pose proof (Hps q (or_intror (or_introl eq_refl))) as (H2 & _).
    apply StronglySorted_inv in Hsort as [_ Hf]. apply Forall_inv in Hf. lia.
  - assert (isForcedBreak n = false) as Nf. { destruct (isForcedBreak n) eqn:E; [|reflexivity]. pose proof (not_forced i n Hn E). lia. }
    match goal with |- context [costLoop _ _ _ _ _ _ _ _ ?s _] => set (sum' := s) end.
    assert (repT sum' (PW (S i)) (PS (S i))) as Hs'.
    { unfold sum'. destruct (n_type n) eqn:Et.
      - apply (keep_penalty sum i n); try assumption. unfold isPenalty. now rewrite Et.
      - apply add_glue; try assumption. unfold isGlue. now rewrite Et.
      - apply add_box; try assumption. unfold isBox. now rewrite Et. }
    assert (Some n = prevOf (S i)) as Epv by (symmetry; exact Hn). rewrite Epv.
    assert (forall s, In s seen -> reach s /\ before s (S i)) as Hseen'.
    { intros s H. destruct (Hseen s H) as [H1 H2]. split; [exact H1|]. destruct s; cbn in *; (lia || auto). }
    destruct (explored i) eqn:Ee.
    + rewrite (mainLoop_spec i n sum l Hn Hs (inv_ok _ _ I) (inv_ne _ _ I)). unfold keptOf. rewrite Nf.
      assert (Inv (S i) (l ++ news i (sumFromNode A nodes sum i) l (ord i 0%nat))) as I'.
      { apply (step_inv i n); try assumption; [lia|]. now apply sumFromNode_spec. }
      assert (0 <= zlen l) by (unfold zlen; lia).
      destruct ps as [|p ps].
      * specialize (IH (S i) sum' _ seen [] ltac:(lia) ltac:(lia) I' Hs' Hnd Hseen' Hsort ltac:(intros p [])). change (zlen (@nil nat)) with 0 in *. lia.
      * pose proof (Hps p (or_introl eq_refl)) as (H1 & H2 & H3). apply StronglySorted_inv in Hsort as [Hsort Hf]. rewrite Forall_forall in Hf.
        destruct (Nat.eq_dec p i) as [->|Hne].
        -- assert (zlen (i :: ps) = 1 + zlen ps) as -> by (unfold zlen; cbn [length]; lia).
           assert (zlen (@cons src (Some i) seen) = 1 + zlen seen) as E1 by (unfold zlen; cbn [length]; lia).
           specialize (IH (S i) sum' _ (@cons src (Some i) seen) ps ltac:(lia) ltac:(lia) I' Hs').
           assert (0 <= zlen ps) by (unfold zlen; lia).
           match type of IH with ?a -> ?b -> ?c -> ?d -> _ => assert a as K1; [|assert b as K2; [|assert d as K3; [|specialize (IH K1 K2 Hsort K3)]]] end.
           ++ constructor; [|exact Hnd]. intros Hin. destruct (Hseen _ Hin) as [_ Hb]. cbn in Hb. lia.
           ++ intros s [<-|Hin]; [|now apply Hseen']. split; [exact H3|cbn; lia].
           ++ intros q Hq. specialize (Hf q Hq). destruct (Hps q (or_intror Hq)) as (P1 & P2). split; [lia|exact P2].
           ++ rewrite E1 in IH. nia.
        -- specialize (IH (S i) sum' _ seen (p :: ps) ltac:(lia) ltac:(lia) I' Hs' Hnd Hseen').
           match type of IH with ?a -> ?b -> _ => assert a as K1; [|assert b as K2; [|specialize (IH K1 K2); lia]] end.
           ++ constructor; [exact Hsort|]. now apply Forall_forall.
           ++ intros q Hq. destruct (Hps q Hq) as (P1 & P2). split; [|exact P2]. destruct Hq as [<-|Hq]; [lia|]. specialize (Hf q Hq). lia.
    + apply IH; try assumption; [lia|lia|now apply skip_inv|]. intros q Hq. destruct (Hps q Hq) as (P1 & P2 & P3). split; [|auto].
      assert (q <> i) by (intros ->; congruence). lia.
Qed.
Lemma chain_sorted ps : forall s, chain s ps -> StronglySorted lt ps /\ Forall (fun p => before s p /\ explored p = true /\ reach (Some p) /\ (p <= last)%nat) ps.
Proof.
  induction ps as [|p ps IH]; intros s H; [split; constructor|]. cbn [chain] in H. destruct H as [Hl Hc]. destruct (IH _ Hc) as [H1 H2]. split.
  - constructor; [exact H1|]. eapply Forall_impl; [|exact H2]. intros q (Hq & _). exact Hq.
  - constructor.
    + split; [apply Hl|]. split; [apply Hl|]. split; [apply (reach_next s); apply Hl|].
      pose proof (explored_lt p (lk_explored _ _ Hl)) as H. rewrite nodes_len in H. lia.
    + eapply Forall_impl; [|exact H2]. intros q (Hq & Q). split; [|exact Q]. pose proof (lk_before _ _ Hl) as Hb. destruct s; cbn in *; [lia|exact I].
Qed.
Theorem costFrom_least st ps : (st <= last)%nat -> (forall i, (i < st)%nat -> explored i = false) -> PW st = 0 -> PS st = 0 ->
  chain None ps -> zlen ps * (zlen ps + 1) <= 2 * costFrom st.
Proof.
  intros Hst Hno HW HS Hc. destruct (chain_sorted ps None Hc) as [H1 H2]. unfold costFrom.
  pose proof (loop_cost (last - st) st (noSums A) [firstActive A] [@None nat : src] ps eq_refl Hst (init_inv st Hno) ltac:(rewrite HW, HS; exact repT_zero)) as H.
  match type of H with ?a -> ?b -> ?c -> ?d -> _ => assert a as K1; [|assert b as K2; [|assert d as K3; [|specialize (H K1 K2 H1 K3)]]] end.
  - repeat constructor. intros [].
  - intros s [<-|[]]. split; [constructor|exact I].
  - intros p Hp. rewrite Forall_forall in H2. destruct (H2 p Hp) as (_ & P1 & P2 & P3). split; [|auto]. split; [|exact P3].
    destruct (Nat.le_gt_cases st p) as [Q|Q]; [exact Q|]. rewrite (Hno p Q) in P1. discriminate.
  - change (zlen [@None nat : src]) with 1 in H. lia.
Qed.

(** Every chain is what the search returns, for some iteration orders: those that start with the classes of its lines *)
Fixpoint steers (s : src) (ps : list nat) : Prop :=
  match ps with [] => True | p :: ps' => (exists r, ord p 0%nat = cls s p :: r) /\ steers (Some p) ps' end.
Definition heads (l : list bpoint) (s : src) (qs : list nat) : Prop :=
  exists pre b post, l = pre ++ b :: post /\ Forall (fun x => srcOf x <> s) pre /\ srcOf b = s /\ map b_position (chainOf A b []) = qs.
Lemma chainOf_app b : okb b -> forall acc, chainOf A b acc = chainOf A b [] ++ acc.
Proof.
  induction 1 as [|p i c t Hp IH]; intros acc; [reflexivity|]. cbn [chainOf b_previous]. rewrite IH. rewrite (IH [_]). now rewrite <- app_assoc.
Qed.
Lemma srcLe_antisym s t : srcLe s t -> srcLe t s -> s = t.
Proof. destruct s, t; cbn; intros; try tauto. f_equal. lia. Qed.
Lemma sorted_before l1 x l2 : StronglySorted srcLe (l1 ++ x :: l2) -> forall y, In y l1 -> srcLe y x.
Proof.
  induction l1 as [|z l1 IH]; cbn [app]; intros H y Hy; [destruct Hy|]. apply StronglySorted_inv in H. destruct H as [H1 H2].
  destruct Hy as [->|Hy]; [|now apply IH]. rewrite Forall_forall in H2. apply H2, in_or_app. right. now left.
Qed.
Lemma heads_pick i l s qs : Inv i l -> heads l s qs -> link s i ->
  exists b, pick i l (cls s i) = Some b /\ srcOf b = s /\ map b_position (chainOf A b []) = qs /\ okb b.
Proof.
  intros I (pre & b & post & El & Hpre & Hb & Hq) Hl. exists b. pose proof (inv_ok _ _ I) as Hok. rewrite Forall_forall in Hok.
  assert (In b l) as Hin by (rewrite El; apply in_or_app; right; now left).
  split; [|split; [exact Hb|split; [exact Hq|now apply Hok]]].
  unfold pick. rewrite El, find_app. destruct (find (hasClass i (cls s i)) pre) as [x|] eqn:Ef.
  - exfalso. apply find_some in Ef. destruct Ef as [Hx Hc]. unfold hasClass in Hc. apply andb_prop in Hc. destruct Hc as [Hf Hc]. apply sameClass_eq in Hc.
    rewrite Forall_forall in Hpre. apply (Hpre x Hx).
    assert (In x l) as Hxl by (rewrite El; apply in_or_app; now left).
    pose proof (inv_before _ _ I) as Hbf. rewrite Forall_forall in Hbf.
    apply srcLe_antisym.
    + pose proof (inv_sorted _ _ I) as Hs. rewrite El, map_app in Hs. cbn [map] in Hs. rewrite Hb in Hs.
      apply (sorted_before _ _ _ Hs). now apply in_map.
    + apply (lk_earliest _ _ Hl); [apply okb_reach; now apply Hok|now apply Hbf|exact Hf|exact Hc].
  - cbn [find]. unfold hasClass. rewrite Hb, (lk_feas _ _ Hl), sameClass_refl. reflexivity.
Qed.
Lemma heads_app l l' s qs : heads l s qs -> heads (l ++ l') s qs.
Proof. intros (pre & b & post & -> & H). exists pre, b, (post ++ l'). rewrite <- app_assoc. auto. Qed.
Lemma heads_step i l s qs t r : Inv i l -> heads l s qs -> link s i -> ord i 0%nat = cls s i :: r ->
  heads (l ++ news i t l (ord i 0%nat)) (Some i) (qs ++ [i]).
Proof.
  intros I Hh Hl Ho. destruct (heads_pick i l s qs I Hh Hl) as (b & Hp & Hs & Hq & Hok). rewrite Ho. unfold news. cbn [flat_map]. rewrite Hp. cbn [app].
  eexists l, _, _. split; [reflexivity|]. split; [|split].
  - apply Forall_forall. intros x Hx E. pose proof (inv_before _ _ I) as Hb. rewrite Forall_forall in Hb. specialize (Hb x Hx). rewrite E in Hb. cbn in Hb. lia.
  - reflexivity.
  - cbn [newAt chainOf b_previous]. rewrite (chainOf_app b Hok), map_app, Hq. reflexivity.
Qed.
Lemma chain_ge ps : forall s, chain s ps -> forall p, In p ps -> match s with None => True | Some q => (q < p)%nat end.
Proof.
  intros s Hc p Hp. destruct (chain_sorted ps s Hc) as [_ H]. rewrite Forall_forall in H. destruct (H p Hp) as (Hb & _). exact Hb.
Qed.
Lemma loop_steer k : forall i sum l s qs ps, (last - i = k)%nat -> (i <= last)%nat -> Inv i l -> repT sum (PW i) (PS i) ->
  chain s ps -> ps <> [] -> (forall p, In p ps -> (i <= p)%nat) -> heads l s qs -> steers s ps ->
  exists b bs, breakLoop A ko ord nodes [wF] (skipn i nodes) (prevOf i) i sum l = Ret (b :: bs) /\ map b_position (chainOf A b []) = qs ++ ps.
Proof.
  induction k as [|k IH]; intros i sum l s qs ps Hk Hi I Hs Hc Hne Hge Hh Hst.
  - assert (i = last) as -> by lia. destruct ps as [|p ps]; [congruence|]. cbn [chain steers] in *. destruct Hc as [Hl Hc]. destruct Hst as [(r & Ho) _].
    assert (p = last) as ->.
    { pose proof (Hge p (or_introl eq_refl)). pose proof (explored_lt p (lk_explored _ _ Hl)) as H'. rewrite nodes_len in H'. lia. }
    assert (ps = []) as ->.
    { destruct ps as [|q ps]; [reflexivity|]. exfalso. pose proof (chain_ge _ _ Hc q (or_introl eq_refl)) as H1. cbn in H1.
      destruct Hc as [Hl' _]. pose proof (explored_lt q (lk_explored _ _ Hl')) as H'. rewrite nodes_len in H'. lia. }
    pose proof nth_last as Hn. rewrite (skipn_cons _ _ _ Hn). rewrite skipn_all2 by (rewrite nodes_len; lia). cbn [breakLoop].
    pose proof last_explored as He. unfold explored in He. rewrite Hn in He.
    pose proof fin_penalty as E. unfold isPenalty in E. destruct (n_type fin) eqn:Et; try discriminate.
    rewrite He. rewrite (mainLoop_spec last fin sum l Hn Hs (inv_ok _ _ I) (inv_ne _ _ I)). cbn [gbind].
    unfold keptOf. rewrite Hfin. cbn [app].
    destruct (heads_pick last l s qs I Hh Hl) as (b & Hp & Hsb & Hq & Hok). rewrite Ho. unfold news. cbn [flat_map]. rewrite Hp. cbn [app].
    eexists _, _. split; [reflexivity|]. cbn [newAt chainOf b_previous]. rewrite (chainOf_app b Hok), map_app, Hq. reflexivity.
  - assert (exists n, nth_error nodes i = Some n) as (n & Hn).
    { destruct (nth_error nodes i) as [n|] eqn:E; [eauto|]. apply nth_error_None in E. rewrite nodes_len in E. lia. }
    assert (isForcedBreak n = false) as Nf.
    { destruct (isForcedBreak n) eqn:E; [|reflexivity]. pose proof (not_forced i n Hn E). lia. }
    assert (explored i = false -> forall sum', repT sum' (PW (S i)) (PS (S i)) ->
      exists b bs, breakLoop A ko ord nodes [wF] (skipn (S i) nodes) (prevOf (S i)) (S i) sum' l = Ret (b :: bs) /\
        map b_position (chainOf A b []) = qs ++ ps) as Hskip.
    { intros He sum' Hs'. apply (IH (S i) sum' l s qs ps); try assumption; [lia|lia|now apply skip_inv|].
      intros p Hp. pose proof (Hge p Hp). destruct (Nat.eq_dec p i) as [->|]; [|lia]. exfalso.
      destruct (chain_sorted ps s Hc) as [_ H']. rewrite Forall_forall in H'. destruct (H' i Hp) as (_ & E & _). congruence. }
    assert (explored i = true -> forall sum', repT sum' (PW (S i)) (PS (S i)) ->
      exists t', mainLoop A ko ord nodes [wF] i n sum l = Ret (l ++ news i t' l (ord i 0%nat)) /\
      exists b bs, breakLoop A ko ord nodes [wF] (skipn (S i) nodes) (prevOf (S i)) (S i) sum' (l ++ news i t' l (ord i 0%nat)) = Ret (b :: bs) /\
        map b_position (chainOf A b []) = qs ++ ps) as Hmain.
    { intros He sum' Hs'. exists (sumFromNode A nodes sum i). split.
      - rewrite (mainLoop_spec i n sum l Hn Hs (inv_ok _ _ I) (inv_ne _ _ I)). unfold keptOf. now rewrite Nf.
      - assert (Inv (S i) (l ++ news i (sumFromNode A nodes sum i) l (ord i 0%nat))) as I'.
        { apply (step_inv i n); try assumption; [lia|]. now apply sumFromNode_spec. }
        destruct ps as [|p ps]; [congruence|]. destruct (Nat.eq_dec p i) as [->|Np].
        + cbn [chain steers] in *. destruct Hc as [Hl Hc]. destruct Hst as [(r & Ho) Hst].
          assert (ps <> []) as Np by (intros ->; cbn in Hc; injection Hc; lia).
          replace (qs ++ i :: ps) with ((qs ++ [i]) ++ ps) by (now rewrite <- app_assoc).
          apply (IH (S i) sum' _ (Some i) (qs ++ [i]) ps); try assumption; [lia|lia| |].
          * intros q Hq. pose proof (chain_ge _ _ Hc q Hq) as H'. cbn in H'. lia.
          * now apply (heads_step i l s qs _ r).
        + apply (IH (S i) sum' _ s qs (p :: ps)); try assumption; [lia|lia| |now apply heads_app].
          intros q Hq. assert (i <= p)%nat as Hp by (apply Hge; now left). destruct Hq as [<-|Hq]; [lia|].
          cbn [chain] in Hc. destruct Hc as [_ Hc]. pose proof (chain_ge _ _ Hc q Hq) as H'. cbn in H'. lia. }
    rewrite (skipn_cons _ _ _ Hn). cbn [breakLoop].
    assert (Some n = prevOf (S i)) as Epv by (symmetry; exact Hn).
    destruct (n_type n) eqn:Et.
    + assert (isPenalty n = true) as Ep by (unfold isPenalty; now rewrite Et).
      assert (explored i = negb (feq A (n_penalty n) (infinity A))) as Ee by (unfold explored; now rewrite Hn, Et).
      assert (repT sum (PW (S i)) (PS (S i))) as Hs' by (now apply (keep_penalty sum i n)).
      rewrite <- Ee. destruct (explored i) eqn:Eex.
      * destruct (Hmain eq_refl sum Hs') as (t' & -> & H'). cbn [gbind]. rewrite Epv. exact H'.
      * cbn [gbind]. rewrite Epv. now apply Hskip.
    + assert (isGlue n = true) as Ep by (unfold isGlue; now rewrite Et).
      assert (explored i = match prevOf i with Some m => isBox m | None => false end) as Ee.
      { unfold explored, prevOf. rewrite Hn, Et. now destruct i. }
      assert (repT (sumsAdd A sum (n_sums n)) (PW (S i)) (PS (S i))) as Hs' by (now apply add_glue).
      destruct (prevOf i) as [m|].
      * destruct (isBox m).
        -- destruct (Hmain Ee _ Hs') as (t' & -> & H'). cbn [gbind]. rewrite Epv. exact H'.
        -- cbn [gbind]. rewrite Epv. now apply Hskip.
      * cbn [gbind]. rewrite Epv. now apply Hskip.
    + assert (isBox n = true) as Ep by (unfold isBox; now rewrite Et).
      assert (explored i = false) as Ee by (unfold explored; now rewrite Hn, Et).
      cbn [gbind]. rewrite Epv. apply Hskip; [exact Ee|]. now apply add_box.
Qed.
Theorem breakFrom_steered st ps : (st <= last)%nat -> (forall i, (i < st)%nat -> explored i = false) -> PW st = 0 -> PS st = 0 ->
  chain None ps -> ps <> [] -> steers None ps ->
  exists bs, breakFrom st = Ret (Some bs) /\ map b_position bs = ps /\ Forall (fun x => b_ratio x = fZ 0) bs.
Proof.
  intros Hst Hno HW HS Hc Hne Hsr. destruct (breakFrom_spec st Hst Hno HW HS) as [(E & Hn)|(bs & E & _ & Hr & _)].
  - exfalso. assert (forall ps s, chain s ps -> ps <> [] -> exists s', link s' last) as K.
    { clear. induction ps as [|p ps IH]; intros s Hc Hne; [congruence|]. cbn [chain] in Hc. destruct Hc as [Hl Hc]. destruct ps as [|q ps].
      - cbn in Hc. injection Hc as ->. eauto.
      - apply (IH _ Hc). discriminate. }
    destruct (K ps None Hc Hne) as (s' & Hl). pose proof (lk_feas _ _ Hl) as F.
    rewrite (Hn s' (lk_reach _ _ Hl) (lk_before _ _ Hl)) in F. discriminate.
  - exists bs. split; [exact E|]. split; [|exact Hr]. unfold breakFrom in E.
    destruct (loop_steer (last - st) st (noSums A) [firstActive A] None [] ps) as (b & bs' & E' & Hp); try assumption.
    + reflexivity.
    + now apply init_inv.
    + rewrite HW, HS. exact repT_zero.
    + intros p Hp. destruct (Nat.le_gt_cases st p) as [Q|Q]; [exact Q|]. exfalso.
      destruct (chain_sorted ps None Hc) as [_ H']. rewrite Forall_forall in H'. destruct (H' p Hp) as (_ & E' & _). rewrite (Hno p Q) in E'. discriminate.
    + exists [], (firstActive A), []. repeat split; constructor.
    + destruct (loop_spec (last - st) st (noSums A) [firstActive A]) as (t & l' & I & E2); [lia|exact Hst|now apply init_inv|rewrite HW, HS; exact repT_zero|].
      rewrite E' in E2. injection E2 as E2. rewrite E' in E. cbn [gbind] in E.
      assert (findBestBreak A (b :: bs') = b) as Eb by (rewrite E2 at 1; rewrite (best_first last t l'); rewrite <- E2; reflexivity).
      rewrite Eb in E. unfold reverseBreakPoints in E.
      destruct (b_previous b); [|discriminate]. injection E as <-. exact Hp.
Qed.

(** The nodes skipped before the search starts *)
Hypothesis Hstart : findStartNode A nodes 0 = 0%nat \/
  (findStartNode A nodes 0 = 1%nat /\ exists n, nth_error nodes 0 = Some n /\ isPenalty n = true /\ explored 0 = false).

Theorem breakPoints_spec :
  (breakPoints A ko ord nodes [wF] = Ret None /\
     forall s, reach s -> before s last -> feas s last = false) \/
  (exists bs, breakPoints A ko ord nodes [wF] = Ret (Some bs) /\ chain None (map b_position bs) /\
     Forall (fun x => b_ratio x = fZ 0) bs /\ bs <> []).
Proof.
  change (breakPoints A ko ord nodes [wF]) with (breakFrom (findStartNode A nodes 0)).
  destruct Hstart as [->|(-> & n & Hn & Hp & He)].
  - apply breakFrom_spec; [lia|lia|reflexivity|reflexivity].
  - apply breakFrom_spec.
    + pose proof last_explored. destruct last; [congruence|lia].
    + intros [|j] Hj; [exact He|lia].
    + rewrite (PW_S 0 n Hn). unfold addW. rewrite Hp. reflexivity.
    + rewrite (PS_S 0 n Hn). unfold addS. unfold isGlue, isPenalty in *. destruct (n_type n); try discriminate. reflexivity.
Qed.
Theorem breakPoints_steered ps : chain None ps -> ps <> [] -> steers None ps ->
  exists bs, breakPoints A ko ord nodes [wF] = Ret (Some bs) /\ map b_position bs = ps /\ Forall (fun x => b_ratio x = fZ 0) bs.
Proof.
  intros Hc Hne Hst. change (breakPoints A ko ord nodes [wF]) with (breakFrom (findStartNode A nodes 0)).
  destruct Hstart as [->|(-> & n & Hn & Hp & He)].
  - apply breakFrom_steered; try assumption; [lia|lia|reflexivity|reflexivity].
  - apply breakFrom_steered; try assumption.
    + pose proof last_explored. destruct last; [congruence|lia].
    + intros [|j] Hj; [exact He|lia].
    + rewrite (PW_S 0 n Hn). unfold addW. rewrite Hp. reflexivity.
    + rewrite (PS_S 0 n Hn). unfold addS. unfold isGlue, isPenalty in *. destruct (n_type n); try discriminate. reflexivity.
Qed.
End Proofs.
