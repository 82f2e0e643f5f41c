(** LeftAlignUniform given a width that is not a number. *)
From Verif Require Import Base Arith Unicode Split SpecSplit SplitProofs Ansi SpecAnsi AnsiProofs Attr Hyph KP Nodes Render SpecKP KPProofs Frags Show Para Tokens Align Options
  Call Settings AlignProofs Fresh.

(** Not a number: neither above nor below anything. *)
Definition incomparable (A : arith) (w : F A) : Prop := forall x, flt A x w = false /\ flt A w x = false.

Section Search.
Variable A : arith.
Variable L : laws A.
Notation F := (F A).
Notation fZ := (fZ A).
Notation node := (node A).
Notation bnd := (bnd A L).
Notation bpoint := (bpoint A).
Variable ko : kopts A.
Hypothesis Hbad : bnd 20 (k_badness ko).
Hypothesis Hline : bnd 100 (k_line ko).
Hypothesis Hflag : bnd 100 (k_flagged ko).
Hypothesis Hfit : bnd 100 (k_fitness ko).
Hypothesis Htol : fle A (fZ 0) (k_tolerance ko) = true.
Variable wF : F.
Hypothesis Hw : incomparable A wF.
Variable ord : nat -> nat -> list fclass.
Hypothesis Hord : forall i k c, In c (ord i k).
Variable nodes : list node.
Hypothesis Hne : nodes <> [].
Notation first := (firstActive A).

Lemma small n : -10000 <= n <= 10000 -> rep A L (fZ n) n.
Proof. intros H. apply rep_Z. unfold exactZ. lia. Qed.
Lemma bnd0 k : 0 <= k -> bnd k (fZ 0).
Proof. intros H. apply (bnd_rep A L) with 0; [apply small; lia|exact H|lia]. Qed.

(** every break point but the first one comes from the first one *)
Definition second (i : nat) (s : sums A) : bpoint := mkBP i 1 C1 (fZ 0) s (fZ 0) (Some first).
Definition only (b : bpoint) : Prop := b = first \/ exists i s, b = second i s /\ (i < length nodes)%nat.
Lemma only_facts b : only b -> (b_line b = 0 \/ b_line b = 1) /\ b_demerits b = fZ 0 /\ b_fitness b = C1 /\ (b_position b < length nodes)%nat.
Proof.
  intros [->|(i & s & -> & Hi)]; cbn.
  - split; [now left|]. repeat split. destruct nodes; [congruence|cbn; lia].
  - auto.
Qed.
Lemma perfect b n sum : adjustmentRatio A b n sum wF = fZ 0.
Proof. unfold adjustmentRatio. now rewrite (proj1 (Hw _)), (proj2 (Hw _)). Qed.
Lemma class_zero : newFitnessClass A (fZ 0) = C1.
Proof. unfold newFitnessClass. destruct (half_zero A L) as [-> ->]. reflexivity. Qed.
Lemma demerits_ok b n : only b -> goodNode A L n -> exists d, demeritsAndClass A ko nodes b n (fZ 0) = Ret (d, C1) /\ bnd 410 d.
Proof.
  intros Hb G. destruct (only_facts b Hb) as (_ & E1 & E2 & Hp). unfold demeritsAndClass.
  destruct (nth_error nodes (b_position b)) as [m|] eqn:Em; [|apply nth_error_None in Em; lia].
  rewrite class_zero, E2. change (isAwayFrom C1 C1) with false. rewrite E1. eexists. split; [reflexivity|]. cbn beta iota.
  pose proof (demerits_bnd A L ko Hbad Hline n (fZ 0) G (bnd0 54 ltac:(lia))) as D0.
  apply (bnd_mono A L 403); [|lia]. apply (bnd_add A L 402); [lia| |apply bnd0; lia].
  destruct (_ && _); [|apply (bnd_mono A L 400); [exact D0|lia]].
  apply (bnd_mono A L 401); [|lia]. apply (bnd_add A L 400); [lia|exact D0|]. apply (bnd_mono A L 100); [exact Hflag|lia].
Qed.
Lemma ideal_only b : only b -> idealWidth A [wF] (b_line b + 1) = Ret wF.
Proof. intros Hb. destruct (only_facts b Hb) as ([-> | ->] & _); reflexivity. Qed.
Lemma tol_zero' : flt A (fZ 0) (fZ (-1)) = false /\ fle A (fZ (-1)) (fZ 0) && fle A (fZ 0) (k_tolerance ko) = true.
Proof. rewrite Htol. rewrite (rep_lt A L _ _ 0 (-1)), (rep_le A L _ _ (-1) 0) by (apply small; lia). split; reflexivity. Qed.
Lemma later b : (b_line (A := A) b + 1 <=? b_line b) = false.
Proof. destruct (Z.leb_spec (b_line b + 1) (b_line b)); [lia|reflexivity]. Qed.

Definition chosenOne (cands : candidates A) : Prop := cands C1 = first /\ forall c, c <> C1 -> b_demerits (cands c) = fMax A.
Lemma inner_only n sum rest : goodNode A L n -> Forall only rest -> forall done cands low, chosenOne cands -> bnd 410 low ->
  exists cands' low', inner A ko nodes [wF] n sum done rest cands low = Ret (done ++ (if isForcedBreak n then [] else rest), [], cands', low') /\
    chosenOne cands' /\ bnd 410 low'.
Proof.
  intros G. induction rest as [|b rest IH]; intros Hr done cands low Hc Hl.
  - exists cands, low. cbn [inner]. split; [|auto]. destruct (isForcedBreak n); now rewrite app_nil_r.
  - apply Forall_cons_iff in Hr as [Hb Hr]. specialize (IH Hr). cbn [inner]. rewrite (ideal_only b Hb). cbn [gbind].
    rewrite perfect. destruct tol_zero' as [T1 T2]. rewrite T1, T2. cbn [orb]. destruct (demerits_ok b n Hb G) as (d & Ed & Bd). rewrite Ed. cbn [gbind].
    rewrite (proj1 Hc). change (b_demerits first) with (fZ 0). rewrite (bnd_nonneg A L _ _ Bd).
    assert (bnd 410 (minf A low d)) as Bm by (unfold minf; destruct (flt A low d); assumption).
    rewrite later. set (done' := if isForcedBreak n then done else done ++ [b]).
    assert (done' ++ (if isForcedBreak n then [] else rest) = done ++ (if isForcedBreak n then [] else b :: rest)) as Ed'.
    { unfold done'. destruct (isForcedBreak n); [reflexivity|]. now rewrite <- app_assoc. }
    rewrite <- Ed'. destruct rest as [|b' rest].
    + eexists cands, _. split; [|split; [exact Hc|exact Bm]]. f_equal. f_equal. destruct (isForcedBreak n); now rewrite app_nil_r.
    + apply IH; assumption.
Qed.
Lemma max_irrefl : flt A (fMax A) (fMax A) = false.
Proof. destruct (flt A (fMax A) (fMax A)) eqn:E; [|reflexivity]. pose proof (lt_le A L _ _ E) as E'. rewrite (max_refl A L) in E'. discriminate. Qed.
Lemma inner_first n sum others : goodNode A L n -> Forall only others ->
  exists cands low, inner A ko nodes [wF] n sum [] (first :: others) (defaultCandidates A) (fMax A) =
    Ret (if isForcedBreak n then [] else first :: others, [], cands, low) /\ chosenOne cands /\ bnd 410 low.
Proof.
  intros G Hr. cbn [inner]. rewrite (ideal_only first (or_introl eq_refl)). cbn [gbind].
  rewrite perfect. destruct tol_zero' as [T1 T2]. rewrite T1, T2. cbn [orb]. destruct (demerits_ok first n (or_introl eq_refl) G) as (d & Ed & Bd). rewrite Ed. cbn [gbind].
  destruct (bnd_max A L 410 d ltac:(lia) Bd) as [D1 D2]. change (b_demerits (defaultCandidates A C1)) with (fMax A). rewrite D1.
  assert (minf A (fMax A) d = d) as ->. { unfold minf. rewrite (lt_asym A L _ _ D1). reflexivity. }
  assert (chosenOne (setCandidate A (defaultCandidates A) C1 first)) as Hc. { split; [reflexivity|]. intros [] Hn; [reflexivity|congruence|reflexivity|reflexivity]. }
  rewrite later. destruct others as [|b' rest].
  - eexists _, _. split; [|split; [exact Hc|exact Bd]]. destruct (isForcedBreak n); reflexivity.
  - destruct (inner_only n sum (b' :: rest) G Hr (if isForcedBreak n then [] else [first]) _ d Hc Bd) as (cands & low & E & H1 & H2).
    cbn [app]. rewrite E. exists cands, low. split; [|auto]. destruct (isForcedBreak n); reflexivity.
Qed.
Lemma insert_only i s low cands order : chosenOne cands -> bnd 410 low -> forall done,
  exists k, insertNew A ko done [] i s low cands order = done ++ repeat (second i s) k /\ (In C1 order -> (0 < k)%nat).
Proof.
  intros [H1 H2] Hl. induction order as [|c order IH]; intros done; [exists 0%nat; cbn; rewrite app_nil_r; split; [reflexivity|intros []]|].
  assert (c = C1 \/ c <> C1) as [->|Hc] by (destruct c; (now left) || (right; discriminate)).
  - cbn [insertNew]. rewrite H1. change (b_demerits first) with (fZ 0).
    destruct (bnd_max A L 0 (fZ 0) ltac:(lia) (bnd0 0 ltac:(lia))) as [_ ->].
    assert (bnd 411 (fadd A low (k_fitness ko))) as B. { apply (bnd_add A L 410); [lia|exact Hl|]. apply (bnd_mono A L 100); [exact Hfit|lia]. }
    rewrite (bnd_nonneg A L _ _ B). cbn [orb].
    destruct (IH (done ++ [second i s])) as (k & E & _). exists (S k). split; [|lia]. etransitivity; [exact E|]. cbn [repeat]. rewrite <- app_assoc. reflexivity.
  - cbn [insertNew]. rewrite (H2 c Hc), (max_refl A L). cbn [orb]. destruct (IH done) as (k & E & Hk). exists k. split; [exact E|].
    intros [E'|H]; [congruence|now apply Hk].
Qed.
Lemma main_only i n sum others : goodNode A L n -> Forall only others ->
  exists k s, mainLoop A ko ord nodes [wF] i n sum (first :: others) = Ret ((if isForcedBreak n then [] else first :: others) ++ repeat (second i s) (S k)).
Proof.
  intros G Hr. unfold mainLoop. cbn [length outer]. destruct (inner_first n sum others G Hr) as (cands & low & E & Hc & Hl). rewrite E. cbn [gbind].
  rewrite (proj1 (bnd_max A L 410 low ltac:(lia) Hl)).
  destruct (insert_only i (sumFromNode A nodes sum i) low cands (ord i 0%nat) Hc Hl (if isForcedBreak n then [] else first :: others)) as (k & E' & Hk).
  rewrite E'. specialize (Hk (Hord _ _ _)). destruct k as [|k]; [lia|]. exists k, (sumFromNode A nodes sum i).
  destruct (length others); reflexivity.
Qed.

Variable body : list node.
Variable fin : node.
Hypothesis Hnodes : nodes = body ++ [fin].
Hypothesis Hgood : Forall (goodNode A L) nodes.
Hypothesis Hfin : isForcedBreak fin = true.
Hypothesis Hbody : Forall (fun n => isForcedBreak n = false) body.

Lemma loop_only rest : Forall (goodNode A L) (rest ++ [fin]) -> Forall (fun n => isForcedBreak n = false) rest -> forall prev i sum others,
  (i + length rest = length body)%nat -> Forall only others ->
  exists k s, breakLoop A ko ord nodes [wF] (rest ++ [fin]) prev i sum (first :: others) = Ret (repeat (second (length body) s) (S k)).
Proof.
  assert (length nodes = S (length body)) as Hlen by (rewrite Hnodes, app_length; cbn; lia).
  induction rest as [|n rest IH]; intros Hg Hb prev i sum others Hi Ho; cbn [app breakLoop].
  - assert (n_type fin = TPenalty /\ feq A (n_penalty fin) (infinity A) = false) as [E1 E2].
    { apply Forall_inv in Hg. pose proof (gn_f A L fin Hg Hfin) as E. split.
      - unfold isForcedBreak, isPenalty in Hfin. destruct (n_type fin); (reflexivity || discriminate Hfin).
      - rewrite E. unfold minusInfinity, infinity. rewrite (rep_eq A L _ _ (-10000) 10000) by (apply small; lia). reflexivity. }
    rewrite E1, E2. cbn [negb]. cbn in Hi. rewrite Nat.add_0_r in Hi. subst i.
    destruct (main_only (length body) fin sum others (Forall_inv Hg) Ho) as (k & s & E). rewrite E, Hfin. cbn [gbind app]. exists k, s. reflexivity.
  - cbn [app] in Hg. apply Forall_cons_iff in Hg as [G Hg]. apply Forall_cons_iff in Hb as [Nf Hb]. cbn [length] in Hi.
    specialize (IH Hg Hb (Some n) (S i)).
    destruct (main_only i n sum others G Ho) as (k & s & E). rewrite Nf in E.
    assert (Forall only (others ++ repeat (second i s) (S k))) as Ho'.
    { apply Forall_app. split; [exact Ho|]. apply Forall_forall. intros b Hin. apply repeat_spec in Hin. right. exists i, s. split; [exact Hin|lia]. }
    change ((first :: others) ++ repeat (second i s) (S k)) with (first :: others ++ repeat (second i s) (S k)) in E.
    destruct (n_type n).
    + destruct (negb _); [rewrite E|]; cbn [gbind]; apply IH; (lia || assumption).
    + destruct prev as [p|]; [destruct (isBox p); [rewrite E|]|]; cbn [gbind]; apply IH; (lia || assumption).
    + cbn [gbind]. apply IH; [lia|assumption].
Qed.
Lemma start_le l : forall k, (findStartNode A (l ++ [fin]) k <= k + length l)%nat.
Proof.
  induction l as [|n l IH]; intros k; cbn [app findStartNode length].
  - unfold isForcedBreak, isPenalty in Hfin. destruct (n_type fin); try discriminate. cbn [andb] in Hfin. rewrite Hfin. lia.
  - pose proof (IH k). pose proof (IH (S k)). destruct (n_type n); [|lia|lia]. destruct (feq _ _ _); lia.
Qed.
Lemma break_only : exists s, breakPoints A ko ord nodes [wF] = Ret (Some [second (length body) s]).
Proof.
  unfold breakPoints. set (st := findStartNode A nodes 0).
  assert (st <= length body)%nat as Hst by (unfold st; rewrite Hnodes; apply (start_le body 0)).
  assert (skipn st nodes = skipn st body ++ [fin]) as E.
  { rewrite Hnodes, skipn_app. replace (st - length body)%nat with 0%nat by lia. reflexivity. }
  rewrite E. destruct (loop_only (skipn st body)) with (prev := match st with O => None | S p => nth_error nodes p end) (i := st) (sum := noSums A)
    (others := @nil bpoint) as (k & s & E').
  - rewrite <- E. now apply Forall_skipn'.
  - now apply Forall_skipn'.
  - rewrite skipn_length. lia.
  - constructor.
  - rewrite E'. cbn [gbind repeat]. exists s. f_equal.
    assert (forall j, fold_left (fun best b : bpoint => if flt A (b_demerits b) (b_demerits best) then b else best) (repeat (second (length body) s) j) (second (length body) s) = second (length body) s) as Hf.
    { induction j as [|j IH]; [reflexivity|]. cbn [repeat fold_left]. destruct (flt _ _ _); exact IH. }
    assert (findBestBreak A (second (length body) s :: repeat (second (length body) s) k) = second (length body) s) as ->; [|reflexivity].
    unfold findBestBreak. cbn [fold_left b_demerits second].
    destruct (bnd_max A L 0 (fZ 0) ltac:(lia) (bnd0 0 ltac:(lia))) as [-> _]. apply Hf.
Qed.
End Search.

(** ** The call *)
Lemma skip_loop_bound A r : forall j k, skip_loop A r j = Some k -> (k <= j + length r)%nat.
Proof.
  induction r as [|n r IH]; intros j k; cbn [skip_loop length]; [discriminate|]. destruct (_ || _); [intros [= <-]; lia|].
  intros H. apply IH in H. lia.
Qed.
Lemma skip_bound A s ns : (s <= length ns)%nat -> (skipNodes A s ns <= length ns)%nat.
Proof.
  intros H. unfold skipNodes. destruct (skip_loop A (skipn s ns) 0) as [k|] eqn:E; [|lia]. apply skip_loop_bound in E. rewrite skipn_length in E. lia.
Qed.
Section Call.
Variable A : arith.
Variable L : laws A.
Variable u : unicode.
Variable o : lopts A.
Variable m : list rune -> Z.
Variable punct parts : list rune -> list (list rune).
Hypothesis S : settings A L u o m punct parts.
Hypothesis Htol : fle A (fZ A 0) (k_tolerance (l_search o)) = true.
Variable lb : breaker A.
Hypothesis U : usable A u o lb.
Variable tokens : list (list rune).
Variable spare : nat -> list rune.
Hypothesis Ht : plainTokens tokens spare.
Hypothesis Hne : tokens <> [] /\ Forall (fun t => t <> []) tokens.
Notation rh := (l_renderHyphens o).
Notation frs := (fragsOf u o punct parts tokens).
Hypothesis Hwidth : lineWidth rh m (m [32]) (hyphenW o m) frs <= 2 ^ 50.
Variable maxWidth : F A.
Hypothesis HmaxW : incomparable A (scale A o maxWidth).
Variable ord : nat -> nat -> list fclass.
Hypothesis Hord : forall i k c, In c (ord i k).

Lemma whole_text : lineText rh frs = joinWith 32 tokens.
Proof.
  destruct (frs_text A L u o m punct parts S lb U tokens Hne) as (_ & _ & <-).
  destruct (frs_shape A L u o m punct parts S lb U tokens spare Ht Hne) as (ini & f & -> & Hf & _).
  rewrite lineText_snoc. unfold paraText. rewrite flat_map_app.
  cbn [flat_map]. unfold fragText at 3, isSoft, isSpaced. now rewrite Hf, andb_false_r, !app_nil_r.
Qed.
Theorem one_line : exists lb', leftAlignUniform A u ord spare lb tokens maxWidth = Ret (Some [joinWith 32 tokens], lb') /\ usable A u o lb'.
Proof.
  assert (exists lb', leftAlignUniform A u ord spare lb tokens maxWidth = Ret (Some [joinWith 32 tokens], lb')) as (lb' & E).
  2: { exists lb'. split; [exact E|]. eapply us_call; [exact U|exact Ht|exact E]. }
  destruct (settings_regular A L u o m punct parts S lb U) as (R & Hp & E). pose proof (frs_eq A L u o m punct parts S lb U tokens) as Ef.
  pose proof whole_text as Ew. destruct Ht as [Ht1 Ht2]. destruct Hne as [Hne1 Hne2].
  assert (Forall (fun t => t <> [] /\ ~ hasCSI t /\ Forall okRune t) tokens) as Htok.
  { rewrite Forall_forall in *. intros t Hin. split; [now apply Hne2|now apply Ht1]. }
  rewrite <- Ef, <- E in Hwidth, Ew. rewrite <- E in HmaxW, Htol, R.
  destruct (align_setup A L u lb m (m [32]) (hyphenW (lb_opts lb) m) punct parts R Hp tokens spare Hne1 Htok Ht2 Hwidth)
    as (ini & z & Ea & Emap & Hg & Hini & Hz & HBW & Hat & En).
  unfold leftAlignUniform. rewrite En. cbn [gbind].
  destruct R as [R1 R2 R3 R4 R5 R6 R7 R8 R9 R10 R11 R12 R13 R14 R15 R16 R17 R18 R19 R20].
  destruct (nodes_body A L lb m R6 ini z Hg Hini Hz) as (B1 & B2 & B3).
  assert (nodesOf A lb (ini ++ [z]) <> []) as Hnn by (rewrite B1; intros E'; now apply app_eq_nil in E').
  destruct (break_only A L (l_search (lb_opts lb)) R7 R8 R9 R10 Htol _ HmaxW ord Hord (nodesOf A lb (ini ++ [z])) Hnn (body A lb ini z) (finNode A) B1
    (Para.good_nodes A L lb m _ _ R1 R2 R3 R4 R5 R6 ini z Hg) (fin_forced A L) B2) as (s & ->).
  cbn [gbind]. unfold render. cbn [cutLines b_position second b_ratio].
  assert (length (nodesOf A lb (ini ++ [z])) = Datatypes.S (length (body A lb ini z))) as Hlen by (rewrite B1, app_length; cbn; lia).
  assert (In (mainOff A lb z) (cutOff A lb z)) as Hm.
  { apply (main_cut A L lb m); [now rewrite Hz, orb_true_r|apply (Para.good_nth A L m ini z Hg _ _ (Para.last_atom A ini z))]. }
  change (skipNodes A 0 (nodesOf A lb (ini ++ [z]))) with (first A (nodesOf A lb (ini ++ [z])) None).
  destruct (Nat.le_gt_cases (first A (nodesOf A lb (ini ++ [z])) None) (Datatypes.S (length (body A lb ini z)))) as [Hf|Hf].
  2: { exfalso. rewrite <- Hlen in Hf. cbn [first] in Hf. unfold sk in Hf. pose proof (skip_bound A 0 (nodesOf A lb (ini ++ [z])) ltac:(lia)). lia. }
  rewrite (firstn_skip_slice A lb ini z) by lia. cbn [gbind renderLines].
  rewrite B3, (line_render A L lb m _ _ R1 R2 R4 R5 R6 ini z Hg Hini Hz R18 R19 R20 _ Hat None 0%nat (length ini) z _ _ _ eq_refl (Para.last_atom A ini z) ltac:(lia) Hm).
  cbn [gbind]. rewrite end_seg. cbn [skipn].
  assert (forall a, In a (concat [ini ++ [z]]) -> In a (atomsFrom A u lb (length (lb_attrs lb)) (paragraph punct (splitAt isHyphenRune) parts
    (single (punctSplitFunc u)) (single isHyphenRune) (breakable A lb) tokens))) as Hin by (rewrite Ea; cbn [concat]; now rewrite app_nil_r).
  pose proof (showLines_plain A u lb punct parts Hp tokens [ini ++ [z]] (iterator (lb_attrs lb ++ attrsOf (paragraph punct (splitAt isHyphenRune) parts
    (single (punctSplitFunc u)) (single isHyphenRune) (breakable A lb) tokens))) Hin) as Es.
  rewrite <- Emap in Ew. cbn [showLines map] in Es. rewrite Ew in Es. eexists. rewrite <- Es, <- app_assoc. reflexivity.
Qed.
End Call.

(** ** A line breaker made with permissible options *)
Theorem options_incomparable A L u opts : Forall (okOption A L) opts ->
  let o := withOptions A (defaultHyphenator u) (defaultPunctuator u) opts in
  fle A (fZ A 0) (k_tolerance (l_search o)) = true ->
  exists mz, measures A L (l_measurer o) mz /\
  forall lb tokens spare maxWidth ord, usable A u o lb -> plainTokens tokens spare -> tokens <> [] /\ Forall (fun t => t <> []) tokens ->
    mz (joinWith 32 tokens) <= 2 ^ 30 -> incomparable A (scale A o maxWidth) -> (forall i k c, In c (ord i k)) ->
    exists lb', leftAlignUniform A u ord spare lb tokens maxWidth = Ret (Some [joinWith 32 tokens], lb') /\ usable A u o lb'.
Proof.
  intros H o Htol. destruct (options_settings A L u opts H) as (sc & mz & punct & parts & R & M & Hs & _ & S). fold o in R, M, S. exists mz. split; [exact M|].
  intros lb tokens spare maxWidth ord U Ht Hne Hw Hin Hord. pose proof M as (M1 & M2 & _). destruct R as [C1 C2 C3 C4 C5 C6].
  apply (one_line A L u o _ punct parts S Htol lb U tokens spare Ht Hne); try assumption.
  assert (2 ^ 20 * mz (joinWith 32 tokens) <= 2 ^ 50) as H1 by lia.
  rewrite <- (any_width A L u o _ punct parts S lb U tokens spare Ht Hne (fun t => 2 ^ 20 * mz t)) in H1 by (intros a b; rewrite M2; lia).
  eapply Z.le_trans; [|exact H1]. apply lineWidth_mono.
  - intros t. apply C1, M1.
  - apply C1, M1.
  - unfold hyphenW. destruct (l_wordBreak o); [apply C1, M1|lia].
Qed.

(** ** Binary64 *)
From Flocq Require Import IEEE754.BinarySingleNaN.
From Verif Require Import ArithB64.
Open Scope Z_scope.
Lemma nan_incomparable pow (o : lopts (b64 pow)) : incomparable (b64 pow) (scale (b64 pow) o B754_nan).
Proof. intros x. split; [destruct x; reflexivity|reflexivity]. Qed.
Theorem options_nan pow (L : laws (b64 pow)) u opts : Forall (okOption (b64 pow) L) opts ->
  let o := withOptions (b64 pow) (defaultHyphenator u) (defaultPunctuator u) opts in
  fle (b64 pow) (fZ (b64 pow) 0) (k_tolerance (l_search o)) = true ->
  exists mz, measures (b64 pow) L (l_measurer o) mz /\
  forall lb tokens spare ord, usable (b64 pow) u o lb -> plainTokens tokens spare -> tokens <> [] /\ Forall (fun t => t <> []) tokens ->
    mz (joinWith 32 tokens) <= 2 ^ 30 -> (forall i k c, In c (ord i k)) ->
    exists lb', leftAlignUniform (b64 pow) u ord spare lb tokens B754_nan = Ret (Some [joinWith 32 tokens], lb') /\ usable (b64 pow) u o lb'.
Proof.
  intros H o Htol. destruct (options_incomparable (b64 pow) L u opts H Htol) as (mz & M & K). fold o in M, K. exists mz. split; [exact M|].
  intros lb tokens spare ord U Ht Hne Hw Hord. apply K; try assumption. apply nan_incomparable.
Qed.
