(** LeftAlignUniform given an infinite, negative or huge width, or a negative tolerance. *)
From Verif Require Import Base Arith Unicode Split SpecSplit SplitProofs Ansi SpecAnsi AnsiProofs Attr Hyph KP Nodes Render SpecKP Cost KPProofs Tokens Align Options
  Call Settings SpecFormat Format SpecAny AnyNodes AnyLines AnyShape KPStart AnyCall.

(** Every text ends before such a line does, and is too far from its end; or is too wide; or has the right width, which the tolerance does not allow. *)
Definition endless (A : arith) (L : laws A) (tol w : F A) : Prop :=
  forall x a, rep A L x a -> 0 <= a <= 2 ^ 51 ->
    (flt A x w = true /\ forall y s, rep A L y s -> 0 < s <= 2 ^ 21 -> fle A (fdiv A (fsub A w x) y) tol = false) \/
    (flt A x w = false /\ (flt A w x = true \/ (flt A w x = false /\ fle A (fZ A 0) tol = false))).

Section Endless.
Variable A : arith.
Variable L : laws A.
Notation F := (F A).
Notation fZ := (fZ A).
Notation rep := (rep A L).
Notation node := (node A).
Variable ko : kopts A.
Hypothesis Htol : fle A (infinity A) (k_tolerance ko) = false.
Variable wF : F.
Hypothesis Hend : endless A L (k_tolerance ko) wF.
Variable ord : nat -> nat -> list fclass.
Notation first := (firstActive A).

Lemma far_ratio nd sum w s : goodNode A L nd -> zw A nd <= 2 ^ 50 -> repT A L sum w s -> 0 <= w <= 2 ^ 50 -> Z.abs s <= 2 ^ 21 ->
  fle A (adjustmentRatio A first nd sum wF) (k_tolerance ko) = false.
Proof.
  intros G Hz (T1 & T2 & T3) Hw Hs. unfold adjustmentRatio. cbn [b_totals firstActive noSums su_width su_stretch su_shrink].
  assert (rep (fZ 0) 0) as R0 by (apply rep_Z; unfold exactZ; lia).
  assert (rep (fsub A (su_width sum) (fZ 0)) (w - 0)) as R1 by (apply rep_sub; [exact T1|exact R0|unfold exactZ; lia]).
  assert (rep (fsub A (su_stretch sum) (fZ 0)) (s - 0)) as R2 by (apply rep_sub; [exact T2|exact R0|unfold exactZ; lia]).
  assert (rep (fsub A (su_shrink sum) (fZ 0)) (0 - 0)) as R3 by (apply rep_sub; [exact T3|exact R0|unfold exactZ; lia]).
  set (act := if isPenalty nd then _ else _).
  assert (exists a, rep act a /\ 0 <= a <= 2 ^ 51) as (a & Ra & Ha).
  { unfold act. pose proof (gn_w0 _ _ _ G). destruct (isPenalty nd); [|exists (w - 0); split; [exact R1|lia]]. eexists. split; [|apply (conj (A := 0 <= w - 0 + zw A nd)); lia].
    apply rep_add; [exact R1|apply G|]. unfold exactZ. lia. }
  destruct (Hend act a Ra Ha) as [[-> Hf]|[-> [->|[-> H0]]]].
  - rewrite (rep_lt A L _ _ _ _ R0 R2). destruct (Z.ltb_spec 0 (s - 0)) as [H|H].
    + apply (Hf _ (s - 0)); [exact R2|lia].
    + exact Htol.
  - rewrite (rep_lt A L _ _ _ _ R0 R3). change (0 <? 0 - 0) with false. cbv iota. exact Htol.
  - exact H0.
Qed.

Lemma main_far nodes index nd sum w s acts : goodNode A L nd -> zw A nd <= 2 ^ 50 -> repT A L sum w s -> 0 <= w <= 2 ^ 50 -> Z.abs s <= 2 ^ 21 ->
  acts = [first] \/ acts = [] ->
  exists acts', mainLoop A ko ord nodes [wF] index nd sum acts = Ret acts' /\ (acts' = [first] \/ acts' = []).
Proof.
  intros G Hz T Hw Hs [-> | ->]; [|exists []; split; [reflexivity|now right]].
  pose proof (far_ratio nd sum w s G Hz T Hw Hs) as Hf. unfold mainLoop. cbn [length outer inner].
  change (idealWidth A [wF] (b_line first + 1)) with (Ret wF). cbn [gbind]. rewrite Hf, andb_false_r. cbn [gbind].
  assert (flt A (fMax A) (fMax A) = false) as E.
  { destruct (flt A (fMax A) (fMax A)) eqn:E; [|reflexivity]. pose proof (lt_le A L _ _ E) as E'. rewrite (max_refl A L) in E'. discriminate. }
  rewrite E. eexists. split; [reflexivity|]. destruct (_ || _); cbn [app]; tauto.
Qed.

Lemma loop_far nodes rest : Forall (goodNode A L) rest -> Forall (fun n => zw A n <= 2 ^ 50) rest -> forall prev index sum w s acts,
  repT A L sum w s -> 0 <= w -> w + sumW A rest <= 2 ^ 50 -> (forall i, Z.abs (s + sumS A (firstn i rest)) <= 2 ^ 21) ->
  acts = [first] \/ acts = [] ->
  exists acts', breakLoop A ko ord nodes [wF] rest prev index sum acts = Ret acts' /\ (acts' = [first] \/ acts' = []).
Proof.
  intros Hg Hz. induction rest as [|nd rest IH]; intros prev index sum w s acts T Hw HW HS Ha; [exists acts; split; [reflexivity|exact Ha]|].
  apply Forall_cons_iff in Hg as [G Hg]. apply Forall_cons_iff in Hz as [Z1 Hz]. specialize (IH Hg Hz).
  assert (0 <= sumW A rest) as W0 by now apply (sumW_nonneg A L).
  assert (sumW A (nd :: rest) = addW A nd + sumW A rest) as EW by reflexivity. rewrite EW in HW.
  assert (0 <= addW A nd) as W1 by now apply (addW_nonneg A L).
  assert (Z.abs s <= 2 ^ 21) as Hs by (specialize (HS 0%nat); cbn in HS; now rewrite Z.add_0_r in HS).
  assert (Z.abs (s + addS A nd) <= 2 ^ 21) as Hs1 by (specialize (HS 1%nat); cbn in HS; now rewrite Z.add_0_r in HS).
  assert (forall i, Z.abs (s + addS A nd + sumS A (firstn i rest)) <= 2 ^ 21) as HS'.
  { intros i. specialize (HS (Datatypes.S i)). cbn [firstn] in HS. unfold sumS in HS. cbn [map zsum] in HS. unfold sumS. now rewrite <- Z.add_assoc. }
  pose proof (main_far nodes index nd sum w s acts G Z1 T ltac:(lia) Hs Ha) as (acts1 & Em & Ha1).
  cbn [breakLoop]. pose proof T as (T1 & T2 & T3). unfold addW, addS, isPenalty, isGlue in *. destruct (n_type nd) eqn:Et.
  - destruct (negb _); [rewrite Em|]; cbn [gbind]; apply (IH _ _ _ w s); try assumption; try lia;
      intros i; specialize (HS' i); now rewrite Z.add_0_r in HS'.
  - assert (exists x, match prev with Some p => if isBox p then mainLoop A ko ord nodes [wF] index nd sum acts else Ret acts | None => Ret acts end = Ret x /\
      (x = [first] \/ x = [])) as (x & -> & Hx).
    { destruct prev as [p|]; [|eauto]. destruct (isBox p); eauto. }
    cbn [gbind]. apply (IH _ _ _ (w + zw A nd) (s + zs A nd)); try assumption; try lia.
    apply repT_add; [exact T|exact G|unfold exactZ; lia|unfold exactZ; lia].
  - cbn [gbind]. apply (IH _ _ _ (w + zw A nd) s); try assumption; try lia.
    + repeat split; cbn [su_width su_stretch su_shrink]; [|exact T2|exact T3]. apply rep_add; [exact T1|apply G|unfold exactZ; lia].
    + intros i. specialize (HS' i). now rewrite Z.add_0_r in HS'.
Qed.

Lemma break_far nodes : Forall (goodNode A L) nodes -> Forall (fun n => zw A n <= 2 ^ 50) nodes -> sumW A nodes <= 2 ^ 50 ->
  (forall i, - 2 ^ 20 <= sumS A (firstn i nodes) <= 2 ^ 20) -> breakPoints A ko ord nodes [wF] = Ret None.
Proof.
  intros Hg Hz HW HS. unfold breakPoints. set (st := findStartNode A nodes 0).
  assert (forall l, sumW A l = sumW A (firstn st l) + sumW A (skipn st l)) as Esp.
  { intros l. rewrite <- (firstn_skipn st l) at 1. unfold sumW. now rewrite map_app, zsum_app. }
  assert (0 <= sumW A (firstn st nodes)) as H0 by (apply (sumW_nonneg A L); now apply Forall_firstn').
  rewrite Esp in HW.
  destruct (loop_far nodes (skipn st nodes)) with (prev := match st with O => None | S p => nth_error nodes p end) (index := st) (sum := noSums A)
    (w := 0) (s := 0) (acts := [first]) as (acts & E & Ha).
  - now apply Forall_skipn'.
  - now apply Forall_skipn'.
  - assert (rep (fZ 0) 0) as R0 by (apply rep_Z; unfold exactZ; lia). repeat split; exact R0.
  - lia.
  - lia.
  - intros i. pose proof (HS st). pose proof (HS (st + i)%nat) as H1.
    assert (firstn (st + i) nodes = firstn st nodes ++ firstn i (skipn st nodes)) as E1.
    { rewrite firstn_skipn_comm. replace (firstn st nodes) with (firstn st (firstn (st + i) nodes)).
      - symmetry. apply firstn_skipn.
      - rewrite firstn_firstn. f_equal. lia. }
    rewrite E1 in H1. unfold sumS in *. rewrite map_app, zsum_app in H1. lia.
  - now left.
  - rewrite E. cbn [gbind]. destruct Ha as [-> | ->]; [|reflexivity]. f_equal. unfold findBestBreak. cbn [fold_left].
    match goal with |- context [if ?b then _ else _] => destruct b end; reflexivity.
Qed.
End Endless.

(** ** The nodes of a call *)
Record goodNodes (A : arith) (L : laws A) (nodes : list (node A)) : Prop := mkGoodNodes {
  gd_good : Forall (goodNode A L) nodes;
  gd_small : Forall (fun n => zw A n <= 2 ^ 50) nodes;
  gd_width : sumW A nodes <= 2 ^ 50;
  gd_stretch : forall i, - 2 ^ 20 <= sumS A (firstn i nodes) <= 2 ^ 20
}.
Lemma call_nodes A L u o m punct parts (S : settings A L u o m punct parts) M (HM : forall t, m t <= M t) (HMa : forall a b, M (a ++ b) = M a + M b)
  (Hempty : exists ps, l_punctuator o [] = Ret ps /\ concat ps = []) lb seqs tokens spare itemss :
  AnyCall.reached A u o lb seqs -> readable u tokens spare itemss -> M (joinWith 32 (map keptText itemss)) <= 2 ^ 50 ->
  exists nodes attrs, leftAlignedNodes A u lb tokens spare = Ret (nodes, attrs) /\ goodNodes A L nodes.
Proof.
  intros Hre Hrd Hw.
  destruct (reached_ok _ _ _ _ _ Hre) as (sp & hy & En & attrs & -> & Hkept).
  destruct (settings_new A L u o m punct parts S) as (sp' & hy' & E' & R1 & R2). rewrite En in E'. injection E' as <- <-.
  destruct S as [(opts & Eo) S2 S3 S4 S5 S6 S7 [S8 S9] S10 S11].
  destruct (options_fixed A (defaultHyphenator u) (defaultPunctuator u) opts) as (F1 & F2 & F3 & F4 & F5 & F6 & F7 & F8).
  rewrite <- Eo in F1, F2, F3, F4, F5, F6, F7, F8.
  destruct Hrd as (Hl & Hok & Hc). unfold leftAlignedNodes. cbn [lb_attrs lb_opts lb_spaceWidth lb_hyphenWidth].
  destruct tokens as [|tok tokens].
  { exists [], attrs. split; [reflexivity|]. constructor; [constructor|constructor|cbn; lia|intros [|i]; cbn; lia]. }
  inversion Hl as [|? items ? its Hl1 Hl2]; subst.
  set (o := withOptions A (defaultHyphenator u) (defaultPunctuator u) opts) in *.
  set (seqs' := seqs ++ flat_map formatting (items :: its)) in *.
  set (lb := mkBreaker o sp hy attrs) in *.
  assert (Forall (inSeqs seqs') attrs) as Hk'. { eapply Forall_impl; [|exact Hkept]. intros a. apply inSeqs_incl. intros z Hz. apply in_or_app. now left. }
  assert (length tokens = length its) as Hlen by (clear - Hl2; induction Hl2; cbn; congruence).
  assert (forall t, 0 <= M t) as M0. { intros t. pose proof (HM t). pose proof (proj1 (S7 t)). lia. }
  assert (forall w, exists ps, l_punctuator (lb_opts lb) w = Ret ps /\ concat ps = w) as Hpu.
  { intros [|c w]; [exact Hempty|]. destruct (S5 (c :: w) ltac:(discriminate)) as (P1 & P2 & _). eauto. }
  assert (l_wordBreak (lb_opts lb) = true -> forall w, w <> [] -> exists p ps, l_hyphenator (lb_opts lb) w = Ret (p :: ps) /\ concat (p :: ps) = w) as Hpa.
  { intros Hwb w Hw'. destruct (S6 Hwb w Hw') as (P1 & P2 & _). destruct (parts w) as [|p ps]; [exfalso; apply Hw'; now rewrite <- P2|]. eauto. }
  assert (0 <= hyphenW o m <= 2 ^ 50) as Hhy. { unfold hyphenW. pose proof (proj1 (S7 [45])). destruct (l_wordBreak o); lia. }
  assert (l_wordBreak (lb_opts lb) = true -> hyphenW o m = m [45]) as Hhw. { unfold hyphenW. cbn [lb lb_opts]. now intros ->. }
  pose proof (zsum_M M keptText (items :: its) HMa ltac:(discriminate)) as Ew.
  assert (forall is, In is (items :: its) -> M (keptText is) <= 2 ^ 50) as Hin.
  { intros is Hin. assert (M (keptText is) <= zsum (map (fun x => M (keptText x)) (items :: its))) as K.
    { revert Hin. generalize (items :: its). clear - M0. induction l as [|x l IH]; intros Hin; [destruct Hin|]; destruct Hin as [->|H]; cbn [map zsum].
      - assert (0 <= zsum (map (fun x => M (keptText x)) l)); [|lia]. clear - M0. induction l as [|y l IH]; cbn [map zsum]; [lia|]. pose proof (M0 (keptText y)). lia.
      - specialize (IH H). pose proof (M0 (keptText x)). lia. }
    pose proof (M0 [32]). assert (0 <= zlen (items :: its) - 1) by (unfold zlen; cbn [length]; lia). nia. }
  destruct (alignedLoop_any A L u lb m M (hyphenW o m) F1 F2 F3 S3 S4 Hpu Hpa S7 HM HMa R1 R2 Hhy Hhw seqs' spare tokens tok its items 0 attrs [])
    as (ns & s' & k & Ea & _ & Hch & _); [|exact Hlen|exact Hk'|].
  { intros j t is Ht His. cbn [Nat.add]. assert (lexed u t is) as Hlx.
    { clear - Hl Ht His. revert j Ht His. induction Hl as [|x y l k Hxy _ IH]; intros [|j] Ht His; try discriminate; cbn in *; [congruence|eauto]. }
    split; [now apply Hc|]. split; [exact Hlx|]. pose proof (nth_error_In _ _ His) as Hi2. split; [split|].
    - apply kept_runes. rewrite (lexed_runes u t is Hlx). rewrite Forall_forall in Hok. apply Hok. now apply nth_error_In in Ht.
    - now apply Hin.
    - intros z Hz. apply in_or_app. right. apply in_flat_map. eauto. }
  cbn [app] in Ea. rewrite Ea. do 2 eexists. split; [reflexivity|].
  assert (zsum (map (fun is => M (keptText is)) (items :: its)) + zlen tokens * m [32] <= 2 ^ 50) as Hw'.
  { pose proof (HM [32]). assert (zlen tokens = zlen (items :: its) - 1) as -> by (unfold zlen; cbn [length]; rewrite Hlen; lia).
    assert (0 <= zlen (items :: its) - 1) by (unfold zlen; cbn [length]; lia). pose proof (proj1 (S7 [32])). nia. }
  assert (ns ++ finalNodes A = (ns ++ [endGlue A]) ++ [endPen A]) as Efin by (rewrite <- app_assoc; reflexivity).
  assert (zw A (endGlue A) = 0) as Ez by (apply (rep_int A L _ _ (rep_small A L 0 ltac:(lia)))).
  assert (addS A (endGlue A) = 10000) as Es by (apply (rep_int A L _ _ (rep_small A L 10000 ltac:(lia)))).
  assert (Forall (fine A L lb m s') (ns ++ [endGlue A])) as G1.
  { apply Forall_app; split; [apply Hch|]. constructor; [|constructor]. apply (fine_glue0 A L lb m s' _ 10000). apply (rep_small A L). lia. }
  assert (sumW A (ns ++ [endGlue A]) <= 2 ^ 50) as G5.
  { rewrite sumW_app. unfold KPProofs.sumW at 2. cbn [map zsum]. change (addW A (endGlue A)) with (zw A (endGlue A)). rewrite Ez.
    pose proof (ch_width _ _ _ _ _ _ _ _ Hch). lia. }
  assert (forall i, - 2 ^ 16 <= sumS A (firstn i (ns ++ [endGlue A])) <= 2 ^ 16) as G6.
  { intros i. unfold KPProofs.sumS. rewrite firstn_app, map_app, zsum_app. pose proof (proj2 (ch_balanced _ _ _ _ _ _ _ _ Hch) i) as H. unfold KPProofs.sumS in H.
    assert (0 <= zsum (map (addS A) (firstn (i - length ns) [endGlue A])) <= 10000); [|lia].
    destruct (i - length ns)%nat as [|k']; cbn [firstn map zsum]; rewrite ?firstn_nil; cbn [map zsum]; rewrite ?Es; lia. }
  rewrite Efin. constructor.
  - apply (AnyLines.good_nodes A L lb m s' S3). exact G1.
  - apply Forall_forall. intros n Hin'. apply In_nth_error in Hin' as (i & Hi).
    apply (zw_small A L lb m s' S3 (ns ++ [endGlue A]) G1 G5 i n Hi).
  - rewrite (nodes_width A). exact G5.
  - intros i. pose proof (PS_small A (ns ++ [endGlue A])) as H. unfold PS in H. specialize (H ltac:(intros j; specialize (G6 j); lia) i). lia.
Qed.

(** ** The theorem on calls *)
Theorem endless_call A L u o m punct parts (S : settings A L u o m punct parts) M (HM : forall t, m t <= M t) (HMa : forall a b, M (a ++ b) = M a + M b)
  (Hempty : exists ps, l_punctuator o [] = Ret ps /\ concat ps = []) lb seqs tokens spare itemss maxWidth ord :
  AnyCall.reached A u o lb seqs -> readable u tokens spare itemss -> M (joinWith 32 (map keptText itemss)) <= 2 ^ 50 ->
  endless A L (k_tolerance (l_search o)) (scale A o maxWidth) ->
  exists lb', leftAlignUniform A u ord spare lb tokens maxWidth = Ret (None, lb') /\ AnyCall.reached A u o lb' (seqs ++ flat_map formatting itemss).
Proof.
  intros Hre Hrd Hw Hend.
  assert (exists lb', leftAlignUniform A u ord spare lb tokens maxWidth = Ret (None, lb')) as (lb' & E).
  2: { exists lb'. split; [exact E|]. eapply re_call; eassumption. }
  destruct (call_nodes A L u o m punct parts S M HM HMa Hempty lb seqs tokens spare itemss Hre Hrd Hw) as (nodes & attrs & E & [G1 G2 G3 G4]).
  destruct (reached_ok _ _ _ _ _ Hre) as (sp & hy & En & attrs' & -> & _). unfold leftAlignUniform. rewrite E. cbn [gbind lb_opts].
  rewrite (break_far A L (l_search o) (se_tol _ _ _ _ _ _ _ S) _ Hend ord nodes G1 G2 G3 G4). eexists. reflexivity.
Qed.

Theorem options_endless A L u opts : Forall (okOption A L) opts ->
  let o := withOptions A (defaultHyphenator u) (defaultPunctuator u) opts in
  (exists ps, l_punctuator o [] = Ret ps /\ concat ps = []) ->
  exists mz, measures A L (l_measurer o) mz /\
  forall lb seqs tokens spare itemss maxWidth ord, AnyCall.reached A u o lb seqs -> readable u tokens spare itemss ->
    mz (joinWith 32 (map keptText itemss)) <= 2 ^ 30 -> endless A L (k_tolerance (l_search o)) (scale A o maxWidth) ->
    exists lb', leftAlignUniform A u ord spare lb tokens maxWidth = Ret (None, lb') /\ AnyCall.reached A u o lb' (seqs ++ flat_map formatting itemss).
Proof.
  intros H o He. destruct (options_settings A L u opts H) as (sc & mz & punct & parts & R & M & Hs & _ & S). fold o in R, M, S. exists mz. split; [exact M|].
  intros lb seqs tokens spare itemss maxWidth ord Hre Hrd Hw Hend. pose proof M as (M1 & M2 & _).
  destruct R as [C1 C2 C3 C4 C5 C6].
  apply (endless_call A L u o _ punct parts S (fun t => 2 ^ 20 * mz t)); try assumption.
  - intros t. cbn beta. apply C1, M1.
  - intros a b. cbn beta. rewrite M2. lia.
  - lia.
Qed.

(** ** Binary64 *)
From Flocq Require Import Core.Raux IEEE754.BinarySingleNaN.
From Coq Require Import Reals Lra.
From Verif Require Import ArithB64.
Open Scope Z_scope.
Lemma rep_finite pow (L : laws (b64 pow)) x n : rep (b64 pow) L x n -> is_finite x = true.
Proof.
  intros R. pose proof (rep_exact _ L x n R) as E. destruct (Z.eq_dec n 0) as [->|N].
  - assert (forall k, -1 <= k <= 1 -> rep (b64 pow) L (fZ (b64 pow) k) k) as Rk by (intros k Hk; apply rep_Z; unfold exactZ; lia).
    pose proof (rep_lt _ L _ _ _ _ R (Rk 1 ltac:(lia))) as H1. pose proof (rep_lt _ L _ _ _ _ (Rk (-1) ltac:(lia)) R) as H2.
    destruct x as [s|[|]| |s m e B]; try reflexivity; vm_compute in H1, H2; discriminate.
  - rewrite (rep_nz _ L x n R N). cbn [fZ b64]. now apply ofInt_rep.
Qed.
Lemma rep_positive pow (L : laws (b64 pow)) x n : rep (b64 pow) L x n -> 0 < n -> exists m e B, x = B754_finite false m e B.
Proof.
  intros R Hn. pose proof (rep_finite pow L x n R) as F.
  assert (rep (b64 pow) L (fZ (b64 pow) 0) 0) as R0 by (apply rep_Z; unfold exactZ; lia).
  pose proof (rep_lt _ L _ _ _ _ R0 R) as H. destruct (Z.ltb_spec 0 n) as [_|]; [|lia].
  destruct x as [s|s| |[|] m e B]; try discriminate F; [destruct s; vm_compute in H; discriminate|vm_compute in H; discriminate|eauto].
Qed.
