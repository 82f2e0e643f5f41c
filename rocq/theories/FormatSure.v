(** What LeftAlignUniform returns on formatted tokens is a function of the layout; one layout, one result. *)
From Coq Require Import Permutation.
From Verif Require Import Base Arith Unicode Split SpecSplit SplitProofs Ansi SpecAnsi AnsiProofs Attr Hyph KP Nodes Render SpecKP SpecGreedy
  KPProofs Frags Show Para Tokens Align Options Call Settings AlignProofs Fresh Succeed Compare Greedy SpecFormat Format GreedyFormat Counts Sure.
Open Scope Z_scope.

(** [regroup segs xs]: [xs] cut as [segs] is *)
Fixpoint regroup {X Y} (segs : list (list X)) (xs : list Y) : list (list Y) :=
  match segs with [] => [] | s :: segs' => firstn (length s) xs :: regroup segs' (skipn (length s) xs) end.
Lemma regroup_map {X Y} (f : Y -> X) (ls : list (list Y)) : regroup (map (map f) ls) (concat ls) = ls.
Proof.
  induction ls as [|l ls IH]; [reflexivity|]. cbn [map regroup concat]. rewrite map_length, firstn_app, skipn_app, Nat.sub_diag, firstn_all, skipn_all, firstn_O, skipn_O, app_nil_r.
  cbn [app]. now rewrite IH.
Qed.

Section Call.
Variable A : arith.
Variable L : laws A.
Variable u : unicode.
Variable o : lopts A.
Variable m : list rune -> Z.
Variable punct parts : list rune -> list (list rune).
Variable lb : breaker A.
Variable ts : list (list run).
Variable spare1 spare2 : nat -> list rune.
Variable maxWidth : F A.
Variable W : Z.
Variable ord : nat -> nat -> list fclass.
Hypothesis C : plainCall A L u o m punct parts lb (map tokenText ts) spare2 maxWidth W ord.
Hypothesis Ht : forall j x, nth_error ts j = Some x -> token A u o x (spare1 j) (spare2 j).
Notation greedy := (greedy (l_renderHyphens o) (negb (feq A (l_hyphenPenalty o) (fZ A 10000))) m (m [32]) (hyphenW o m) A (k_tolerance (l_search o)) W
    (fragsOf u o punct parts (map tokenText ts)) 0).

Theorem formatted_shown : exists (show : list (list frag) -> list (list rune)) (lb' : breaker A),
  forall ord', (forall i k c, In c (ord' i k)) ->
  leftAlignUniform A u ord' spare1 lb (map tokenRunes ts) maxWidth = Ret (None, lb') \/
  exists segs, greedy segs /\ leftAlignUniform A u ord' spare1 lb (map tokenRunes ts) maxWidth = Ret (Some (show segs), lb').
Proof.
  destruct C as [S U [Ht1 Ht2] [Hne1 Hne2] Hwidth HmaxW HW Hord].
  destruct (settings_regular A L u o m punct parts S lb U) as (R & Hp & E).
  pose proof (frs_eq A L u o m punct parts S lb U (map tokenText ts)) as Ef.
  assert (Forall (fun t => t <> [] /\ ~ hasCSI t /\ Forall okRune t) (map tokenText ts)) as Htok
    by (rewrite Forall_forall in *; intros t Hin; split; [now apply Hne2|now apply Ht1]).
  rewrite <- Ef, <- E in Hwidth; rewrite <- E in HmaxW; rewrite <- E in R.
  destruct (align_setup A L u lb m (m [32]) (hyphenW (lb_opts lb) m) punct parts R Hp (map tokenText ts) spare2 Hne1 Htok Ht2 Hwidth)
    as (inia & za & Ea & Emap & Hg & Hini & Hz & HBW & Hat & En).
  set (atoms := inia ++ [za]) in *.
  destruct R as [R1 R2 R3 R4 R5 R6 R7 R8 R9 R10 R11 R12 R13 R14 R15 R16 R17 R18 R19 R20].
  rewrite <- E in Ht. clear Ht1 Ht2.
  pose proof (nodes_nsim A u (lb_opts lb) (lb_spaceWidth lb) (lb_hyphenWidth lb) (lb_attrs lb) (lb_attrs lb) spare1 spare2 ts eq_refl Hp Ht) as K.
  assert (lb = mkBreaker (lb_opts lb) (lb_spaceWidth lb) (lb_hyphenWidth lb) (lb_attrs lb)) as Elb by now destruct lb.
  rewrite <- Elb in K. rewrite En in K.
  destruct (leftAlignedNodes A u lb (map tokenRunes ts) spare1) as [[n1 a1]|] eqn:E1; [|now destruct K].
  destruct K as (-> & vss & new & Hv0 & _ & _ & Ha & Hb). pose proof (cuts_len _ _ _ _ _ _ _ _ Hv0) as Hv.
  match type of Hb with ?x = _ => set (a2 := x) in * end.
  assert (Forall2 (fun x y => a_text x = a_text y /\ inSeqs (sequencesOf (concat ts)) x /\ plainAttr y) a1 a2) as Hs.
  { rewrite Ha, Hb, <- (docOf_text (concat ts) vss Hv). apply words_sim; [now apply plain_self|apply docOf_seqs]. }
  assert (Forall (atomOk A a1) atoms) as Hat1.
  { eapply Forall_impl; [|exact Hat]. intros a (i & x & Hi & Hx). destruct (nth_error a1 i) as [y|] eqn:Ey; [exists i, y; auto|exfalso].
    apply nth_error_None in Ey. assert (nth_error a2 i <> None) as Hx2 by congruence. apply nth_error_Some in Hx2. assert (length a1 = length a2) as Hl by (clear - Hs; induction Hs; cbn [length]; congruence). lia. }
  exists (fun segs => showLines A lb a1 (iterator a1) (regroup segs atoms)), (mkBreaker (lb_opts lb) (lb_spaceWidth lb) (lb_hyphenWidth lb) a1).
  intros ord' Ho. unfold leftAlignUniform. rewrite E1. cbn [gbind].
  destruct (render_spec A L lb m (m [32]) (hyphenW (lb_opts lb) m) R1 R2 R3 R4 R5 R6 R7 R8 R9 R10 inia za Hg Hini Hz HBW W HW R11
    (scale A (lb_opts lb) maxWidth) HmaxW ord' Ho R18 R19 R20 a1 Hat1) as [(Eb & Hno)|(bs & lines & Eb & Er & Hc & Hl & Hlay & Hok)];
    fold atoms in Eb; rewrite Eb; cbn [gbind].
  - left. reflexivity.
  - right. exists (map (map (at_f A)) lines). fold atoms in Er, Hc. split.
    + pose proof (laid_greedy A L lb m (m [32]) (hyphenW (lb_opts lb) m) R1 R2 R3 R4 R5 R6 inia za Hg Hini Hz HBW W HW R11 _ _ _ _ Hl) as G.
      fold atoms in G. rewrite Emap, Ef, E in G. exact G.
    + rewrite Er. cbn [gbind]. rewrite <- Hc, regroup_map. reflexivity.
Qed.
End Call.

(** C137 for formatted tokens *)
Theorem formatted_half A L u o m punct parts lb ts spare1 spare2 maxWidth W ord1 ord2 :
  plainCall A L u o m punct parts lb (map tokenText ts) spare2 maxWidth W ord1 -> (forall i k c, In c (ord2 i k)) ->
  (forall j x, nth_error ts j = Some x -> token A u o x (spare1 j) (spare2 j)) ->
  fle A (k_tolerance (l_search o)) (fHalf A) = true ->
  leftAlignUniform A u ord1 spare1 lb (map tokenRunes ts) maxWidth = leftAlignUniform A u ord2 spare1 lb (map tokenRunes ts) maxWidth.
Proof.
  intros C1 Ho Ht Hh.
  assert (plainCall A L u o m punct parts lb (map tokenText ts) spare2 maxWidth W ord2) as C2 by (destruct C1; constructor; assumption).
  destruct (formatted_shown A L u o m punct parts lb ts spare1 spare2 maxWidth W ord1 C1 Ht) as (show & lb' & K).
  pose proof (format_neutral A u o lb (pc_breaker _ _ _ _ _ _ _ _ _ _ _ _ _ C1) ord1 spare1 spare2 ts maxWidth Ht) as N1.
  pose proof (format_neutral A u o lb (pc_breaker _ _ _ _ _ _ _ _ _ _ _ _ _ C1) ord2 spare1 spare2 ts maxWidth Ht) as N2.
  destruct (align_half A L u o m punct parts (map tokenText ts) maxWidth W lb spare2 ord1 lb spare2 ord2 C1 C2 Hh) as (res & b1 & b2 & E1 & E2).
  rewrite E1 in N1. rewrite E2 in N2.
  destruct (K ord1 (pc_order _ _ _ _ _ _ _ _ _ _ _ _ _ C1)) as [F1|(s1 & G1 & F1)]; destruct (K ord2 Ho) as [F2|(s2 & G2 & F2)]; rewrite F1, F2 in *;
    destruct res; try (now destruct N1); try (now destruct N2). repeat f_equal.
  pose proof (pc_bounds _ _ _ _ _ _ _ _ _ _ _ _ _ C1) as HW.
  assert (forall t, 0 <= m t) as Hm by (intros t; exact (proj1 (se_measure _ _ _ _ _ _ _ (pc_settings _ _ _ _ _ _ _ _ _ _ _ _ _ C1) t))).
  assert (0 <= hyphenW o m) as Hhy by (unfold hyphenW; destruct (l_wordBreak o); [apply Hm|lia]).
  exact (greedy_half A L _ _ m (m [32]) (hyphenW o m) _ W _ Hm (Hm _) Hhy (proj2 HW) (tol_no _ _ _ _ _ _ _ _ _ _ _ _ _ C1) Hh s1 s2 G1 G2).
Qed.
(** C138 for formatted tokens *)
Theorem formatted_least A L u o m punct parts lb ts spare1 spare2 maxWidth W ord :
  plainCall A L u o m punct parts lb (map tokenText ts) spare2 maxWidth W ord ->
  (forall j x, nth_error ts j = Some x -> token A u o x (spare1 j) (spare2 j)) ->
  fle A (k_tolerance (l_search o)) (fHalf A) = true -> gentle A u o m punct parts (map tokenText ts) ->
  forall segs, layout (negb (feq A (l_hyphenPenalty o) (fZ A 10000))) (fragsOf u o punct parts (map tokenText ts)) segs ->
  linesOk (l_renderHyphens o) m (m [32]) (hyphenW o m) A (k_tolerance (l_search o)) W true segs = true ->
  exists ls lb', leftAlignUniform A u ord spare1 lb (map tokenRunes ts) maxWidth = Ret (Some ls, lb') /\ (length ls <= length segs)%nat.
Proof.
  intros C Ht Hh G segs Hl Hok.
  destruct (formatted_fewest A L u o m punct parts lb ts spare1 spare2 maxWidth W ord C Ht G segs Hl Hok) as (ls & ord' & lb' & Hp & E & Hk).
  exists ls, lb'. split; [|exact Hk]. rewrite <- E. apply (formatted_half A L u o m punct parts lb ts spare1 spare2 maxWidth W ord ord' C); [|exact Ht|exact Hh].
  intros i k c. apply (Permutation_in c (Permutation_sym (Hp i k))). destruct c; cbn; tauto.
Qed.
