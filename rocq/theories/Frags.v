(** The nodes of a paragraph made of fragments: where it can be broken, and how wide lines are. *)
From Verif Require Import Base Arith Unicode Split Attr KP Nodes Render SpecKP KPProofs.

Section Frags.
Variable A : arith.
Variable L : laws A.
Variable lb : breaker A.
Notation F := (F A).
Notation fZ := (fZ A).
Notation rep := (rep A L).
Notation bnd := (bnd A L).
Notation node := (node A).
Notation o := (lb_opts lb).
Notation rh := (l_renderHyphens (lb_opts lb)).
Notation softOn := (negb (feq A (l_hyphenPenalty (lb_opts lb)) (infinity A))).
Variable m : list rune -> Z.
Variable sp hy : Z.
Hypothesis Hglue : l_glueStretch o = fZ 6.
Hypothesis Hsp : rep (lb_spaceWidth lb) sp.
Hypothesis Hsp0 : 0 <= sp.
Hypothesis Hhy : rep (lb_hyphenWidth lb) hy.
Hypothesis Hhy0 : 0 <= hy.
Hypothesis Hhp : bnd 100 (l_hyphenPenalty o).

(** A fragment with what its nodes hold. *)
Record atom := mkAtom { at_f : frag; at_pen : F; at_w : F; at_attr : option nat }.
Definition bx (a : atom) : node := newBox A (at_w a) (f_text (at_f a)) (at_attr a).
Definition joinNodes (j : joint) : list node :=
  match j with Glued => [] | Soft => pushHyphen A lb | Space => spaceNodes A lb | End_ => finalNodes A end.
Definition atomNodes (a : atom) : list node :=
  (if f_mark (at_f a) then markNodes A lb (bx a) (at_pen a) else [bx a]) ++ joinNodes (f_joint (at_f a)).
Definition nodesOf (l : list atom) : list node := flat_map atomNodes l.
Definition isEnd (a : atom) : bool := match f_joint (at_f a) with End_ => true | _ => false end.

Record goodAtom (a : atom) : Prop := {
  ga_w : rep (at_w a) (m (f_text (at_f a)));
  ga_w0 : 0 <= m (f_text (at_f a));
  ga_pen : f_mark (at_f a) = true -> at_pen a = fZ 200 \/ at_pen a = fZ 400;
  ga_soft : f_mark (at_f a) = true -> f_joint (at_f a) <> Soft
}.

Definition blockW (a : atom) : Z := m (f_text (at_f a)) + (if isSpaced (at_f a) then sp else 0).
Definition BW (l : list atom) : Z := zsum (map blockW l).
Definition boxOff (a : atom) : nat := if f_mark (at_f a) then 2 else 0.
(** offsets of the legal breaks, in the nodes of a fragment *)
Definition cutOff (a : atom) : list nat :=
  match f_mark (at_f a), f_joint (at_f a) with
  | true, Glued => [3]%nat
  | true, Soft => []
  | true, Space => [3; 6]%nat
  | true, End_ => [3; 6]%nat
  | false, Glued => []
  | false, Soft => if softOn then (if rh then [3]%nat else [1]%nat) else []
  | false, Space => [1; 2]%nat
  | false, End_ => [1; 2]%nat
  end.
(** the break that is followed by the whole joint *)
Definition mainOff (a : atom) : nat :=
  match f_mark (at_f a), f_joint (at_f a) with
  | true, End_ => 6%nat
  | true, _ => 3%nat
  | false, Soft => if rh then 3%nat else 1%nat
  | false, _ => 2%nat
  end.
(** stretch before a break *)
Definition cutStretch (a : atom) (off : nat) : Z :=
  match f_joint (at_f a) with
  | Soft => if rh then 6 else 0
  | End_ => if (off =? mainOff a)%nat then 10000 else if f_mark (at_f a) then 6 else 0
  | _ => if f_mark (at_f a) || (off =? 2)%nat then 6 else 0
  end.
Definition hyphW (a : atom) : Z := if rh && isSoft (at_f a) then hy else 0.

Lemma rep_small' n : -10000 <= n <= 10000 -> rep (fZ n) n.
Proof. apply rep_small. Qed.
Lemma fint_small n : -10000 <= n <= 10000 -> fint A (fZ n) = n.
Proof. intros H. apply (rep_int A L). now apply rep_small. Qed.
Lemma rep_minus6 : rep (fopp A (fZ 6)) (-6).
Proof. change (-6) with (- (6)). apply (rep_opp A L). apply rep_small. lia. Qed.
Lemma fint_minus6 : fint A (fopp A (fZ 6)) = -6.
Proof. apply (rep_int A L), rep_minus6. Qed.
Lemma fint_sp : fint A (lb_spaceWidth lb) = sp.
Proof. now apply (rep_int A L). Qed.
Lemma fint_hy : fint A (lb_hyphenWidth lb) = hy.
Proof. now apply (rep_int A L). Qed.
Lemma eq_small a b : -10000 <= a <= 10000 -> -10000 <= b <= 10000 -> feq A (fZ a) (fZ b) = (a =? b).
Proof. intros Ha Hb. apply (rep_eq A L); now apply rep_small. Qed.
Lemma hp_not_forced : feq A (l_hyphenPenalty o) (minusInfinity A) = false.
Proof. apply (bnd_neg A L 100); [exact Hhp|lia]. Qed.
Lemma pen_cases a : goodAtom a -> f_mark (at_f a) = true ->
  feq A (at_pen a) (infinity A) = false /\ feq A (at_pen a) (minusInfinity A) = false /\ bnd 100 (at_pen a).
Proof.
  intros G Hm. unfold infinity, minusInfinity.
  destruct (ga_pen a G Hm) as [->| ->]; rewrite !eq_small by lia; (split; [reflexivity|split; [reflexivity|]]).
  - apply (bnd_rep A L _ _ 200); [apply rep_small|..]; lia.
  - apply (bnd_rep A L _ _ 400); [apply rep_small|..]; lia.
Qed.

Lemma good_glue w st nw ns : rep w nw -> 0 <= nw -> rep st ns -> goodNode A L (newGlue A w st (fZ 0)).
Proof.
  intros Hw H0 Hs. constructor; unfold zw, zs; cbn [n_sums newGlue su_width su_stretch su_shrink].
  - now rewrite (rep_int A L _ _ Hw).
  - now rewrite (rep_int A L _ _ Hw).
  - now rewrite (rep_int A L _ _ Hs).
  - apply rep_small. lia.
  - intros _. apply (bnd_rep A L _ _ 0); [apply rep_small|..]; lia.
  - discriminate.
Qed.
Lemma good_box w v a nw : rep w nw -> 0 <= nw -> goodNode A L (newBox A w v a).
Proof.
  intros Hw H0. constructor; unfold zw, zs; cbn [n_sums newBox su_width su_stretch su_shrink].
  - now rewrite (rep_int A L _ _ Hw).
  - now rewrite (rep_int A L _ _ Hw).
  - rewrite fint_small by lia. apply rep_small. lia.
  - apply rep_small. lia.
  - intros _. apply (bnd_rep A L _ _ 0); [apply rep_small|..]; lia.
  - discriminate.
Qed.
Lemma good_penalty w p b nw : rep w nw -> 0 <= nw -> bnd 100 p \/ p = minusInfinity A -> goodNode A L (newPenalty A w p b).
Proof.
  intros Hw H0 Hp. constructor; unfold zw, zs; cbn [n_sums newPenalty su_width su_stretch su_shrink n_penalty].
  - now rewrite (rep_int A L _ _ Hw).
  - now rewrite (rep_int A L _ _ Hw).
  - rewrite fint_small by lia. apply rep_small. lia.
  - apply rep_small. lia.
  - intros Hf. destruct Hp as [Hp| ->]; [exact Hp|]. unfold isForcedBreak, isPenalty in Hf. cbn in Hf.
    unfold minusInfinity in Hf. rewrite eq_small in Hf by lia. discriminate.
  - intros Hf. destruct Hp as [Hp|Hp]; [|exact Hp]. unfold isForcedBreak, isPenalty in Hf. cbn in Hf.
    unfold minusInfinity in Hf. rewrite (bnd_neg A L 100) in Hf by (assumption || lia). discriminate.
Qed.
Lemma bnd_inf : bnd 100 (infinity A).
Proof. apply (bnd_rep A L _ _ 10000); [apply rep_small|..]; lia. Qed.
Lemma bnd_0 : bnd 100 (fZ 0).
Proof. apply (bnd_rep A L _ _ 0); [apply rep_small|..]; lia. Qed.

Ltac fall := repeat (apply Forall_cons; [|]); try apply Forall_nil.
Lemma good_join j : Forall (goodNode A L) (joinNodes j).
Proof.
  pose proof (rep_small A L 0 ltac:(lia)) as R0. pose proof (rep_small A L 6 ltac:(lia)) as R6. pose proof rep_minus6 as Rm.
  pose proof bnd_inf as Bi. pose proof bnd_0 as B0.
  destruct j; cbn [joinNodes].
  - constructor.
  - unfold pushHyphen. rewrite Hglue. destruct rh; fall.
    + apply (good_penalty _ _ _ 0); [exact R0|lia|left; exact Bi].
    + apply (good_glue _ _ 0 6); [exact R0|lia|exact R6].
    + apply (good_penalty _ _ _ hy); [exact Hhy|exact Hhy0|left; exact Hhp].
    + apply (good_glue _ _ 0 (-6)); [exact R0|lia|exact Rm].
    + apply (good_penalty _ _ _ 0); [exact R0|lia|left; exact Hhp].
  - unfold spaceNodes. rewrite Hglue. fall.
    + apply (good_glue _ _ 0 6); [exact R0|lia|exact R6].
    + apply (good_penalty _ _ _ 0); [exact R0|lia|left; exact B0].
    + apply (good_glue _ _ sp (-6)); [exact Hsp|exact Hsp0|exact Rm].
  - unfold finalNodes. fall.
    + apply (good_glue _ _ 0 10000); [exact R0|lia|]. apply rep_small. lia.
    + apply (good_penalty _ _ _ 0); [exact R0|lia|right; reflexivity].
Qed.
Lemma good_block a : goodAtom a -> Forall (goodNode A L) (atomNodes a).
Proof.
  intros G. pose proof (rep_small A L 0 ltac:(lia)) as R0. pose proof (rep_small A L 6 ltac:(lia)) as R6. pose proof rep_minus6 as Rm.
  unfold atomNodes. apply Forall_app. split; [|apply good_join].
  assert (goodNode A L (bx a)) as Gb by (eapply good_box; apply G).
  destruct (f_mark (at_f a)) eqn:Em; [|fall; exact Gb].
  unfold markNodes. rewrite Hglue. destruct (pen_cases a G Em) as (_ & _ & Bp). fall.
  - apply (good_penalty _ _ _ 0); [exact R0|lia|left; exact bnd_inf].
  - apply (good_glue _ _ 0 6); [exact R0|lia|exact R6].
  - exact Gb.
  - apply (good_penalty _ _ _ 0); [exact R0|lia|left; exact Bp].
  - apply (good_glue _ _ 0 (-6)); [exact R0|lia|exact Rm].
Qed.

(** everything about the nodes of one fragment *)
Ltac shape a := destruct a as [[t mk jt] pn wF at_]; destruct mk, jt; cbn [at_f f_mark f_joint f_text at_pen at_w at_attr] in *.
Ltac zviews := unfold sumW, sumS, addW, addS, zw, zs, blockW, isSpaced, isEnd, hyphW, isSoft, boxOff, cutOff, cutStretch, mainOff;
  unfold atomNodes, joinNodes, markNodes, pushHyphen, spaceNodes, finalNodes, bx;
  cbn [at_f f_mark f_joint f_text at_pen at_w at_attr app].
Ltac zcalc := cbn [map zsum isGlue isBox isPenalty n_type n_sums su_width su_stretch newGlue newBox newPenalty app firstn];
  rewrite ?Hglue; unfold infinity; rewrite ?fint_minus6, ?fint_sp, ?fint_hy, ?fint_small by lia.

Lemma ga_fint a : goodAtom a -> fint A (at_w a) = m (f_text (at_f a)).
Proof. intros G. apply (rep_int A L), G. Qed.

Lemma block_sumW a : goodAtom a -> sumW A (atomNodes a) = blockW a.
Proof.
  intros G. pose proof (ga_fint a G) as E. shape a; zviews; try destruct rh; zcalc; rewrite ?E; lia.
Qed.
Lemma block_sumS a : sumS A (atomNodes a) = if isEnd a then 10000 else 0.
Proof. shape a; zviews; try destruct rh; zcalc; lia. Qed.
Lemma block_partS a off : 0 <= sumS A (firstn off (atomNodes a)) <= 10006.
Proof.
  shape a; zviews; try destruct rh; do 10 (destruct off as [|off]; [zcalc; lia|]); cbn [firstn]; zcalc; lia.
Qed.
Lemma block_forced a : goodAtom a -> isEnd a = false -> Forall (fun n => isForcedBreak n = false) (atomNodes a).
Proof.
  intros G E.
  assert (feq A (infinity A) (minusInfinity A) = false) as E1 by (unfold infinity, minusInfinity; rewrite eq_small by lia; reflexivity).
  assert (feq A (fZ 0) (minusInfinity A) = false) as E2 by (unfold minusInfinity; rewrite eq_small by lia; reflexivity).
  pose proof hp_not_forced as E3.
  assert (f_mark (at_f a) = true -> feq A (at_pen a) (minusInfinity A) = false) as E4.
  { intros Em. now destruct (pen_cases a G Em) as (_ & ? & _). }
  shape a; try discriminate E; zviews; try destruct rh; try specialize (E4 eq_refl);
    repeat constructor; unfold isForcedBreak; cbn [isPenalty n_type newGlue newBox newPenalty n_penalty andb]; assumption || reflexivity.
Qed.
Lemma block_box a : nth_error (atomNodes a) (boxOff a) = Some (bx a).
Proof. shape a; reflexivity. Qed.
Lemma block_pre a q n : (q < boxOff a)%nat -> nth_error (atomNodes a) q = Some n -> stop A n = false.
Proof.
  assert (feq A (infinity A) (minusInfinity A) = false) as E1 by (unfold infinity, minusInfinity; rewrite eq_small by lia; reflexivity).
  shape a; unfold boxOff; cbn [at_f f_mark]; intros Hq Hn; try lia;
    (do 2 (destruct q as [|q]; [cbn in Hn; injection Hn as <-; unfold stop, isForcedBreak; cbn; try rewrite E1; reflexivity|]); lia).
Qed.
Lemma block_post a q n : goodAtom a -> (boxOff a < q)%nat -> nth_error (atomNodes a) q = Some n ->
  isEnd a = false \/ (q < length (atomNodes a) - 1)%nat -> stop A n = false.
Proof.
  intros G Hq Hn Hc.
  assert (isBox n = false) as Nb.
  { shape a; unfold boxOff in Hq; cbn [at_f f_mark] in Hq; revert Hn; zviews; try destruct rh;
      (do 10 (destruct q as [|q]; [lia || (cbn [nth_error]; injection 1 as <-; reflexivity) || (cbn [nth_error]; discriminate)|]));
      cbn [nth_error]; try discriminate; now destruct q. }
  unfold stop. rewrite Nb. cbn [orb]. destruct (isEnd a) eqn:Ee.
  2: { pose proof (block_forced a G Ee) as H. rewrite Forall_forall in H. apply H. now apply nth_error_In in Hn. }
  destruct Hc as [Hc|Hc]; [discriminate|]. unfold isForcedBreak.
  assert (f_mark (at_f a) = true -> feq A (at_pen a) (minusInfinity A) = false) as E4.
  { intros Em. now destruct (pen_cases a G Em) as (_ & ? & _). }
  shape a; try discriminate Ee; unfold boxOff in Hq; cbn [at_f f_mark] in Hq; revert Hn Hc; zviews;
    try specialize (E4 eq_refl); cbn [length nth_error];
      (do 10 (destruct q as [|q]; [lia || (cbn [nth_error]; injection 1 as <-; intros; cbn [isPenalty n_type newGlue newBox newPenalty n_penalty andb]; (reflexivity || exact E4 || lia)) || (cbn [nth_error]; discriminate)|]));
      cbn [nth_error]; try discriminate; now destruct q.
Qed.
Lemma block_len a : (boxOff a < length (atomNodes a))%nat.
Proof. shape a; zviews; try destruct rh; cbn; lia. Qed.

Definition finNode : node := newPenalty A (fZ 0) (minusInfinity A) true.
Lemma block_end a : goodAtom a -> isEnd a = true -> exists l, atomNodes a = l ++ [finNode] /\
  Forall (fun n => isForcedBreak n = false) l /\ mainOff a = length l.
Proof.
  intros G E.
  assert (feq A (infinity A) (minusInfinity A) = false) as E1 by (unfold infinity, minusInfinity; rewrite eq_small by lia; reflexivity).
  assert (f_mark (at_f a) = true -> feq A (at_pen a) (minusInfinity A) = false) as E4.
  { intros Em. now destruct (pen_cases a G Em) as (_ & ? & _). }
  shape a; try discriminate E; zviews; try specialize (E4 eq_refl).
  - eexists [_; _; _; _; _; _]. cbn [app]. split; [reflexivity|]. split; [|reflexivity].
    fall; unfold isForcedBreak; cbn [isPenalty n_type newGlue newBox newPenalty n_penalty andb]; assumption || reflexivity.
  - eexists [_; _]. cbn [app]. split; [reflexivity|]. split; [|reflexivity]. fall; reflexivity.
Qed.
Lemma block_explored a off : goodAtom a -> explored A (atomNodes a) off = true <-> In off (cutOff a).
Proof.
  intros G.
  assert (feq A (infinity A) (infinity A) = true) as E1 by (unfold infinity; rewrite eq_small by lia; reflexivity).
  assert (feq A (minusInfinity A) (infinity A) = false) as E2 by (unfold infinity, minusInfinity; rewrite eq_small by lia; reflexivity).
  assert (feq A (fZ 0) (infinity A) = false) as E3 by (unfold infinity; rewrite eq_small by lia; reflexivity).
  assert (f_mark (at_f a) = true -> feq A (at_pen a) (infinity A) = false) as E4.
  { intros Em. now destruct (pen_cases a G Em) as (? & _ & _). }
  assert (f_mark (at_f a) = true -> f_joint (at_f a) <> Soft) as E5 by apply G.
  shape a; try specialize (E4 eq_refl); try (exfalso; apply E5; reflexivity); clear E5;
    unfold explored; zviews; try destruct rh;
    do 10 (destruct off as [|off]; [cbn [nth_error n_type newGlue newBox newPenalty n_penalty isBox];
      rewrite ?E1, ?E2, ?E3, ?E4; try destruct (feq A (l_hyphenPenalty o) (infinity A)); cbn [negb In]; intuition (discriminate || lia)|]);
    cbn [nth_error]; try destruct off; try destruct (feq A (l_hyphenPenalty o) (infinity A)); cbn [negb In]; intuition (discriminate || lia).
Qed.
Lemma block_cut a off : goodAtom a -> In off (cutOff a) ->
  sumW A (firstn off (atomNodes a)) = m (f_text (at_f a)) /\ sumS A (firstn off (atomNodes a)) = cutStretch a off /\
  breakWidth A (atomNodes a) off = hyphW a /\ (boxOff a < off < length (atomNodes a))%nat.
Proof.
  intros G. pose proof (ga_fint a G) as Ew.
  shape a; unfold breakWidth; zviews; try destruct rh; try destruct (feq A (l_hyphenPenalty o) (infinity A)); cbn [negb In];
    intros H; repeat (destruct H as [<-|H]; [cbn [firstn nth_error length Nat.eqb andb orb]; zcalc; lia|]); destruct H.
Qed.
Lemma main_cut a : cuttable softOn (at_f a) || isEnd a = true -> goodAtom a -> In (mainOff a) (cutOff a).
Proof.
  intros H G. pose proof (ga_soft a G) as Hs. shape a; unfold cuttable, isEnd in H; cbn in H; zviews;
    try discriminate H; try (exfalso; apply Hs; reflexivity); try rewrite orb_false_r in H; try rewrite H; try destruct rh; cbn; auto.
Qed.
Lemma cut_cuttable a off : In off (cutOff a) -> cuttable softOn (at_f a) || isEnd a = true.
Proof. shape a; unfold cuttable, isEnd; zviews; cbn; try tauto; destruct softOn; cbn; tauto. Qed.
(** stretch at the main break, and elsewhere *)
Lemma main_stretch a : goodAtom a -> cuttable softOn (at_f a) || isEnd a = true ->
  cutStretch a (mainOff a) = if isEnd a then 10000 else if isSoft (at_f a) && negb rh then 0 else 6.
Proof.
  intros G H. pose proof (ga_soft a G) as Hs. shape a; unfold cuttable, isEnd in H; cbn in H; zviews;
    try discriminate H; try (exfalso; apply Hs; reflexivity); try destruct rh; reflexivity.
Qed.
Lemma other_stretch a off : goodAtom a -> In off (cutOff a) -> isEnd a = false \/ off = mainOff a ->
  cutStretch a off = cutStretch a (mainOff a) \/ cutStretch a off = 0.
Proof.
  intros G. pose proof (ga_soft a G) as Hs. shape a; zviews; try destruct rh; try destruct softOn; cbn [In Nat.eqb orb]; intros H [He| ->];
    try discriminate He; auto; intuition (subst; auto).
Qed.
End Frags.
