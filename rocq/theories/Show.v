(** What the nodes of a line render to. *)
From Verif Require Import Base Arith Unicode Split Attr KP Nodes Render SpecKP KPProofs Frags.

Section Show.
Variable A : arith.
Variable L : laws A.
Variable lb : breaker A.
Notation F := (F A).
Notation fZ := (fZ A).
Notation rep := (rep A L).
Notation bnd := (bnd A L).
Notation node := (node A).
Notation o := (lb_opts lb).
Notation rh := (l_renderHyphens (lb_opts lb)).
Notation softOn := (negb (feq A (l_hyphenPenalty (lb_opts lb)) (infinity A))).
Variable m : list rune -> Z.
Variable sp hy : Z.
Hypothesis Hglue : l_glueStretch o = fZ 6.
Hypothesis Hsp : rep (lb_spaceWidth lb) sp.
Hypothesis Hhp : bnd 100 (l_hyphenPenalty o).
Hypothesis Hz0 : forall x, rep x 0 -> fint A (downScale A o x) = 0.
Hypothesis Hsp1 : forall x, rep x sp -> fint A (downScale A o x) = 1.
Variable attrs : state.
Notation atom := (atom A).
Notation goodAtom := (goodAtom A L m).
Notation atomNodes := (atomNodes A lb).
Notation nodesOf := (nodesOf A lb).
Notation isEnd := (isEnd A).
Notation cutOff := (cutOff A lb).
Notation boxOff := (boxOff A).

Definition attrText (i : option nat) (t : list rune) : list rune :=
  match i with
  | None => t
  | Some i => match nth_error attrs i with Some a => concat (attrRender a) | None => [] end
  end.
Definition padOf (n : node) : F := fadd A (su_width (n_sums n)) (fmul A (fZ 0) (su_stretch (n_sums n))).
Definition spaces (n : node) : Z := fint A (downScale A o (padOf n)).
Definition nodeShow (isLast : bool) (n : node) : list rune :=
  match n_type n with
  | TBox => attrText (n_attr n) (n_value n)
  | TGlue => repeat 32 (Z.to_nat (spaces n))
  | TPenalty => if rh && feq A (n_penalty n) (l_hyphenPenalty o) && isLast then [45] else []
  end.
Fixpoint showNodes (ns : list node) : list rune :=
  match ns with
  | [] => []
  | n :: ns' => nodeShow (match ns' with [] => true | _ => false end) n ++ showNodes ns'
  end.
Definition nodeOk (n : node) : Prop :=
  match n_type n with
  | TBox => exists i a, n_attr n = Some i /\ nth_error attrs i = Some a
  | TGlue => 0 <= spaces n
  | TPenalty => True
  end.
Fixpoint nexts (n : nat) (it : iter) : iter :=
  match n with O => it | S n' => nexts n' (fst (next attrs it)) end.
Definition boxes (ns : list node) : nat := length (filter isBox ns).

Lemma nexts_S n it : nexts (S n) it = nexts n (fst (next attrs it)).
Proof. reflexivity. Qed.
Lemma renderLine_show ns : Forall nodeOk ns -> forall it w,
  renderLine A o attrs (fZ 0) ns it w = Ret (w ++ showNodes ns, nexts (boxes ns) it).
Proof.
  induction 1 as [|n ns Hn _ IH]; intros it w; [cbn; now rewrite app_nil_r|].
  cbn [renderLine showNodes]. unfold nodeShow, nodeOk, boxes in *. cbn [filter]. unfold isBox.
  destruct (n_type n) eqn:Et.
  - destruct (rh && feq A (n_penalty n) (l_hyphenPenalty o)) eqn:E; cbn [andb].
    + destruct ns as [|n' ns']; rewrite IH; rewrite <- ?app_assoc; reflexivity.
    + rewrite IH. reflexivity.
  - assert (flt A (fZ 0) (fZ 0) = false) as -> by (rewrite (rep_lt A L _ _ 0 0); [reflexivity|apply rep_small; lia|apply rep_small; lia]).
    fold (padOf n). fold (spaces n). unfold repeatSpaces.
    destruct (spaces n <? 0) eqn:E; [lia|]. cbn [gbind]. rewrite IH. now rewrite <- app_assoc.
  - destruct Hn as (i & a & -> & Ea). unfold attrText. rewrite Ea, IH. cbn [length]. now rewrite nexts_S, <- app_assoc.
Qed.

Lemma showNodes_app a b : b <> [] -> showNodes (a ++ b) = flat_map (nodeShow false) a ++ showNodes b.
Proof.
  intros Hb. induction a as [|n a IH]; [reflexivity|]. cbn [app showNodes flat_map]. rewrite IH, <- app_assoc. f_equal.
  destruct a; [destruct b; [congruence|reflexivity]|reflexivity].
Qed.
Lemma boxes_app a b : boxes (a ++ b) = (boxes a + boxes b)%nat.
Proof. unfold boxes. now rewrite filter_app, app_length. Qed.

(** the nodes of an atom *)
Definition atomOk (a : atom) : Prop := exists i x, at_attr A a = Some i /\ nth_error attrs i = Some x.
Definition boxShow (a : atom) : list rune := attrText (at_attr A a) (f_text (at_f A a)).
Definition spaceShow (a : atom) : list rune := if isSpaced (at_f A a) then [32] else [].
Definition hyphShow (a : atom) : list rune := if rh && isSoft (at_f A a) then [45] else [].
Fixpoint lineShow (seg : list atom) : list rune :=
  match seg with
  | [] => []
  | [a] => boxShow a ++ hyphShow a
  | a :: seg' => boxShow a ++ spaceShow a ++ lineShow seg'
  end.

Lemma pad_rep w st nw ns : rep w nw -> rep st ns -> rep (padOf (newGlue A w st (fZ 0))) nw.
Proof.
  intros Hw Hs. unfold padOf. cbn [n_sums newGlue su_width su_stretch].
  pose proof (rep_exact A L _ _ Hw) as Ex.
  assert (rep (fmul A (fZ 0) st) 0) as R0.
  { change 0 with (0 * ns) at 2. apply (rep_mul A L); [apply rep_small; lia|exact Hs|]. rewrite Z.mul_0_l. unfold exactZ. lia. }
  replace nw with (nw + 0) at 1 by lia. apply (rep_add A L); [exact Hw|exact R0|]. now rewrite Z.add_0_r.
Qed.
Lemma glue0 st ns : rep st ns -> spaces (newGlue A (fZ 0) st (fZ 0)) = 0.
Proof. intros Hs. apply Hz0. apply (pad_rep _ _ _ ns); [apply rep_small; lia|exact Hs]. Qed.
Lemma glue_plus : spaces (newGlue A (fZ 0) (fZ 6) (fZ 0)) = 0.
Proof. apply (glue0 _ 6). apply rep_small. lia. Qed.
Lemma glue_minus : spaces (newGlue A (fZ 0) (fopp A (fZ 6)) (fZ 0)) = 0.
Proof. apply (glue0 _ (-6)), rep_minus6. Qed.
Lemma glue_inf : spaces (newGlue A (fZ 0) (fZ 10000) (fZ 0)) = 0.
Proof. apply (glue0 _ 10000). apply rep_small. lia. Qed.
Lemma glue_space : spaces (newGlue A (lb_spaceWidth lb) (fopp A (fZ 6)) (fZ 0)) = 1.
Proof. apply Hsp1. apply (pad_rep _ _ _ (-6)); [exact Hsp|apply rep_minus6]. Qed.

Ltac shape a := destruct a as [[t mk jt] pn wF at_]; destruct mk, jt; cbn [at_f f_mark f_joint f_text at_pen at_w at_attr] in *.
Ltac views := unfold boxShow, spaceShow, hyphShow, isSpaced, isSoft, Frags.boxOff, Frags.cutOff, Frags.atomNodes, joinNodes, markNodes, pushHyphen, spaceNodes, finalNodes, bx, infinity;
  cbn [at_f f_mark f_joint f_text at_pen at_w at_attr app andb]; rewrite ?Hglue.
Ltac fall := repeat (apply Forall_cons; [|]); try apply Forall_nil.

Lemma block_ok a : atomOk a -> Forall nodeOk (atomNodes a).
Proof.
  intros (i & x & Ha & Hx).
  pose proof glue_plus as G1. pose proof glue_minus as G2. pose proof glue_inf as G3. pose proof glue_space as G4.
  shape a; views; try destruct rh; fall; unfold nodeOk; cbn [n_type newGlue newPenalty newBox]; try lia; try exact I;
    exists i, x; (split; [exact Ha|exact Hx]).
Qed.
Lemma block_boxes a : boxes (atomNodes a) = 1%nat.
Proof. shape a; views; try destruct rh; reflexivity. Qed.
Lemma block_boxes_skip a : boxes (skipn (boxOff a) (atomNodes a)) = 1%nat.
Proof. shape a; views; try destruct rh; reflexivity. Qed.
Lemma cut_boxes a off : In off (cutOff a) -> boxes (firstn (S off) (atomNodes a)) = 1%nat /\
  boxes (skipn (boxOff a) (firstn (S off) (atomNodes a))) = 1%nat.
Proof.
  shape a; views; try destruct rh; try destruct (feq A (l_hyphenPenalty o) (fZ 10000)); cbn [negb In]; intros H;
    repeat (destruct H as [<-|H]; [split; reflexivity|]); destruct H.
Qed.
Ltac shows := cbn [flat_map skipn firstn showNodes]; unfold nodeShow; cbn [n_type n_attr n_value n_penalty newGlue newPenalty newBox];
  rewrite ?glue_plus, ?glue_minus, ?glue_inf, ?glue_space; cbn [Z.to_nat Pos.to_nat Pos.iter_op Nat.add repeat andb];
  rewrite ?andb_false_r, ?andb_true_r; cbn [app]; rewrite ?app_nil_r.
Lemma block_inner a : flat_map (nodeShow false) (atomNodes a) = boxShow a ++ spaceShow a /\
  flat_map (nodeShow false) (skipn (boxOff a) (atomNodes a)) = boxShow a ++ spaceShow a.
Proof. shape a; views; try destruct rh; split; shows; reflexivity. Qed.
Lemma hp_feq : rh = true -> feq A (l_hyphenPenalty o) (l_hyphenPenalty o) = true.
Proof. intros _. now apply (bnd_refl A L 100). Qed.
Hypothesis Hhyph : rh = true ->
  feq A (fZ 0) (l_hyphenPenalty o) = false /\ feq A (fZ 200) (l_hyphenPenalty o) = false /\ feq A (fZ 400) (l_hyphenPenalty o) = false.
Lemma cut_show a off : goodAtom a -> In off (cutOff a) -> showNodes (firstn (S off) (atomNodes a)) = boxShow a ++ hyphShow a /\
  showNodes (skipn (boxOff a) (firstn (S off) (atomNodes a))) = boxShow a ++ hyphShow a.
Proof.
  intros G. pose proof hp_feq as E1. pose proof (hp_not_forced A L lb Hhp) as E2.
  pose proof (ga_pen A L m a G) as Hp. unfold minusInfinity in *.
  assert (feq A (fZ (-10000)) (l_hyphenPenalty o) = false) as E3 by (now rewrite (eq_sym A L)).
  assert (f_mark (at_f A a) = true -> rh = true -> feq A (at_pen A a) (l_hyphenPenalty o) = false) as E4.
  { intros Hm Hr. destruct (Hhyph Hr) as (_ & ? & ?). destruct (Hp Hm) as [-> | ->]; assumption. }
  assert (rh = true -> feq A (fZ 0) (l_hyphenPenalty o) = false) as E5 by (intros Hr; now apply Hhyph).
  clear Hp Hhyph. shape a; views; unfold minusInfinity; destruct rh eqn:Er; try destruct (feq A (l_hyphenPenalty o) (fZ 10000)); cbn [negb In]; intros H;
    try specialize (E4 eq_refl eq_refl); try specialize (E5 eq_refl); try specialize (E1 eq_refl);
    repeat (destruct H as [<-|H]; [|]); try (exfalso; exact H);
    (split; shows; rewrite ?Er, ?E3; cbn [andb app]; try rewrite E1 by reflexivity; try rewrite E4 by reflexivity; try rewrite E5 by reflexivity;
     cbn [andb app]; rewrite ?app_nil_r; reflexivity).
Qed.
End Show.
