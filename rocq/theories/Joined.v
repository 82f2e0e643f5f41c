(** Runes that must stay before the rune after them, such as no-break spaces. *)
From Verif Require Import Base Arith Unicode Split SpecSplit SplitProofs Ansi SpecAnsi AnsiProofs Attr Hyph KP Nodes Render SpecKP Tokens Align
  Options Call Settings AlignProofs Combine.
Open Scope Z_scope.

Section Joined.
(** [tied r]: r belongs with the rune after it *)
Variable tied : rune -> Prop.
Definition endsFree (t : list rune) : Prop := forall x r, t = x ++ [r] -> ~ tied r.
(** no part but the last ends with such a rune *)
Definition partsFree (ps : list (list rune)) : Prop := forall a p b, ps = a ++ p :: b -> b <> [] -> endsFree p.

Section Call.
Variable A : arith.
Variable L : laws A.
Variable u : unicode.
Variable o : lopts A.
Variable m : list rune -> Z.
Variable punct parts : list rune -> list (list rune).
Variable lb : breaker A.
Variable tokens : list (list rune).
Variable spare : nat -> list rune.
Variable maxWidth : F A.
Variable W : Z.
Variable ord : nat -> nat -> list fclass.
Hypothesis K : plainCall A L u o m punct parts lb tokens spare maxWidth W ord.
Notation sep := (fun r => punctSplitFunc u r || isHyphenRune r).
Hypothesis Htied : forall r, tied r -> sep r = false.
Hypothesis Hparts : l_wordBreak o = true -> forall w, partsFree (parts w).
Hypothesis Htokens : Forall endsFree tokens.
Notation frs := (fragsOf u o punct parts tokens).
(** a fragment with a blank or nothing after it ends a token *)
Lemma last_text f : In f frs -> f_joint f = Space \/ f_joint f = End_ -> exists t y, In t tokens /\ t = y ++ f_text f.
Proof.
  destruct (settings_regular A L u o m punct parts (pc_settings _ _ _ _ _ _ _ _ _ _ _ _ _ K) lb (pc_breaker _ _ _ _ _ _ _ _ _ _ _ _ _ K)) as (R & _ & _).
  pose proof (proj2 (pc_nonempty _ _ _ _ _ _ _ _ _ _ _ _ _ K)) as N.
  rewrite <- (frs_eq A L u o m punct parts (pc_settings _ _ _ _ _ _ _ _ _ _ _ _ _ K) lb (pc_breaker _ _ _ _ _ _ _ _ _ _ _ _ _ K) tokens).
  set (tf := tokenFrags punct (splitAt isHyphenRune) parts (single (punctSplitFunc u)) (single isHyphenRune) (breakable A lb)).
  assert (forall j t, t <> [] -> In f (endWith j (tf t)) -> f_joint f = Space \/ f_joint f = End_ -> exists y, t = y ++ f_text f) as H.
  { intros j t Ht Hin Hj. destruct (tokenFrags_ok A L u lb m _ _ punct parts R t Ht) as [_ Et]. fold tf in Et.
    destruct (tokenFrags_glued A u lb punct parts (Hparts1 _ _ _ _ _ _ _ _ _ R) (Hpunct1 _ _ _ _ _ _ _ _ _ R) t Ht) as (ini & g & E & Hi). fold tf in E.
    rewrite E in Hin, Et. rewrite endWith_snoc in Hin. apply in_app_or in Hin. destruct Hin as [Hin|[<-|[]]].
    - exfalso. rewrite Forall_forall in Hi. destruct (Hi f Hin) as [H1 H2]. destruct Hj; congruence.
    - exists (textOf ini). rewrite <- Et, textOf_app. cbn. now rewrite app_nil_r. }
  intros Hin Hj. clear K Htokens. induction tokens as [|t ts IH]; [destruct Hin|]. inversion N as [|? ? N1 N2]; subst. destruct ts as [|t2 ts].
  - cbn [paragraph] in Hin. destruct (H _ t N1 Hin Hj) as (y & E). exists t, y. split; [now left|exact E].
  - change (In f (endWith Space (tf t) ++ paragraph punct (splitAt isHyphenRune) parts (single (punctSplitFunc u)) (single isHyphenRune) (breakable A lb) (t2 :: ts))) in Hin.
    apply in_app_or in Hin. destruct Hin as [Hin|Hin].
    + destruct (H _ t N1 Hin Hj) as (y & E). exists t, y. split; [now left|exact E].
    + destruct (IH N2 Hin) as (t' & y & I & E). exists t', y. split; [now right|exact E].
Qed.
Theorem joined_lines ls lb' : leftAlignUniform A u ord spare lb tokens maxWidth = Ret (Some ls, lb') -> Forall endsFree ls.
Proof.
  intros E. destruct (align_cuts A L u o m punct parts lb tokens spare maxWidth W ord K _ _ E) as (segs & Hc & Hl & Hcut).
  destruct (frs_text A L u o m punct parts (pc_settings _ _ _ _ _ _ _ _ _ _ _ _ _ K) lb (pc_breaker _ _ _ _ _ _ _ _ _ _ _ _ _ K) tokens (pc_nonempty _ _ _ _ _ _ _ _ _ _ _ _ _ K)) as (Hn & _).
  rewrite Forall_forall in Hn.
  destruct (frs_shape A L u o m punct parts (pc_settings _ _ _ _ _ _ _ _ _ _ _ _ _ K) lb (pc_breaker _ _ _ _ _ _ _ _ _ _ _ _ _ K) tokens spare
    (pc_tokens _ _ _ _ _ _ _ _ _ _ _ _ _ K) (pc_nonempty _ _ _ _ _ _ _ _ _ _ _ _ _ K)) as (ini & z & Ez & Hz & _).
  assert (forall p s q, segs = p ++ s :: q -> forall pre f, s = pre ++ [f] -> f_text f <> [] /\ endsFree (f_text f)) as H.
  { intros p s q Es pre f Ef.
    assert (In f frs) as Hf by (rewrite <- Hc, Es, concat_app; cbn [concat]; rewrite Ef; apply in_or_app; right; apply in_or_app; left; apply in_or_app; right; now left).
    split; [now apply Hn|].
    assert (f_joint f = Space \/ f_joint f = End_ -> endsFree (f_text f)) as Hend.
    { intros Hj. destruct (last_text f Hf Hj) as (t & y & It & Et). rewrite Forall_forall in Htokens. specialize (Htokens t It).
      intros x r Ex. apply (Htokens (y ++ x) r). rewrite Et, Ex. now rewrite app_assoc. }
    destruct q as [|s2 q].
    - apply Hend. right. assert (f = z) as ->; [|exact Hz]. rewrite Es, concat_app in Hc. cbn [concat] in Hc. rewrite Ef, app_nil_r, app_assoc, Ez in Hc.
      now apply app_inj_tail in Hc.
    - destruct (Hcut p s (s2 :: q) Es ltac:(discriminate)) as (l & f' & Ef' & Hf'). rewrite Ef in Ef'. apply app_inj_tail in Ef'. destruct Ef' as [_ <-].
      destruct Hf' as [(r & Er & Hr)|[Hj|(_ & Hw & w & a & b & Hb & Ep)]].
      + intros x r' Ex Ht. rewrite Er in Ex. destruct x as [|? [|]]; try discriminate. injection Ex as <-. apply Htied in Ht. apply orb_false_elim in Ht. destruct Ht, Hr; congruence.
      + apply Hend. now left.
      + apply (Hparts Hw w a _ b Ep Hb). }
  assert (forall p q, segs = p ++ q -> forall k, Forall2 (fun l s => exists pre f, s = pre ++ [f] /\ l = paraText pre ++ f_text f ++ (if l_renderHyphens o && isSoft f then [45] else [])) k q ->
    Forall endsFree k) as G.
  { intros p q Eq k Hk. revert p Eq. induction Hk as [|l s k q (pre & f & Es & El) _ IH]; intros p Eq; constructor.
    - destruct (H p s q Eq pre f Es) as [F1 F2]. intros x r Ex. rewrite El in Ex. destruct (l_renderHyphens o && isSoft f).
      + rewrite !app_assoc in Ex. apply app_inj_tail in Ex. destruct Ex as [_ <-]. intros Ht. apply Htied in Ht. vm_compute in Ht. revert Ht. now destruct (punctSplitFunc u 45).
      + rewrite app_nil_r in Ex. destruct (exists_last F1) as (y & r' & Ey). rewrite Ey, app_assoc in Ex. apply app_inj_tail in Ex. destruct Ex as [_ <-]. now apply (F2 y).
    - apply (IH (p ++ [s])). rewrite Eq, <- app_assoc. reflexivity. }
  now apply (G [] segs).
Qed.
End Call.

(** C130 *)
Theorem joined_both A L u o m punct parts lb tokens spare maxWidth W ord :
  plainCall A L u o m punct parts lb tokens spare maxWidth W ord ->
  (forall r, tied r -> punctSplitFunc u r || isHyphenRune r = false) ->
  (forall t, punct t = splitAt (punctSplitFunc u) t) ->
  (l_wordBreak o = true -> forall w, (startsFree tied w -> Forall (startsFree tied) (parts w)) /\ partsFree (parts w)) ->
  Forall (fun t => startsFree tied t /\ endsFree t /\ follows tied (fun r => punctSplitFunc u r || isHyphenRune r) t) tokens ->
  forall ls lb', leftAlignUniform A u ord spare lb tokens maxWidth = Ret (Some ls, lb') -> Forall (fun l => startsFree tied l /\ endsFree l) ls.
Proof.
  intros K Ht Hp Hq Hk ls lb' E. apply Forall_and.
  - apply (tied_lines tied A L u o m punct parts lb tokens spare maxWidth W ord K Ht Hp) with (lb' := lb'); [intros B w; now apply Hq| |exact E].
    eapply Forall_impl; [|exact Hk]. intros t (H1 & _ & H3). now split.
  - apply (joined_lines A L u o m punct parts lb tokens spare maxWidth W ord K Ht) with (lb' := lb'); [intros B w; now apply Hq| |exact E].
    eapply Forall_impl; [|exact Hk]. now intros t (_ & H2 & _).
Qed.
End Joined.
