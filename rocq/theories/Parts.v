(** Texts cut wherever the hyphenator allows it. *)
From Verif Require Import Base Arith Unicode Split SpecSplit SplitProofs Ansi SpecAnsi AnsiProofs Attr Hyph KP Nodes Render SpecKP Tokens Align
  Options Call Settings AlignProofs Reuse Fresh Compare Sub Again Succeed.
Open Scope Z_scope.

Definition alone (f : frag) : list frag := [f].
Lemma layout_alone softOn fs : fs <> [] -> (forall a f b, fs = a ++ f :: b -> b <> [] -> cuttable softOn f = true) ->
  layout softOn fs (map alone fs).
Proof.
  induction fs as [|f fs IH]; [congruence|]. intros _ H. destruct fs as [|g fs]; [apply lay_last; discriminate|].
  change (layout softOn (([] ++ [f]) ++ g :: fs) (([] ++ [f]) :: map alone (g :: fs))). constructor; [apply (H [] f (g :: fs)); [reflexivity|discriminate]|].
  apply IH; [discriminate|]. intros a x b E Hb. apply (H (f :: a) x b); [now rewrite E|exact Hb].
Qed.

(** Fragments of tokens without marks: all but the last are followed by a space or a soft hyphen *)
Definition openFrag (f : frag) : Prop := f_mark f = false /\ (f_joint f = Soft \/ f_joint f = Space).
Definition lastFrag (f : frag) : Prop := f_mark f = false /\ f_joint f <> Soft.
Inductive openAll (P : list rune -> bool -> Prop) : list frag -> Prop :=
| oa_last f : P (f_text f) false -> lastFrag f -> openAll P [f]
| oa_cons f fs : P (f_text f) (isSoft f) -> openFrag f -> openAll P fs -> openAll P (f :: fs).
Lemma parts_open (P : list rune -> bool -> Prop) ps : ps <> [] -> (forall p, In p ps -> P p true /\ P p false) -> openAll P (partFrags ps).
Proof.
  induction ps as [|p ps IH]; [congruence|]. intros _ H. destruct ps as [|q ps].
  - constructor; [apply H; now left|]. split; [reflexivity|discriminate].
  - change (partFrags (p :: q :: ps)) with (mkFrag p false Soft :: partFrags (q :: ps)). apply oa_cons; [apply H; now left|split; [reflexivity|now left]|].
    apply IH; [discriminate|]. intros x Hx. apply H. now right.
Qed.
Lemma open_end P fs : openAll P fs -> openAll P (endWith End_ fs).
Proof.
  induction 1 as [f H1 [H2 H3]|f fs H1 H2 H3 IH]; [constructor; [exact H1|split; [exact H2|discriminate]]|].
  destruct fs as [|g fs]; [inversion H3|]. change (endWith End_ (f :: g :: fs)) with (f :: endWith End_ (g :: fs)). now apply oa_cons.
Qed.
Lemma open_space P fs rest : openAll P fs -> openAll P rest -> openAll P (endWith Space fs ++ rest).
Proof.
  intros H Hr. induction H as [f H1 [H2 H3]|f fs H1 H2 H3 IH].
  - cbn [endWith app]. apply oa_cons; [exact H1|split; [exact H2|now right]|exact Hr].
  - destruct fs as [|g fs]; [inversion H3|]. change (endWith Space (f :: g :: fs)) with (f :: endWith Space (g :: fs)). cbn [app]. now apply oa_cons.
Qed.
Lemma open_paragraph P punct dashes parts isMark isDash breakable tokens : tokens <> [] ->
  Forall (fun t => openAll P (tokenFrags punct dashes parts isMark isDash breakable t)) tokens ->
  openAll P (paragraph punct dashes parts isMark isDash breakable tokens).
Proof.
  intros Hn H. induction H as [|t ts Ht Hts IH]; [congruence|]. destruct ts as [|t2 ts]; [cbn [paragraph]; now apply open_end|].
  change (paragraph punct dashes parts isMark isDash breakable (t :: t2 :: ts)) with
    (endWith Space (tokenFrags punct dashes parts isMark isDash breakable t) ++ paragraph punct dashes parts isMark isDash breakable (t2 :: ts)).
  apply open_space; [exact Ht|apply IH; discriminate].
Qed.
Lemma open_cuts P softOn fs : softOn = true -> openAll P fs -> layout softOn fs (map alone fs).
Proof.
  intros Hs H. apply layout_alone; [now destruct H|]. induction H as [f|f fs H1 [H2 H4] H3 IH]; intros a x b E Hb.
  - destruct a as [|y a]; [injection E as _ <-; congruence|]. injection E as _ E. now destruct a.
  - destruct a as [|y a]; [|injection E as _ E; now apply (IH a x b)]. injection E as <- _. unfold cuttable. rewrite H2. destruct H4 as [->| ->]; [exact Hs|reflexivity].
Qed.
Lemma open_in P fs f : openAll P fs -> In f fs -> f_mark f = false /\ P (f_text f) (isSoft f).
Proof.
  induction 1 as [g H1 [H2 H3]|g fs H1 [H2 _] H3 IH]; intros Hin.
  - destruct Hin as [<-|[]]. split; [exact H2|]. replace (isSoft g) with false; [exact H1|]. unfold isSoft. destruct (f_joint g); try congruence; reflexivity.
  - destruct Hin as [<-|Hin]; [now split|]. now apply IH.
Qed.

(** C132 *)
Theorem align_parts A L u o m punct parts lb tokens spare maxWidth W ord :
  plainCall A L u o m punct parts lb tokens spare maxWidth W ord -> l_punctuator o = defaultPunctuator u ->
  k_tolerance (l_search o) = fTolerance A -> W <= 85948 -> l_wordBreak o = true -> l_renderHyphens o = true ->
  feq A (l_hyphenPenalty o) (fZ A 10000) = false ->
  Forall (fun t => Forall (fun r => punctSplitFunc u r = false /\ isHyphenRune r = false) t /\
    (zlen t <= 4 -> m t <= W /\ m t + m [32] <= 52) /\
    (4 < zlen t -> Forall (fun p => m p + m [45] <= W /\ m p + m [45] + m [32] <= 52) (parts t))) tokens ->
  exists ls lb', leftAlignUniform A u ord spare lb tokens maxWidth = Ret (Some ls, lb').
Proof.
  intros C Hpu Htol HW Hwb Hrh Hpen Ht. destruct (pc_nonempty _ _ _ _ _ _ _ _ _ _ _ _ _ C) as [Hn Hne].
  set (P := fun (t : list rune) (s : bool) => m t + (if s then m [45] else 0) <= W /\ m t + (if s then m [45] else 0) + m [32] <= 52).
  assert (0 <= m [45]) as Hpos by apply (se_measure _ _ _ _ _ _ _ (pc_settings _ _ _ _ _ _ _ _ _ _ _ _ _ C)).
  assert (openAll P (fragsOf u o punct parts tokens)) as Ho.
  { apply open_paragraph; [exact Hn|]. rewrite Forall_forall in *. intros t Hin. destruct (Ht t Hin) as (H1 & H2 & H3). specialize (Hne t Hin).
    assert (Forall (fun r => punctSplitFunc u r = false) t) as M1 by (eapply Forall_impl; [|exact H1]; now intros r []).
    assert (Forall (fun r => isHyphenRune r = false) t) as M2 by (eapply Forall_impl; [|exact H1]; now intros r []).
    unfold tokenFrags. rewrite (punct_default A L u o m punct parts (pc_settings _ _ _ _ _ _ _ _ _ _ _ _ _ C) Hpu t Hne), (splitAt_none _ t Hne M1).
    cbn [flat_map]. rewrite app_nil_r. unfold pieceFrags. assert (forall g, Forall (fun r => g r = false) t -> single g t = false) as Hs.
    { intros g Hg. unfold single. destruct t as [|c [|d t]]; [reflexivity| |reflexivity]. now inversion Hg. }
    rewrite (Hs _ M1), Hwb. destruct (Z.leb_spec (zlen t) 4) as [Hl|Hl]; cbn [andb negb].
    - constructor; [|split; [reflexivity|discriminate]]. unfold P. cbn [f_text]. destruct (H2 Hl). lia.
    - rewrite (splitAt_none _ t Hne M2). cbn [flat_map]. rewrite app_nil_r. unfold wordFrags. rewrite (Hs _ M2). apply parts_open.
      { intros E. destruct (se_parts _ _ _ _ _ _ _ (pc_settings _ _ _ _ _ _ _ _ _ _ _ _ _ C) Hwb t Hne) as (_ & Ec & _). rewrite E in Ec. now subst t. }
      specialize (H3 ltac:(lia)). rewrite Forall_forall in H3. intros p Hp. unfold P. specialize (H3 p Hp). lia. }
  eapply (align_succeeds A L u o m punct parts lb tokens spare maxWidth W ord C Htol (map alone (fragsOf u o punct parts tokens))); [exact HW| | | |].
  - apply (open_cuts P); [now rewrite Hpen|exact Ho].
  - apply Forall_forall. intros s Hs. apply in_map_iff in Hs. destruct Hs as (f & <- & Hf). destruct (open_in P _ f Ho Hf) as [_ H2]. unfold P in H2.
    unfold alone. cbn [lineWidth]. unfold hyphenW. rewrite Hwb, Hrh. cbn [andb]. exact H2.
  - apply Forall_forall. intros s Hs. assert (In s (map alone (fragsOf u o punct parts tokens))) as Hin by (destruct (map alone (fragsOf u o punct parts tokens)); [destruct Hs|now right]).
    apply in_map_iff in Hin. destruct Hin as (f & <- & Hf). cbn. apply (open_in P _ f Ho Hf).
  - apply Forall_forall. intros s Hs. now left.
Qed.
