(** Runes that must stay after the rune before them, such as combining accents. *)
From Verif Require Import Base Arith Unicode Split SpecSplit SplitProofs Ansi SpecAnsi AnsiProofs Attr Hyph KP Nodes Render SpecKP Tokens Align
  Options Call Settings AlignProofs.
Open Scope Z_scope.

Section Tied.
(** [tied r]: r belongs with the rune before it *)
Variable tied : rune -> Prop.
Definition startsFree (t : list rune) : Prop := forall r x, t = r :: x -> ~ tied r.
(** [follows g t]: in t, no such rune comes after one with g *)
Definition follows (g : rune -> bool) (t : list rune) : Prop := forall a x r b, t = a ++ x :: r :: b -> tied r -> g x = false.

Section Split.
Variable f g : rune -> bool.
Hypothesis Hfg : forall r, f r = true -> g r = true.
Hypothesis Htied : forall r, tied r -> g r = false.
Lemma follows_tail c t : follows g (c :: t) -> follows g t.
Proof. intros H a x r b E. apply (H (c :: a) x r b). cbn [app]. now rewrite E. Qed.
Lemma follows_cons c t : (forall r x, t = r :: x -> tied r -> g c = false) -> follows g t -> follows g (c :: t).
Proof. intros H1 H2 [|y a] x r b E; cbn [app] in E; injection E as -> E; [now apply (H1 r b)|now apply (H2 a x r b)]. Qed.
Lemma split_free t : follows g t -> match splitAt f t with [] => True | p :: ps => follows g p /\ Forall (fun p => startsFree p /\ follows g p) ps end.
Proof.
  induction t as [|c t IH]; intros H; [exact I|]. specialize (IH (follows_tail _ _ H)). cbn [splitAt].
  assert (forall c, follows g [c]) as H1 by (intros c' [|y a] x r b E; [discriminate|destruct a; discriminate]).
  assert (concat (splitAt f t) = t) as Ec by apply splitAt_concat.
  destruct (f c) eqn:Fc.
  - split; [apply H1|]. destruct (splitAt f t) as [|p ps] eqn:Es; [constructor|]. destruct IH as [IH1 IH2]. constructor; [|exact IH2]. split; [|exact IH1].
    intros r x -> Hr. assert (g c = false) as K by (apply (H [] c r (x ++ concat ps)); [cbn [concat app] in Ec; cbn [app]; now rewrite <- Ec|exact Hr]).
    apply Hfg in Fc. congruence.
  - destruct (splitAt f t) as [|[|d p] ps] eqn:Es.
    + split; [apply H1|constructor].
    + exfalso. pose proof (splitAt_nonempty f t) as N. rewrite Es in N. inversion N. congruence.
    + destruct IH as [IH1 IH2]. destruct (f d) eqn:Fd.
      * split; [apply H1|]. constructor; [|exact IH2]. split; [|exact IH1]. intros r x [= -> ->] Hr. apply Htied in Hr. apply Hfg in Fd. congruence.
      * split; [|exact IH2]. apply follows_cons; [|exact IH1]. intros r x [= -> ->] Hr. apply (H [] c r (x ++ concat ps)); [|exact Hr]. cbn [concat app] in Ec. cbn [app]. now rewrite <- Ec.
Qed.
Lemma split_free_all t : startsFree t -> follows g t -> Forall (fun p => startsFree p /\ follows g p) (splitAt f t).
Proof.
  intros H1 H2. pose proof (split_free t H2) as K. pose proof (splitAt_concat f t) as Ec. pose proof (splitAt_nonempty f t) as N. destruct (splitAt f t) as [|p ps]; [constructor|].
  destruct K as [K1 K2]. constructor; [|exact K2]. split; [|exact K1]. intros r x ->. apply (H1 r (x ++ concat ps)). symmetry. exact Ec.
Qed.
End Split.

Section Call.
Variable A : arith.
Variable L : laws A.
Variable u : unicode.
Variable o : lopts A.
Variable m : list rune -> Z.
Variable punct parts : list rune -> list (list rune).
Variable lb : breaker A.
Variable tokens : list (list rune).
Variable spare : nat -> list rune.
Variable maxWidth : F A.
Variable W : Z.
Variable ord : nat -> nat -> list fclass.
Hypothesis K : plainCall A L u o m punct parts lb tokens spare maxWidth W ord.
Notation sep := (fun r => punctSplitFunc u r || isHyphenRune r).
Hypothesis Htied : forall r, tied r -> sep r = false.
Hypothesis Hpunct : forall t, punct t = splitAt (punctSplitFunc u) t.
Hypothesis Hparts : l_wordBreak o = true -> forall w, startsFree w -> Forall startsFree (parts w).
Hypothesis Htokens : Forall (fun t => startsFree t /\ follows sep t) tokens.
Lemma parts_free ps : Forall startsFree ps -> Forall (fun f => startsFree (f_text f)) (partFrags ps).
Proof.
  induction 1 as [|p ps Hp _ IH]; [constructor|]. destruct ps as [|q ps]; [repeat constructor; exact Hp|]. constructor; [exact Hp|exact IH].
Qed.
Lemma frags_free : Forall (fun f => startsFree (f_text f)) (fragsOf u o punct parts tokens).
Proof.
  unfold fragsOf. set (br := fun w : list rune => l_wordBreak o && negb (zlen w <=? 4)).
  assert (Forall (fun t => Forall (fun f => startsFree (f_text f)) (tokenFrags punct (splitAt isHyphenRune) parts (single (punctSplitFunc u)) (single isHyphenRune) br t)) tokens) as H.
  { eapply Forall_impl; [|exact Htokens]. intros t [T1 T2]. apply Forall_flat_map. rewrite Hpunct.
    assert (Forall (fun p => startsFree p /\ follows sep p) (splitAt (punctSplitFunc u) t)) as Hp by (apply split_free_all; [intros r ->; reflexivity|exact Htied|exact T1|exact T2]).
    eapply Forall_impl; [|exact Hp]. intros p [P1 P2]. unfold pieceFrags. destruct (single (punctSplitFunc u) p); [repeat constructor; exact P1|].
    destruct (br p) eqn:Eb; [|repeat constructor; exact P1]. apply Forall_flat_map.
    assert (Forall (fun p => startsFree p /\ follows sep p) (splitAt isHyphenRune p)) as Hd by (apply split_free_all; [intros r ->; apply Bool.orb_true_r|exact Htied|exact P1|exact P2]).
    eapply Forall_impl; [|exact Hd]. intros d [D1 D2]. unfold wordFrags. destruct (single isHyphenRune d); [repeat constructor; exact D1|].
    apply parts_free. apply Hparts; [|exact D1]. unfold br in Eb. now apply andb_prop in Eb. }
  assert (forall j fs, Forall (fun f => startsFree (f_text f)) fs -> Forall (fun f => startsFree (f_text f)) (endWith j fs)) as He.
  { intros j. induction 1 as [|f fs Hf Hfs IH]; [constructor|]. destruct fs; [repeat constructor; exact Hf|]. constructor; assumption. }
  clear K Htokens. induction H as [|t ts Ht _ IH]; [constructor|]. destruct ts as [|t2 ts]; [now apply He|].
  cbn [paragraph] in *. apply Forall_app. split; [now apply He|exact IH].
Qed.
Theorem tied_lines ls lb' : leftAlignUniform A u ord spare lb tokens maxWidth = Ret (Some ls, lb') -> Forall startsFree ls.
Proof.
  intros E. destruct (align_sound A L u o m punct parts lb tokens spare maxWidth W ord K _ _ E) as (segs & -> & Hl & _).
  destruct (frs_text A L u o m punct parts (pc_settings _ _ _ _ _ _ _ _ _ _ _ _ _ K) lb (pc_breaker _ _ _ _ _ _ _ _ _ _ _ _ _ K) tokens (pc_nonempty _ _ _ _ _ _ _ _ _ _ _ _ _ K)) as (Hn & _).
  pose proof frags_free as Hf. destruct (layout_last _ _ _ Hl) as (_ & _ & Hs). apply Forall_map. rewrite Forall_forall in *. intros s Hin.
  destruct s as [|f s]; [now destruct (Hs [] Hin)|]. assert (In f (fragsOf u o punct parts tokens)) as If by (apply (layout_in _ _ _ (f :: s) f Hl Hin); now left).
  specialize (Hn f If). specialize (Hf f If). assert (exists y, lineText (l_renderHyphens o) (f :: s) = f_text f ++ y) as (y & ->) by (cbn [lineText]; destruct s; eauto).
  destruct (f_text f) as [|r t] eqn:Ef; [congruence|]. intros r' x [= <- _]. now apply (Hf r t).
Qed.
End Call.
End Tied.
