(** A text and its words. *)
From Verif Require Import Base Arith Unicode Split SpecSplit SplitProofs Ansi SpecAnsi AnsiProofs Attr Hyph KP Nodes Render SpecKP Tokens Align
  Options Call Settings AlignProofs Reuse Fresh Compare Sub Again Succeed SpecGreedy Greedy Fewest Atoms Join.
Open Scope Z_scope.

Lemma atoms_snoc softOn ini : exists p s, forall x, atoms softOn (ini ++ [x]) = p ++ [s ++ [x]].
Proof.
  induction ini as [|g ini (p & s & IH)]; [exists [], []; intros x; cbn; now destruct (cuttable softOn x)|].
  destruct (cuttable softOn g) eqn:Eg.
  - exists ([g] :: p), s. intros x. cbn [app atoms]. now rewrite Eg, IH.
  - destruct p as [|q p]; [exists [], (g :: s)|exists ((g :: q) :: p), s]; intros x; cbn [app atoms]; now rewrite Eg, IH.
Qed.
Section Widths.
Variable rh softOn : bool.
Variable m : list rune -> Z.
Variable sp hy W : Z.
Definition fitsAll (fs : list frag) : Prop := Forall (fun s => lineWidth rh m sp hy s <= W) (atoms softOn fs).
Lemma fits_end fs f ini j1 j2 : fs = ini ++ [f] -> j1 <> Soft -> j2 <> Soft -> fitsAll (endWith j1 fs) -> fitsAll (endWith j2 fs).
Proof.
  intros -> H1 H2. unfold fitsAll. rewrite !endWith_snoc'. destruct (atoms_snoc softOn ini) as (p & s & Es). rewrite !Es. rewrite !Forall_app.
  intros [Hp Hl]. split; [exact Hp|]. inversion Hl as [|? ? Hw _]; subst. constructor; [|constructor].
  set (g := mkFrag (f_text f) (f_mark f) Glued).
  assert (forall j, j <> Soft -> lineWidth rh m sp hy (s ++ [mkFrag (f_text f) (f_mark f) j]) = lineWidth rh m sp hy (s ++ [g])) as K
    by (intros j Hj; apply (lineWidth_end rh m sp hy s g j eq_refl Hj)).
  rewrite (K j2 H2). rewrite (K j1 H1) in Hw. exact Hw.
Qed.
Variable punct dashes parts : list rune -> list (list rune).
Variable isMark isDash breakable : list rune -> bool.
Notation tf := (tokenFrags punct dashes parts isMark isDash breakable).
Notation par := (paragraph punct dashes parts isMark isDash breakable).
Lemma fits_words tokens : Forall (fun t => tf t <> []) tokens -> (fitsAll (par tokens) <-> Forall (fun t => fitsAll (par [t])) tokens).
Proof.
  induction 1 as [|t ts Ht Hts IH]; [split; constructor|]. destruct ts as [|t2 ts].
  - split; [intros H; now constructor|]. intros H. now inversion H.
  - change (par (t :: t2 :: ts)) with (endWith Space (tf t) ++ par (t2 :: ts)). destruct (exists_last Ht) as (ini & f & E).
    assert (fitsAll (endWith Space (tf t) ++ par (t2 :: ts)) <-> fitsAll (endWith Space (tf t)) /\ fitsAll (par (t2 :: ts))) as K.
    { rewrite E, endWith_snoc'. unfold fitsAll. rewrite atoms_app by apply orb_true_r. apply Forall_app. }
    rewrite K, IH. split.
    + intros [H1 H2]. constructor; [|exact H2]. change (par [t]) with (endWith End_ (tf t)). apply (fits_end (tf t) f ini Space); try discriminate; assumption.
    + intros H. inversion H as [|? ? H1 H2]; subst. split; [|exact H2]. change (par [t]) with (endWith End_ (tf t)) in H1.
      apply (fits_end (tf t) f ini End_); try discriminate; assumption.
Qed.
Lemma glued_words tokens t : Forall (fun t => tf t <> []) tokens -> marksGlued softOn (par tokens) -> In t tokens -> marksGlued softOn (par [t]).
Proof.
  induction 1 as [|t0 ts Ht Hts IH]; [intros _ []|]. intros H Hin. destruct ts as [|t2 ts]; [destruct Hin as [<-|[]]; exact H|].
  change (par (t0 :: t2 :: ts)) with (endWith Space (tf t0) ++ par (t2 :: ts)) in H. destruct Hin as [<-|Hin]; [|apply IH; [now apply glued_right in H|exact Hin]].
  apply glued_left in H. change (par [t0]) with (endWith End_ (tf t0)). destruct (exists_last Ht) as (ini & f & E). rewrite E, endWith_snoc' in *.
  apply (glued_end softOn ini (mkFrag (f_text f) (f_mark f) End_) Space). exact H.
Qed.
Lemma thin_words (P : list rune -> Prop) tokens t : Forall (fun t => tf t <> []) tokens -> Forall (fun f => P (f_text f)) (par tokens) -> In t tokens ->
  Forall (fun f => P (f_text f)) (par [t]).
Proof.
  assert (forall j1 j2 fs, fs <> [] -> Forall (fun f => P (f_text f)) (endWith j1 fs) -> Forall (fun f => P (f_text f)) (endWith j2 fs)) as K.
  { intros j1 j2 fs Hn. destruct (exists_last Hn) as (ini & f & ->). rewrite !endWith_snoc', !Forall_app. intros [H1 H2]. split; [exact H1|].
    inversion H2; subst. constructor; [assumption|constructor]. }
  induction 1 as [|t0 ts Ht Hts IH]; [intros _ []|]. intros H Hin. destruct ts as [|t2 ts]; [destruct Hin as [<-|[]]; exact H|].
  change (par (t0 :: t2 :: ts)) with (endWith Space (tf t0) ++ par (t2 :: ts)) in H. apply Forall_app in H. destruct H as [H1 H2].
  destruct Hin as [<-|Hin]; [|now apply IH]. change (par [t0]) with (endWith End_ (tf t0)). now apply (K Space).
Qed.
End Widths.

(** C135 *)
Theorem align_each A L u o m punct parts lb tokens spare maxWidth W ord lbs spares ords :
  plainCall A L u o m punct parts lb tokens spare maxWidth W ord ->
  (forall t, In t tokens -> plainCall A L u o m punct parts (lbs t) [t] (spares t) maxWidth W (ords t)) ->
  k_tolerance (l_search o) = fTolerance A -> l_renderHyphens o = true \/ l_wordBreak o = false ->
  marksGlued (negb (feq A (l_hyphenPenalty o) (fZ A 10000))) (fragsOf u o punct parts tokens) ->
  (l_renderHyphens o = true -> Forall (fun f => hyphenW o m <= m (f_text f)) (fragsOf u o punct parts tokens)) -> W + m [32] <= 52 ->
  ((exists ls lb', leftAlignUniform A u ord spare lb tokens maxWidth = Ret (Some ls, lb')) <->
   forall t, In t tokens -> exists ls lb', leftAlignUniform A u (ords t) (spares t) (lbs t) [t] maxWidth = Ret (Some ls, lb')).
Proof.
  intros C Ct Htol Hrh Hg Hth HW.
  assert (Forall (fun t => tokenFrags punct (splitAt isHyphenRune) parts (single (punctSplitFunc u)) (single isHyphenRune) (fun w => l_wordBreak o && negb (zlen w <=? 4)) t <> []) tokens) as Hne.
  { apply Forall_forall. intros t Ht E. destruct (shape _ _ _ _ _ _ _ _ _ _ _ _ _ (Ct t Ht)) as (ini & f & Ef & _). unfold fragsOf in Ef. cbn [paragraph] in Ef.
    rewrite E in Ef. destruct ini; discriminate. }
  rewrite (align_atoms A L u o m punct parts lb tokens spare maxWidth W ord C Htol Hrh Hg Hth HW).
  rewrite (fits_words (l_renderHyphens o) (negb (feq A (l_hyphenPenalty o) (fZ A 10000))) m (m [32]) (hyphenW o m) W punct (splitAt isHyphenRune) parts
    (single (punctSplitFunc u)) (single isHyphenRune) (fun w => l_wordBreak o && negb (zlen w <=? 4)) tokens Hne). rewrite Forall_forall.
  assert (forall t, In t tokens -> ((exists ls lb', leftAlignUniform A u (ords t) (spares t) (lbs t) [t] maxWidth = Ret (Some ls, lb')) <->
    Forall (fun s => lineWidth (l_renderHyphens o) m (m [32]) (hyphenW o m) s <= W) (atoms (negb (feq A (l_hyphenPenalty o) (fZ A 10000))) (fragsOf u o punct parts [t])))) as K.
  { intros t Ht. apply (align_atoms A L u o m punct parts (lbs t) [t] (spares t) maxWidth W (ords t) (Ct t Ht) Htol Hrh); [| |exact HW].
    - apply (glued_words _ _ _ _ _ _ _ tokens t Hne Hg Ht).
    - intros Er. apply (thin_words _ _ _ _ _ _ (fun x => hyphenW o m <= m x) tokens t Hne (Hth Er) Ht). }
  split; intros H t Ht.
  - apply (K t Ht). now apply H.
  - apply (proj1 (K t Ht)). now apply H.
Qed.
