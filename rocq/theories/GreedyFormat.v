(** The layouts of tokens with escape sequences: those of their texts (C64 and C87 together). *)
From Coq Require Import Permutation.
From Verif Require Import Base Arith Unicode Split SpecSplit SplitProofs Ansi SpecAnsi AnsiProofs Attr Hyph KP Nodes Render SpecKP SpecGreedy Tokens Align
  Options Call Settings AlignProofs Fresh Succeed Compare Greedy Again SpecFormat Format.

Lemma lineText_runes (P : rune -> Prop) rh seg : P 32 -> P 45 -> Forall (fun f => f_text f <> [] /\ Forall P (f_text f)) seg -> Forall P (lineText rh seg).
Proof.
  intros H1 H2 H. induction H as [|f seg [Hf1 Hf2] Hs IH]; [constructor|]. cbn [lineText]. destruct seg as [|g seg].
  - apply Forall_app. split; [exact Hf2|]. destruct (rh && isSoft f); repeat constructor; exact H2.
  - apply Forall_app. split; [exact Hf2|]. apply Forall_app. split; [|exact IH]. destruct (isSpaced f); repeat constructor; exact H1.
Qed.
Lemma tokenText_noEsc u t : Forall (okRun u) t -> ~ In ESC (tokenText t).
Proof.
  induction 1 as [|r t Hr _ IH]; [easy|]. change (tokenText (r :: t)) with (r_text r ++ tokenText t). intros Hin. apply in_app_or in Hin.
  destruct Hin as [Hin|Hin]; [|now apply IH]. destruct Hr as [s x e _ _ _ Hx]. now apply Hx.
Qed.

Lemma greedy_in rh softOn m sp hy A tol W frs k segs : SpecGreedy.greedy rh softOn m sp hy A tol W frs k segs -> forall s f, In s segs -> In f s -> In f frs.
Proof.
  assert (forall k j f, In f (piece frs k j) -> In f frs) as K.
  { intros k' j' f H. unfold piece in H. rewrite <- (firstn_skipn (S j') frs). apply in_or_app. left. rewrite <- (firstn_skipn k' (firstn (S j') frs)). apply in_or_app. now right. }
  induction 1 as [k j _ _|k j lines _ _ _ IH]; intros s f Hs Hf; (destruct Hs as [<-|Hs]; [eapply K; eassumption|]); [destruct Hs|eauto].
Qed.

Theorem formatted_greedy A L u o m punct parts lb ts spare1 spare2 maxWidth W ord :
  plainCall A L u o m punct parts lb (map tokenText ts) spare2 maxWidth W ord ->
  (forall j x, nth_error ts j = Some x -> token A u o x (spare1 j) (spare2 j)) ->
  let greedy := greedy (l_renderHyphens o) (negb (feq A (l_hyphenPenalty o) (fZ A 10000))) m (m [32]) (hyphenW o m) A (k_tolerance (l_search o)) W
    (fragsOf u o punct parts (map tokenText ts)) 0 in
  let shows ls segs := Forall2 (fun l seg => decorated (sequencesOf (concat ts)) l (lineText (l_renderHyphens o) seg) /\ reads u l (lineText (l_renderHyphens o) seg)) ls segs in
  (forall ord' ls lb', (forall i k, Permutation (ord' i k) [C0; C1; C2; C3]) ->
     leftAlignUniform A u ord' spare1 lb (map tokenRunes ts) maxWidth = Ret (Some ls, lb') -> exists segs, greedy segs /\ shows ls segs) /\
  (forall segs, greedy segs -> exists ord' ls lb', (forall i k, Permutation (ord' i k) [C0; C1; C2; C3]) /\
     leftAlignUniform A u ord' spare1 lb (map tokenRunes ts) maxWidth = Ret (Some ls, lb') /\ shows ls segs).
Proof.
  intros C Ht g shows.
  assert (forall ord', match leftAlignUniform A u ord' spare1 lb (map tokenRunes ts) maxWidth, leftAlignUniform A u ord' spare2 lb (map tokenText ts) maxWidth with
    | Ret (Some l1, _), Ret (Some l2, _) =>
      Forall2 (fun l p => decorated (sequencesOf (concat ts)) l p /\ (~ In ESC p -> reads u l p)) l1 l2
    | Ret (None, _), Ret (None, _) => True | Panic, Panic => True | _, _ => False end) as N.
  { intros ord'. apply (format_neutral A u o lb (pc_breaker _ _ _ _ _ _ _ _ _ _ _ _ _ C) ord' spare1 spare2 ts maxWidth Ht). }
  assert (forall segs, g segs -> forall ls, Forall2 (fun l p => decorated (sequencesOf (concat ts)) l p /\ (~ In ESC p -> reads u l p)) ls
    (map (lineText (l_renderHyphens o)) segs) -> shows ls segs) as K.
  { intros segs Hg ls H.
    assert (Forall (Forall (fun f => f_text f <> [] /\ Forall (fun r => r <> ESC) (f_text f))) segs) as Hs.
    { pose proof (frs_runes A L u o m punct parts lb (map tokenText ts) (fun r => r <> ESC) (pc_settings _ _ _ _ _ _ _ _ _ _ _ _ _ C)
        (pc_breaker _ _ _ _ _ _ _ _ _ _ _ _ _ C)) as F.
      assert (Forall (fun f => f_text f <> [] /\ Forall (fun r => r <> ESC) (f_text f)) (fragsOf u o punct parts (map tokenText ts))) as F'.
      { apply F. destruct (pc_nonempty _ _ _ _ _ _ _ _ _ _ _ _ _ C) as [_ Hne]. apply Forall_forall. intros t Hin. rewrite Forall_forall in Hne. split; [now apply Hne|].
        apply in_map_iff in Hin. destruct Hin as (x & <- & Hx). apply In_nth_error in Hx. destruct Hx as [j Hj]. destruct (Ht j x Hj) as ((_ & Hok & _) & _).
        apply Forall_forall. intros r Hr ->. now apply (tokenText_noEsc u x Hok). }
      apply Forall_forall. intros s Hs. apply Forall_forall. intros f Hf. rewrite Forall_forall in F'. apply F'.
      eapply (greedy_in _ _ _ _ _ _ _ _ _ _ _ Hg); eassumption. }
    clear - H Hs. unfold shows. revert ls H. induction Hs as [|s segs Hs _ IH]; intros ls H; cbn [map] in H; inversion H as [|l p ls' ps [H1 H2] H3]; subst; constructor.
    - split; [exact H1|]. apply H2. intros Hin. pose proof (lineText_runes (fun r => r <> ESC) (l_renderHyphens o) s ltac:(discriminate) ltac:(discriminate) Hs) as P.
      rewrite Forall_forall in P. now apply (P _ Hin).
    - now apply IH. }
  split.
  - intros ord' ls lb' Hp E. specialize (N ord'). rewrite E in N.
    destruct (leftAlignUniform A u ord' spare2 lb (map tokenText ts) maxWidth) as [[[l2|] x2]|] eqn:E2; try contradiction.
    destruct (proj2 (greedy_exact A L u o m punct parts lb (map tokenText ts) spare2 maxWidth W ord C l2)) as (segs & Hg & ->); [eauto|]. exists segs. split; [exact Hg|].
    now apply K.
  - intros segs Hg. destruct (proj1 (greedy_exact A L u o m punct parts lb (map tokenText ts) spare2 maxWidth W ord C (map (lineText (l_renderHyphens o)) segs)))
      as (ord' & x2 & Hp & E2); [eauto|]. specialize (N ord'). rewrite E2 in N.
    destruct (leftAlignUniform A u ord' spare1 lb (map tokenRunes ts) maxWidth) as [[[l1|] x1]|] eqn:E1; try contradiction.
    exists ord', l1, x1. split; [exact Hp|]. split; [exact E1|]. now apply K.
Qed.
