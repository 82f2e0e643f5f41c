(** Where lines are cut, in terms of the tokens, of their characters and of the parts of words. *)
From Verif Require Import Base Arith Unicode Split SpecSplit SplitProofs SpecAnsi Hyph KP Nodes Render SpecKP Tokens Align Options Call Settings AlignProofs Words.

Lemma join_app sep ts1 ts2 : ts1 <> [] -> ts2 <> [] -> joinWith sep (ts1 ++ ts2) = joinWith sep ts1 ++ sep :: joinWith sep ts2.
Proof.
  intros H1 H2. induction ts1 as [|t ts1 IH]; [congruence|]. destruct ts1 as [|t' ts1].
  - cbn [app]. destruct ts2; [congruence|]. reflexivity.
  - change (joinWith sep ((t :: t' :: ts1) ++ ts2)) with (t ++ sep :: joinWith sep ((t' :: ts1) ++ ts2)).
    change (joinWith sep (t :: t' :: ts1)) with (t ++ sep :: joinWith sep (t' :: ts1)). rewrite IH by discriminate. now rewrite <- app_assoc.
Qed.
Section Spaces.
Variable punct dashes parts : list rune -> list (list rune).
Variable isMark isDash breakable : list rune -> bool.
Notation tokenFrags := (tokenFrags punct dashes parts isMark isDash breakable).
Notation paragraph := (paragraph punct dashes parts isMark isDash breakable).
Lemma endWith_last j fs a f b : unspaced fs -> endWith j fs = a ++ f :: b -> f_joint f = Space -> b = [].
Proof.
  intros Hu E Hf. destruct fs as [|z fs _] using rev_ind; [destruct a; discriminate|]. rewrite endWith_snoc in E.
  destruct b as [|b1 b _] using rev_ind; [reflexivity|]. change (f :: b ++ [b1]) with ((f :: b) ++ [b1]) in E. rewrite app_assoc in E.
  apply app_inj_tail in E as [-> _]. apply Forall_app in Hu as [Hu _]. apply Forall_app in Hu as [_ Hu]. inversion Hu as [|? ? H _]; subst.
  unfold isSpaced in H. now rewrite Hf in H.
Qed.
Lemma spaces tokens : forall a f b, paragraph tokens = a ++ f :: b -> f_joint f = Space -> b <> [] ->
  exists ts1 ts2, tokens = ts1 ++ ts2 /\ ts1 <> [] /\ ts2 <> [] /\ b = paragraph ts2.
Proof.
  induction tokens as [|t ts IH]; intros a f b E Hf Hb; [destruct a; discriminate|]. destruct ts as [|t2 ts].
  - cbn [SpecKP.paragraph] in E. apply endWith_last in E; [congruence|apply token_unspaced|exact Hf].
  - change (paragraph (t :: t2 :: ts)) with (endWith Space (tokenFrags t) ++ paragraph (t2 :: ts)) in E.
    destruct (app_eq_app _ _ _ _ E) as (l & [[E1 E2]|[E1 E2]]).
    + destruct l as [|g l].
      * rewrite app_nil_r in E1. cbn [app] in E2. destruct (IH [] f b (Logic.eq_sym E2) Hf Hb) as (ts1 & ts2 & -> & H1 & H2 & H3).
        exists (t :: ts1), ts2. repeat split; try assumption; discriminate.
      * cbn [app] in E2. injection E2 as <- E2. pose proof (endWith_last _ _ _ _ _ (token_unspaced _ _ _ _ _ _ t) E1 Hf) as ->.
        exists [t], (t2 :: ts). repeat split; try discriminate. exact E2.
    + destruct (IH l f b E2 Hf Hb) as (ts1 & ts2 & -> & H1 & H2 & H3).
      exists (t :: ts1), ts2. repeat split; try assumption; discriminate.
Qed.
End Spaces.

Section Call.
Variable A : arith.
Variable L : laws A.
Variable u : unicode.
Variable o : lopts A.
Variable m : list rune -> Z.
Variable punct parts : list rune -> list (list rune).
Variable lb : breaker A.
Variable tokens : list (list rune).
Variable spare : nat -> list rune.
Variable maxWidth : F A.
Variable W : Z.
Variable ord : nat -> nat -> list fclass.
Hypothesis C : plainCall A L u o m punct parts lb tokens spare maxWidth W ord.

Lemma last_line ls (segs : list (list frag)) :
  Forall2 (fun l s => exists pre f, s = pre ++ [f] /\ l = paraText pre ++ f_text f ++ (if l_renderHyphens o && isSoft f then [45] else [])) ls segs ->
  Forall2 (fun l s => s <> [] /\ l = lineText (l_renderHyphens o) s) ls segs.
Proof.
  intros H. induction H as [|l s ls segs (pre & f & -> & ->) _ IH]; constructor; [|exact IH]. rewrite lineText_snoc. split; [|reflexivity].
  destruct pre; discriminate.
Qed.
Lemma plain_snoc l f : lineText false (l ++ [f]) = paraText l ++ f_text f.
Proof. rewrite lineText_snoc. cbn [andb]. now rewrite app_nil_r. Qed.

Lemma align_places ls lb' : leftAlignUniform A u ord spare lb tokens maxWidth = Ret (Some ls, lb') ->
  exists texts, length texts = length ls /\ last ls [] = last texts [] /\
  forall pre t t' post l, texts = pre ++ t :: t' :: post -> nth_error ls (length pre) = Some l ->
  exists before after,
    (exists ts1 ts2, tokens = ts1 ++ ts2 /\ ts1 <> [] /\ ts2 <> [] /\ joinWith 32 ts1 = before ++ t /\ joinWith 32 ts2 = t' ++ after /\ l = t) \/
    (joinWith 32 tokens = before ++ t ++ t' ++ after /\
     ((exists b r, t = b ++ [r] /\ (punctSplitFunc u r = true \/ isHyphenRune r = true) /\ l = t) \/
      (l_wordBreak o = true /\ exists tok p w x y b a, In tok tokens /\ In p (punct tok) /\ 4 < zlen p /\ In w (splitAt isHyphenRune p) /\
        parts w = x ++ y /\ x <> [] /\ y <> [] /\ before ++ t = b ++ concat x /\ t' ++ after = concat y ++ a /\
        l = t ++ (if l_renderHyphens o then [45] else [])))).
Proof.
  intros E. destruct (align_cuts_words _ _ _ _ _ _ _ _ _ _ _ _ _ C _ _ E) as (segs & H1 & H2 & H3).
  destruct (texts _ _ _ _ _ _ _ _ _ _ _ _ _ C) as (_ & _ & Ht). destruct (shape _ _ _ _ _ _ _ _ _ _ _ _ _ C) as (ini & fe & Es & Hfe & Hini).
  pose proof (last_line _ _ H2) as H4.
  exists (map (lineText false) segs). split; [|split].
  - rewrite map_length. clear - H2. induction H2; cbn; congruence.
  - clear H3 E. destruct segs as [|s segs _] using rev_ind.
    { inversion H4; subst. reflexivity. }
    apply Forall2_app_inv_r in H4 as (ls1 & ls2 & _ & H4 & ->). inversion H4 as [|l s' ? ? [Hs Hl] H5]; subst. inversion H5; subst.
    rewrite map_app. cbn [map]. rewrite !last_last.
    destruct s as [|f s _] using rev_ind; [congruence|]. rewrite concat_app in H1. cbn [concat] in H1. rewrite app_nil_r, app_assoc, Es in H1.
    apply app_inj_tail in H1 as [_ ->]. rewrite !lineText_snoc. unfold isSoft. rewrite Hfe, andb_false_r. reflexivity.
  - intros pre t t' post l Em Hn.
    apply map_eq_app in Em as (spre & srest & -> & <- & Em). apply map_eq_cons in Em as (s & srest' & -> & <- & Em).
    apply map_eq_cons in Em as (s' & spost & -> & <- & <-). rewrite map_length in Hn.
    destruct (H3 spre s (s' :: spost) eq_refl ltac:(discriminate)) as (pl & f & -> & Hj).
    assert (l = paraText pl ++ f_text f ++ (if l_renderHyphens o && isSoft f then [45] else []) /\ s' <> []) as [-> Hs'].
    { clear - H4 Hn. apply Forall2_app_inv_r in H4 as (ls1 & ls2 & Ha & H4 & ->). inversion H4 as [|l1 ? ls3 ? [_ Hl] H5]; subst.
      inversion H5 as [|? ? ? ? [Hs _] _]; subst.
      assert (length spre = length ls1) as Hlen by (clear - Ha; induction Ha; cbn; congruence).
      rewrite Hlen, nth_error_app2, Nat.sub_diag in Hn by lia. cbn in Hn. injection Hn as <-. split; [apply lineText_snoc|exact Hs]. }
    destruct s' as [|f' pl' _] using rev_ind; [congruence|]. clear Hs'. rewrite !plain_snoc.
    assert (exists tail, paraText (concat ((pl' ++ [f']) :: spost)) = (paraText pl' ++ f_text f') ++ tail) as (tail & Etail).
    { cbn [concat]. rewrite !paraText_app. unfold paraText at 2. cbn [flat_map]. unfold fragText. eexists. rewrite <- !app_assoc. reflexivity. }
    exists (paraText (concat spre)), tail.
    assert (fragsOf u o punct parts tokens = (concat spre ++ pl) ++ f :: concat ((pl' ++ [f']) :: spost)) as Ef.
    { rewrite <- H1, concat_app. change (concat ((pl ++ [f]) :: (pl' ++ [f']) :: spost)) with ((pl ++ [f]) ++ concat ((pl' ++ [f']) :: spost)).
      now rewrite <- !app_assoc. }
    assert (concat ((pl' ++ [f']) :: spost) <> []) as Hne by (cbn [concat]; destruct pl'; discriminate).
    set (rest := concat ((pl' ++ [f']) :: spost)) in *.
    assert (joinWith 32 tokens = (paraText (concat spre) ++ paraText pl ++ f_text f) ++ (if isSpaced f then [32] else []) ++ paraText rest) as Et.
    { rewrite <- Ht, Ef. change (f :: rest) with ([f] ++ rest). rewrite !paraText_app. unfold paraText at 3. cbn [flat_map]. unfold fragText. rewrite <- !app_assoc. reflexivity. }
    destruct (f_joint f) eqn:Ej.
    + right. unfold isSpaced in Et. rewrite Ej in Et. cbn [app] in Et. split; [rewrite Et, Etail, <- !app_assoc; reflexivity|]. left.
      destruct Hj as (r & Er & Hr). exists (paraText pl), r. unfold isSoft. rewrite Ej, andb_false_r, app_nil_r, Er. repeat split; try reflexivity. exact Hr.
    + right. unfold isSpaced in Et. rewrite Ej in Et. cbn [app] in Et. split; [rewrite Et, Etail, <- !app_assoc; reflexivity|]. right.
      destruct Hj as (Hw & tok & p & w & x & y & be & af & K1 & K2 & K3 & K4 & K5 & K6 & K7 & K8 & K9). split; [exact Hw|].
      exists tok, p, w, (x ++ [f_text f]), y, be, af. repeat (split; [assumption|]). split; [now rewrite <- app_assoc|]. split; [destruct x; discriminate|].
      split; [exact K7|]. split; [|split].
      * rewrite <- K8, !paraText_app. unfold paraText at 5. cbn [flat_map]. unfold fragText, isSpaced. rewrite Ej. now rewrite !app_nil_r.
      * now rewrite <- Etail, K9.
      * unfold isSoft. rewrite Ej, andb_true_r, <- app_assoc. reflexivity.
    + left. destruct (spaces _ _ _ _ _ _ tokens _ _ _ Ef Ej Hne) as (ts1 & ts2 & E1 & N1 & N2 & E2). exists ts1, ts2. repeat (split; [assumption|]).
      assert (paraText rest = joinWith 32 ts2) as E3.
      { rewrite E2. apply (frs_text A L u o m punct parts (pc_settings _ _ _ _ _ _ _ _ _ _ _ _ _ C) lb); [apply C|]. split; [exact N2|].
        destruct C as [_ _ _ [_ Hne'] _ _ _ _]. rewrite E1 in Hne'. now apply Forall_app in Hne'. }
      unfold isSpaced in Et. rewrite Ej, E3 in Et. rewrite E1, join_app in Et by assumption. cbn [app] in Et.
      split; [|split].
      * apply (app_inv_tail (32 :: joinWith 32 ts2)). exact Et.
      * now rewrite <- E3, Etail.
      * unfold isSoft. now rewrite Ej, andb_false_r, app_nil_r.
    + exfalso. assert (In f ini) as Hin.
      { rewrite Es in Ef. destruct rest as [|z rest' _] using rev_ind; [congruence|]. change (f :: rest' ++ [z]) with ((f :: rest') ++ [z]) in Ef.
        rewrite app_assoc in Ef. apply app_inj_tail in Ef as [-> _]. apply in_or_app. right. now left. }
      rewrite Forall_forall in Hini. exact (Hini f Hin Ej).
Qed.
End Call.
