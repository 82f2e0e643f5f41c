(** Where lines are cut inside words: the word, the place in the word, and the dictionary. *)
From Verif Require Import Base Arith Unicode Split SpecSplit SplitProofs Ansi SpecAnsi Text SpecTrie Trie Dict SpecHyph DictProofs FileProofs Hyph HyphProofs Shipped
  PatUs Cache Lang ShippedProofs KP Nodes Render SpecKP Tokens Align Options Call Settings AlignProofs.

Lemma paraText_app a b : paraText (a ++ b) = paraText a ++ paraText b.
Proof. unfold paraText. apply flat_map_app. Qed.
Lemma pieces_single f w ps p : pieces f w ps -> In p ps -> single f p = false -> Forall (fun r => f r = false) p.
Proof.
  induction 1 as [|c w ps Hc _ IH|t w ps Ht Hf _ _ IH]; intros Hin Hs; [destruct Hin| |].
  - destruct Hin as [<-|Hin]; [cbn in Hs; congruence|auto].
  - destruct Hin as [<-|Hin]; [exact Hf|auto].
Qed.

(** ** The word of a soft break *)
Section Soft.
Variable punct dashes parts : list rune -> list (list rune).
Variable isMark isDash breakable : list rune -> bool.
Notation wordFrags := (wordFrags parts isDash).
Notation pieceFrags := (pieceFrags dashes parts isMark isDash breakable).
Notation tokenFrags := (tokenFrags punct dashes parts isMark isDash breakable).
Notation paragraph := (paragraph punct dashes parts isMark isDash breakable).

(** every soft break of [fs] is between the parts [x] and [y] of a word *)
Definition softs (good : list rune -> Prop) (fs : list frag) : Prop := forall a f b, fs = a ++ f :: b -> f_joint f = Soft ->
  exists before after w x y, good w /\ parts w = x ++ f_text f :: y /\ y <> [] /\
    paraText (a ++ [f]) = before ++ concat (x ++ [f_text f]) /\ paraText b = concat y ++ after.
Lemma softs_app good a b : softs good a -> softs good b -> softs good (a ++ b).
Proof.
  intros Ha Hb x f y E Hf. destruct (le_lt_dec (length a) (length x)) as [H|H].
  - assert (exists x', x = a ++ x') as (x' & ->).
    { exists (skipn (length a) x). rewrite <- (firstn_skipn (length a) x) at 1. f_equal.
      apply (f_equal (firstn (length a))) in E. rewrite firstn_app, Nat.sub_diag, firstn_all, firstn_O, app_nil_r in E.
      rewrite firstn_app in E. replace (length a - length x)%nat with 0%nat in E by lia. rewrite firstn_O, app_nil_r in E. now symmetry. }
    rewrite <- app_assoc in E. apply app_inv_head in E. destruct (Hb _ _ _ E Hf) as (be & af & w & p & q & H1 & H2 & H3 & H4 & H5).
    exists (paraText a ++ be), af, w, p, q. repeat (split; [assumption|]). split; [|exact H5].
    rewrite <- app_assoc, paraText_app, H4. now rewrite app_assoc.
  - assert (exists y', a = x ++ f :: y' /\ y = y' ++ b) as (y' & E1 & E2).
    { exists (skipn (S (length x)) a). assert (firstn (S (length x)) a = x ++ [f]) as F1.
      { apply (f_equal (firstn (S (length x)))) in E. rewrite firstn_app in E. replace (S (length x) - length a)%nat with 0%nat in E by lia.
        rewrite firstn_O, app_nil_r in E. rewrite E. change (x ++ f :: y) with (x ++ [f] ++ y). rewrite app_assoc, firstn_app.
        rewrite app_length. cbn [length]. replace (S (length x) - (length x + 1))%nat with 0%nat by lia. rewrite firstn_O, app_nil_r.
        apply firstn_all2. rewrite app_length. cbn [length]. lia. }
      split.
      - rewrite <- (firstn_skipn (S (length x)) a) at 1. rewrite F1, <- app_assoc. reflexivity.
      - rewrite <- (firstn_skipn (S (length x)) a), F1, <- !app_assoc in E. apply app_inv_head in E. cbn [app] in E. now injection E as <-. }
    destruct (Ha _ _ _ E1 Hf) as (be & af & w & p & q & H1 & H2 & H3 & H4 & H5).
    exists be, (af ++ paraText b), w, p, q. repeat (split; [assumption|]). rewrite E2, paraText_app, H5, app_assoc. reflexivity.
Qed.
Lemma softs_nil good : softs good [].
Proof. intros [|a0 a] f b E; discriminate. Qed.
Lemma softs_one good f : f_joint f <> Soft -> softs good [f].
Proof. intros H [|x [|? ?]] g b E Hg; try discriminate. injection E as <- <-. congruence. Qed.
Lemma softs_flat {T} good (g : T -> list frag) l : Forall (fun x => softs good (g x)) l -> softs good (flat_map g l).
Proof. induction 1; cbn [flat_map]; [apply softs_nil|now apply softs_app]. Qed.
Lemma softs_impl (P Q : list rune -> Prop) fs : (forall w, P w -> Q w) -> softs P fs -> softs Q fs.
Proof. intros H S a f b E Hf. destruct (S a f b E Hf) as (be & af & w & x & y & H1 & H2). exists be, af, w, x, y. split; [auto|exact H2]. Qed.

Lemma partFrags_text ps : paraText (partFrags ps) = concat ps.
Proof.
  induction ps as [|p ps IH]; [reflexivity|]. destruct ps as [|q ps]; [cbn; now rewrite !app_nil_r|].
  change (partFrags (p :: q :: ps)) with (mkFrag p false Soft :: partFrags (q :: ps)).
  change (fragText (mkFrag p false Soft) ++ paraText (partFrags (q :: ps)) = p ++ concat (q :: ps)). rewrite IH. cbn. now rewrite app_nil_r.
Qed.
Lemma partFrags_softs ps : forall a f b, partFrags ps = a ++ f :: b -> f_joint f = Soft ->
  exists x y, ps = x ++ f_text f :: y /\ y <> [] /\ paraText (a ++ [f]) = concat (x ++ [f_text f]) /\ paraText b = concat y.
Proof.
  induction ps as [|p ps IH]; intros a f b E Hf; [destruct a; discriminate|]. destruct ps as [|q ps].
  - destruct a as [|? [|? ?]]; try discriminate. injection E as <- <-. discriminate.
  - change (partFrags (p :: q :: ps)) with (mkFrag p false Soft :: partFrags (q :: ps)) in E. destruct a as [|g a].
    + injection E as <- <-. exists [], (q :: ps). split; [reflexivity|]. split; [discriminate|]. split; [|exact (partFrags_text (q :: ps))].
      cbn. now rewrite !app_nil_r.
    + injection E as <- E. destruct (IH _ _ _ E Hf) as (x & y & -> & Hy & H1 & H2). exists (p :: x), y. split; [reflexivity|]. split; [exact Hy|]. split; [|exact H2].
      change ((mkFrag p false Soft :: a) ++ [f]) with ([mkFrag p false Soft] ++ (a ++ [f])). rewrite paraText_app, H1.
      change (p :: x) with ([p] ++ x). rewrite <- app_assoc, (concat_app [p]). cbn. now rewrite !app_nil_r.
Qed.
Lemma word_softs w : isDash w = false -> softs (fun v => v = w) (wordFrags w).
Proof.
  intros Hd a f b E Hf. unfold SpecKP.wordFrags in E. rewrite Hd in E. destruct (partFrags_softs _ _ _ _ E Hf) as (x & y & H1 & H2 & H3 & H4).
  exists [], [], w, x, y. rewrite app_nil_r. cbn [app]. auto.
Qed.
Definition wordOf (t w : list rune) : Prop := exists p, In p (punct t) /\ isMark p = false /\ breakable p = true /\ In w (dashes p) /\ isDash w = false.
Lemma token_softs t : softs (wordOf t) (tokenFrags t).
Proof.
  unfold SpecKP.tokenFrags. apply softs_flat. apply Forall_forall. intros p Hp. unfold SpecKP.pieceFrags.
  destruct (isMark p) eqn:Em; [apply softs_one; discriminate|]. destruct (breakable p) eqn:Eb; [|apply softs_one; discriminate].
  apply softs_flat. apply Forall_forall. intros w Hw. unfold SpecKP.wordFrags at 1. destruct (isDash w) eqn:Ed; [apply softs_one; discriminate|].
  pose proof (word_softs w Ed) as H. unfold SpecKP.wordFrags in H. rewrite Ed in H. eapply softs_impl; [|exact H]. intros v ->. exists p. auto.
Qed.
(** no space inside a token *)
Lemma partFrags_unspaced ps : unspaced (partFrags ps).
Proof.
  induction ps as [|p ps IH]; [constructor|]. destruct ps as [|q ps]; [constructor; [reflexivity|constructor]|].
  change (partFrags (p :: q :: ps)) with (mkFrag p false Soft :: partFrags (q :: ps)). constructor; [reflexivity|exact IH].
Qed.
Lemma token_unspaced t : unspaced (tokenFrags t).
Proof.
  unfold SpecKP.tokenFrags, unspaced. apply Forall_forall. intros f Hf. apply in_flat_map in Hf as (p & _ & Hf). unfold SpecKP.pieceFrags in Hf.
  destruct (isMark p); [destruct Hf as [<-|[]]; reflexivity|]. destruct (breakable p); [|destruct Hf as [<-|[]]; reflexivity].
  apply in_flat_map in Hf as (w & _ & Hf). unfold SpecKP.wordFrags in Hf. destruct (isDash w); [destruct Hf as [<-|[]]; reflexivity|].
  pose proof (partFrags_unspaced (parts w)) as H. unfold unspaced in H. rewrite Forall_forall in H. now apply H.
Qed.
Lemma endWith_softs j good fs : j <> Soft -> unspaced fs -> softs good fs -> softs good (endWith j fs).
Proof.
  intros Hj Hu S. destruct fs as [|z fs] using rev_ind; [exact S|]. clear IHfs. rewrite endWith_snoc.
  intros a f b E Hf. destruct b as [|b1 b] using rev_ind.
  - apply app_inj_tail in E as [_ E]. subst f. cbn in Hf. congruence.
  - clear IHb. change (f :: b ++ [b1]) with ((f :: b) ++ [b1]) in E. rewrite app_assoc in E. apply app_inj_tail in E as [-> <-].
    destruct (S a f (b ++ [z])) as (be & af & w & x & y & H1 & H2 & H3 & H4 & H5); [now rewrite <- app_assoc|exact Hf|].
    exists be, (af ++ (match j with Space => [32] | _ => [] end)), w, x, y. repeat (split; [assumption|]).
    rewrite app_assoc, <- H5, !paraText_app, <- app_assoc. f_equal. apply Forall_app in Hu as [_ Hu]. inversion Hu as [|? ? Hz _]; subst.
    cbn [paraText flat_map]. rewrite !app_nil_r. unfold fragText. rewrite Hz. cbn [f_text]. rewrite app_nil_r. unfold isSpaced. cbn [f_joint]. destruct j; reflexivity.
Qed.
Lemma paragraph_softs tokens : softs (fun w => exists t, In t tokens /\ wordOf t w) (paragraph tokens).
Proof.
  induction tokens as [|t ts IH]; [apply softs_nil|].
  assert (forall j, j <> Soft -> softs (fun w => exists t', In t' (t :: ts) /\ wordOf t' w) (endWith j (tokenFrags t))) as K.
  { intros j Hj. apply endWith_softs; [exact Hj|apply token_unspaced|]. eapply softs_impl; [|apply token_softs]. intros w Hw. exists t. split; [now left|exact Hw]. }
  destruct ts as [|t2 ts]; [apply K; discriminate|].
  change (paragraph (t :: t2 :: ts)) with (endWith Space (tokenFrags t) ++ paragraph (t2 :: ts)). apply softs_app; [apply K; discriminate|].
  eapply softs_impl; [|exact IH]. intros w (t' & H1 & H2). exists t'. split; [now right|exact H2].
Qed.
End Soft.

(** ** The cuts of a call *)
Section Cuts.
Variable A : arith.
Variable L : laws A.
Variable u : unicode.
Variable o : lopts A.
Variable m : list rune -> Z.
Variable punct parts : list rune -> list (list rune).
Variable lb : breaker A.
Variable tokens : list (list rune).
Variable spare : nat -> list rune.
Variable maxWidth : F A.
Variable W : Z.
Variable ord : nat -> nat -> list fclass.
Hypothesis C : plainCall A L u o m punct parts lb tokens spare maxWidth W ord.

(** C52, C57 *)
Lemma align_cuts_words ls lb' : leftAlignUniform A u ord spare lb tokens maxWidth = Ret (Some ls, lb') ->
  exists segs, concat segs = fragsOf u o punct parts tokens /\
  Forall2 (fun l s => exists pre f, s = pre ++ [f] /\
    l = paraText pre ++ f_text f ++ (if l_renderHyphens o && isSoft f then [45] else [])) ls segs /\
  (forall pre s post, segs = pre ++ s :: post -> post <> [] -> exists l f, s = l ++ [f] /\
     match f_joint f with
     | Space => True
     | Soft => l_wordBreak o = true /\ exists t p w x y before after,
         In t tokens /\ In p (punct t) /\ 4 < zlen p /\ In w (splitAt isHyphenRune p) /\ single isHyphenRune w = false /\
         parts w = x ++ f_text f :: y /\ y <> [] /\
         paraText (concat pre ++ s) = before ++ concat (x ++ [f_text f]) /\ paraText (concat post) = concat y ++ after
     | _ => exists r, f_text f = [r] /\ (punctSplitFunc u r = true \/ isHyphenRune r = true)
     end).
Proof.
  intros E. destruct (align_cuts _ _ _ _ _ _ _ _ _ _ _ _ _ C _ _ E) as (segs & H1 & H2 & H3). exists segs. split; [exact H1|]. split; [exact H2|].
  intros pre s post Es Hp. destruct (H3 pre s post Es Hp) as (l & f & El & Hf). exists l, f. split; [exact El|].
  destruct (f_joint f) eqn:Ej; [destruct Hf as [Hf|[Hf|(Hf & _)]]; [exact Hf|discriminate|discriminate]| |exact I|destruct Hf as [Hf|[Hf|(Hf & _)]]; [exact Hf|discriminate|discriminate]].
  destruct (paragraph_softs punct (splitAt isHyphenRune) parts (single (punctSplitFunc u)) (single isHyphenRune) (fun w => l_wordBreak o && negb (zlen w <=? 4)) tokens
    (concat pre ++ l) f (concat post)) as (be & af & w & x & y & (t & Ht & p & K1 & K2 & K3 & K4 & K5) & G1 & G2 & G3 & G4).
  - change (paragraph _ _ _ _ _ _ tokens) with (fragsOf u o punct parts tokens). rewrite <- H1, Es, concat_app. cbn [concat]. rewrite El, <- !app_assoc. reflexivity.
  - exact Ej.
  - apply andb_prop in K3 as [Hw K3]. split; [exact Hw|]. exists t, p, w, x, y, be, af. repeat (split; [assumption||lia|]). split; [|exact G4].
    rewrite El, app_assoc. exact G3.
Qed.
End Cuts.

(** ** With a hyphenator made of a dictionary *)
Fixpoint ascending (from : nat) (cuts : list nat) : Prop :=
  match cuts with [] => True | c :: cuts' => (from <= c)%nat /\ ascending c cuts' end.
Lemma ascending_in cuts : forall from i, ascending from cuts -> In i cuts -> (from <= i)%nat.
Proof. induction cuts as [|c cuts IH]; intros from i H Hi; [destruct Hi|]. destruct H as [H1 H2]. destruct Hi as [<-|Hi]; [exact H1|]. specialize (IH c i H2 Hi). lia. Qed.
Lemma firstn_skipn_app {T} (w : list T) : forall a b, firstn a w ++ firstn b (skipn a w) = firstn (a + b) w.
Proof. induction w as [|r w IH]; intros a b; [destruct a, b; reflexivity|]. destruct a as [|a]; [reflexivity|]. cbn [firstn skipn app Nat.add]. now rewrite IH. Qed.
Lemma skipn_skipn_add {T} (w : list T) : forall a b, skipn b (skipn a w) = skipn (a + b) w.
Proof. induction w as [|r w IH]; intros a b; [destruct a, b; reflexivity|]. destruct a as [|a]; [reflexivity|]. cbn [skipn Nat.add]. apply IH. Qed.
Lemma cutAt_place cuts : forall from w x p y, cutAt w from cuts = x ++ p :: y -> y <> [] -> ascending from cuts ->
  exists i, In i cuts /\ concat (x ++ [p]) = firstn (i - from) w /\ concat y = skipn (i - from) w.
Proof.
  induction cuts as [|c cuts IH]; intros from w x p y E Hy Ha; cbn [cutAt] in E.
  - destruct x as [|? [|? ?]]; try discriminate. injection E as <- <-. congruence.
  - destruct Ha as [H1 H2]. destruct x as [|p0 x].
    + injection E as <- <-. exists c. split; [now left|]. cbn [app concat]. rewrite app_nil_r, concat_cutAt. auto.
    + injection E as <- E. destruct (IH _ _ _ _ _ E Hy H2) as (i & Hi & G1 & G2). pose proof (ascending_in _ _ _ H2 Hi) as Hc.
      exists i. split; [now right|]. cbn [app concat]. rewrite G1, G2, firstn_skipn_app, skipn_skipn_add.
      replace (c - from + (i - c))%nat with (i - from)%nat by lia. auto.
Qed.
Lemma keepFrom_ascending al minL minR len todo : forall prev i, (prev <= i)%nat -> ascending prev (keepFrom al minL minR len prev i todo).
Proof.
  induction todo as [|todo IH]; intros prev i H; [exact I|]. cbn [keepFrom]. destruct (_ && _ && _); [|apply IH; lia]. split; [exact H|apply IH; lia].
Qed.
Lemma keepFrom_in al minL minR len todo : forall prev i j, (prev <= i)%nat -> In j (keepFrom al minL minR len prev i todo) ->
  al j = true /\ minL <= Z.of_nat j - Z.of_nat prev /\ minR <= Z.of_nat len - Z.of_nat j.
Proof.
  induction todo as [|todo IH]; intros prev i j Hp H; [destruct H|]. cbn [keepFrom] in H. destruct (_ && _ && _) eqn:E; [|apply IH in H; [exact H|lia]].
  apply andb_prop in E as [E E3]. apply andb_prop in E as [E1 E2].
  destruct H as [<-|H]; [split; [exact E1|lia]|]. apply IH in H; [|lia]. split; [apply H|lia].
Qed.
Lemma keep_in al minL minR len j : In j (keep al minL minR len) -> al j = true /\ minL <= Z.of_nat j /\ minR <= Z.of_nat len - Z.of_nat j.
Proof. intros H. apply keepFrom_in in H; [|lia]. split; [apply H|lia]. Qed.

(** what a hyphenator with the default minima does *)
Definition placed (rules : list rune -> option (list Z)) (low : rune -> rune) (exception : option (list Z)) (w : list rune) (i : nat) : Prop :=
  2 <= Z.of_nat i /\ 2 <= zlen w - Z.of_nat i /\
  match exception with
  | Some digits => Z.odd (nth i digits 0) = true
  | None => zlen w <= 29 -> exists m, greatest rules (dotted (map low w)) (S i) m /\ Z.odd m = true
  end.
Lemma break_places u l : knows u -> exists ps : list pattern, map pText ps = patternRules (scanLines (fileOf l)) /\
  forall name w ws x p y, breakWord u (loadFile u name (fileOf l)) defaultHopts w = Ret ws -> ws = x ++ p :: y -> y <> [] ->
  exists i, concat (x ++ [p]) = firstn i w /\ concat y = skipn i w /\
    placed (fun k => lastRule k (map pRule ps)) (toLower u) (isException (loadFile u name (fileOf l)) w) w i.
Proof.
  intros Hu. destruct (lang_liang u l Hu) as (bs & ps & Eo & Hps & Hl). rewrite open_lang in Eo. injection Eo as <-. exists ps. split; [exact Hps|].
  intros name w ws x p y E Ews Hy.
  destruct (breakWord_lossless u (loadFile u name (fileOf l)) defaultHopts w ltac:(cbn; lia)) as (ws' & E' & _ & Hc & Hok). rewrite E in E'. injection E' as <-.
  destruct (Hok x p y Ews Hy) as [Hp Hq]. cbn [o_minLeft o_minRight defaultHopts] in Hp, Hq.
  assert (concat (x ++ [p]) ++ concat y = w) as Ew.
  { rewrite <- concat_app, <- Hc, Ews, <- app_assoc. reflexivity. }
  assert (2 <= zlen (concat (x ++ [p]))) as Hx by (rewrite concat_app; unfold zlen in *; rewrite app_length; cbn [concat]; rewrite app_nil_r; lia).
  set (i := length (concat (x ++ [p]))).
  assert (firstn i w = concat (x ++ [p])) as F1 by (rewrite <- Ew; unfold i; rewrite firstn_app, Nat.sub_diag, firstn_all, firstn_O, app_nil_r; reflexivity).
  assert (skipn i w = concat y) as F2 by (rewrite <- Ew; unfold i; rewrite skipn_app, Nat.sub_diag, skipn_all, skipn_O; reflexivity).
  assert (zlen w = zlen (concat (x ++ [p])) + zlen (concat y)) as Elen by (rewrite <- Ew; unfold zlen; rewrite app_length; lia).
  assert (2 <= Z.of_nat i /\ 2 <= zlen w - Z.of_nat i) as Hb by (unfold zlen in *; fold i in Hx, Elen; lia).
  exists i. split; [now symmetry|]. split; [now symmetry|]. unfold placed. split; [tauto|]. split; [tauto|].
  assert (containsHyphen w = false /\ 4 <= zlen w) as [Hh H4].
  { unfold breakWord in E. destruct (containsHyphen w); cbn [orb] in E.
    - injection E as <-. destruct x as [|? [|? ?]]; try discriminate. injection Ews as _ <-. congruence.
    - split; [reflexivity|]. lia. }
  assert (forall al, breakWord u (loadFile u name (fileOf l)) defaultHopts w = Ret (cutAt w 0 (keep al 2 2 (length w))) -> al i = true) as K.
  { intros al Ea. rewrite E in Ea. injection Ea as Ea. rewrite Ews in Ea. symmetry in Ea. destruct (cutAt_place _ _ _ _ _ _ Ea Hy) as (j & Hj & G1 & G2).
    - apply keepFrom_ascending. lia.
    - apply keep_in in Hj. destruct Hj as (Hj & _ & Hj3). rewrite Nat.sub_0_r in G1.
      assert (i = j) as -> by (unfold i; rewrite G1, firstn_length; lia). exact Hj. }
  destruct (isException _ w) as [digits|] eqn:Ex.
  - apply (K (fun i => Z.odd (nth i digits 0))).
    rewrite (breakWord_exception u (loadFile u name (fileOf l)) defaultHopts w digits); [reflexivity|exact Hh|cbn; lia|exact Ex|cbn; lia|cbn; lia].
  - intros H29. destruct (Hl name w) as (al & Ha & Eb); [|lia|exact Ex|].
    { apply Forall_forall. intros r Hr. unfold containsHyphen in Hh. destruct (isHyphenRune r) eqn:Er; [|reflexivity].
      enough (existsb isHyphenRune w = true) by congruence. apply existsb_exists. eauto. }
    destruct (Ha i) as (mx & Hg & Ho); [lia|lia|]. exists mx. split; [exact Hg|]. rewrite <- Ho. now apply K.
Qed.
Lemma us_exceptions u : exists es : list (list rune * list (list rune)), map excText es = exceptionRules (scanLines us_file) /\
  forall name w, w <> [] -> isException (loadFile u name us_file) w = lastRule w (map eRule es).
Proof.
  destruct (exceptions_checked u [] us_file _ exc_us) as (es & _ & _ & _ & H2 & H3). exists es. split; [exact H2|].
  intros name w Hw. rewrite <- (H3 w Hw). unfold isException, loadFile.
  rewrite !(fun n => proj2 (loadLines_spec u n (scanLines us_file)) w Hw). reflexivity.
Qed.

Section Dictionary.
Variable A : arith.
Variable L : laws A.
Variable u : unicode.
Hypothesis Hu : knows u.

Lemma align_places l : exists ps : list pattern, map pText ps = patternRules (scanLines (fileOf l)) /\
  forall name o m punct parts lb tokens spare maxWidth W ord, plainCall A L u o m punct parts lb tokens spare maxWidth W ord ->
  l_hyphenator o = breakWord u (loadFile u name (fileOf l)) defaultHopts -> forall ls lb',
  leftAlignUniform A u ord spare lb tokens maxWidth = Ret (Some ls, lb') ->
  exists segs, concat segs = fragsOf u o punct parts tokens /\
  Forall2 (fun l s => exists pre f, s = pre ++ [f] /\
    l = paraText pre ++ f_text f ++ (if l_renderHyphens o && isSoft f then [45] else [])) ls segs /\
  (forall pre s post, segs = pre ++ s :: post -> post <> [] -> lastSoft s = true ->
     exists t p w i before after, In t tokens /\ In p (punct t) /\ In w (splitAt isHyphenRune p) /\ w <> [] /\
       paraText (concat pre ++ s) = before ++ firstn i w /\ paraText (concat post) = skipn i w ++ after /\
       placed (fun k => lastRule k (map pRule ps)) (toLower u) (isException (loadFile u name (fileOf l)) w) w i).
Proof.
  destruct (break_places u l Hu) as (ps & Hps & K). exists ps. split; [exact Hps|].
  intros name o m punct parts lb tokens spare maxWidth W ord C Eh ls lb' E.
  destruct (align_cuts_words _ _ _ _ _ _ _ _ _ _ _ _ _ C _ _ E) as (segs & H1 & H2 & H3). exists segs. split; [exact H1|]. split; [exact H2|].
  intros pre s post Es Hp Hsoft. destruct (H3 pre s post Es Hp) as (l0 & f & -> & Hf).
  unfold lastSoft in Hsoft. rewrite rev_app_distr in Hsoft. cbn [rev app] in Hsoft. unfold isSoft in Hsoft. destruct (f_joint f) eqn:Ej; try discriminate.
  destruct Hf as (Hwb & t & p & w & x & y & be & af & T1 & T2 & T3 & T4 & T5 & T6 & T7 & T8 & T9).
  assert (w <> []) as Hw by (pose proof (splitAt_nonempty isHyphenRune p) as N; rewrite Forall_forall in N; now apply N).
  destruct (se_parts _ _ _ _ _ _ _ (pc_settings _ _ _ _ _ _ _ _ _ _ _ _ _ C) Hwb w Hw) as (Eb & _ & _). rewrite Eh in Eb.
  destruct (K name w _ _ _ _ Eb T6 T7) as (i & G1 & G2 & G3). exists t, p, w, i, be, af. rewrite G1 in T8. rewrite G2 in T9. tauto.
Qed.

Lemma default_word_breaker opts : Forall (fun opt => match opt with WithHyphenator (Some _) => False | _ => True end) opts ->
  l_hyphenator (withOptions A (defaultHyphenator u) (defaultPunctuator u) opts) = defaultHyphenator u.
Proof.
  intros H. unfold withOptions. assert (forall o, l_hyphenator o = defaultHyphenator u ->
    l_hyphenator (fold_left (applyOption A (defaultHyphenator u) (defaultPunctuator u)) opts o) = defaultHyphenator u) as K; [|now apply K].
  induction H as [|opt opts Ho _ IH]; intros o Eo; [exact Eo|]. cbn [fold_left]. apply IH.
  destruct o as [[tol bad li fl fi] ms sc wb rh hp hh pp h p mi gl]. destruct opt as [t|x|b|f|[f|]|[f|]|q|b|q]; cbn in *; try assumption; [contradiction|reflexivity].
Qed.
(** C77 *)
Lemma align_default_places : exists (ps : list pattern) (es : list (list rune * list (list rune))),
  map pText ps = patternRules (scanLines us_file) /\ map excText es = exceptionRules (scanLines us_file) /\
  forall opts, Forall (fun opt => match opt with WithHyphenator (Some _) => False | _ => True end) opts ->
  let o := withOptions A (defaultHyphenator u) (defaultPunctuator u) opts in
  forall m punct parts lb tokens spare maxWidth W ord, plainCall A L u o m punct parts lb tokens spare maxWidth W ord -> forall ls lb',
  leftAlignUniform A u ord spare lb tokens maxWidth = Ret (Some ls, lb') ->
  exists segs, concat segs = fragsOf u o punct parts tokens /\
  Forall2 (fun l s => exists pre f, s = pre ++ [f] /\
    l = paraText pre ++ f_text f ++ (if l_renderHyphens o && isSoft f then [45] else [])) ls segs /\
  (forall pre s post, segs = pre ++ s :: post -> post <> [] -> lastSoft s = true ->
     exists t p w i before after, In t tokens /\ In p (punct t) /\ In w (splitAt isHyphenRune p) /\
       paraText (concat pre ++ s) = before ++ firstn i w /\ paraText (concat post) = skipn i w ++ after /\
       placed (fun k => lastRule k (map pRule ps)) (toLower u) (lastRule w (map eRule es)) w i).
Proof.
  destruct (align_places AmericanEnglish) as (ps & Hps & K). destruct (us_exceptions u) as (es & Hes & Kes). exists ps, es. split; [exact Hps|]. split; [exact Hes|].
  intros opts Ho o m punct parts lb tokens spare maxWidth W ord C ls lb' E.
  destruct (K (defaultName usName) o m punct parts lb tokens spare maxWidth W ord C (default_word_breaker opts Ho) ls lb' E) as (segs & H1 & H2 & H3).
  exists segs. split; [exact H1|]. split; [exact H2|]. intros pre s post Es Hp Hs.
  destruct (H3 pre s post Es Hp Hs) as (t & p & w & i & be & af & T1 & T2 & T3 & Hw & T4 & T5 & T6). exists t, p, w, i, be, af.
  change (fileOf AmericanEnglish) with us_file in T6. rewrite (Kes _ _ Hw) in T6. tauto.
Qed.
End Dictionary.
