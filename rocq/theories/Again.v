(** Lines read back as a text and set again. *)
From Verif Require Import Base Arith Unicode Split SpecSplit SplitProofs Ansi SpecAnsi AnsiProofs Attr Hyph KP Nodes Render SpecKP Tokens Align
  Options Call Settings AlignProofs Reuse Fresh Compare Sub.

(** ** The words of a line *)
Fixpoint lineWords (rh : bool) (seg : list frag) : list (list rune) :=
  match seg with
  | [] => []
  | [f] => [f_text f ++ (if rh && isSoft f then [45] else [])]
  | f :: seg' =>
      if isSpaced f then f_text f :: lineWords rh seg'
      else match lineWords rh seg' with [] => [f_text f] | w :: ws => (f_text f ++ w) :: ws end
  end.
Lemma lineWords_cons rh f g seg : lineWords rh (f :: g :: seg) =
  if isSpaced f then f_text f :: lineWords rh (g :: seg)
  else match lineWords rh (g :: seg) with [] => [f_text f] | w :: ws => (f_text f ++ w) :: ws end.
Proof. reflexivity. Qed.
Lemma lineWords_ne rh seg : seg <> [] -> lineWords rh seg <> [].
Proof.
  destruct seg as [|f [|g seg]]; [congruence|discriminate|]. intros _. rewrite lineWords_cons.
  destruct (isSpaced f); [discriminate|]. destruct (lineWords rh (g :: seg)); discriminate.
Qed.
Lemma join_cons sep w ws : ws <> [] -> joinWith sep (w :: ws) = w ++ sep :: joinWith sep ws.
Proof. destruct ws; [congruence|reflexivity]. Qed.
Lemma lineWords_text rh seg : joinWith 32 (lineWords rh seg) = lineText rh seg.
Proof.
  induction seg as [|f seg IH]; [reflexivity|]. destruct seg as [|g seg]; [reflexivity|]. rewrite lineWords_cons.
  change (lineText rh (f :: g :: seg)) with (f_text f ++ (if isSpaced f then [32] else []) ++ lineText rh (g :: seg)).
  pose proof (lineWords_ne rh (g :: seg) ltac:(discriminate)) as N. destruct (isSpaced f).
  - rewrite join_cons by exact N. now rewrite IH.
  - cbn [app]. destruct (lineWords rh (g :: seg)) as [|w ws]; [congruence|]. rewrite <- IH. destruct ws; [reflexivity|].
    cbn [joinWith]. now rewrite <- app_assoc.
Qed.
Lemma lineWords_all (P : rune -> Prop) rh seg : P 45 -> Forall (fun f => f_text f <> [] /\ Forall P (f_text f)) seg ->
  Forall (fun w => w <> [] /\ Forall P w) (lineWords rh seg).
Proof.
  intros P45 H. induction H as [|f seg [Hf1 Hf2] Hs IH]; [constructor|]. destruct seg as [|g seg].
  - cbn [lineWords]. constructor; [|constructor]. split; [destruct (f_text f); [congruence|discriminate]|]. apply Forall_app. split; [exact Hf2|].
    destruct (rh && isSoft f); repeat constructor. exact P45.
  - rewrite lineWords_cons. destruct (isSpaced f); [constructor; [now split|exact IH]|].
    destruct (lineWords rh (g :: seg)) as [|w ws]; [constructor; [now split|constructor]|]. inversion IH as [|? ? [Hw1 Hw2] Hws]; subst.
    constructor; [|exact Hws]. split; [destruct (f_text f); [congruence|discriminate]|]. apply Forall_app. now split.
Qed.
(** the first word *)
Lemma lineWords_first rh f seg : exists x ws, lineWords rh (f :: seg) = (f_text f ++ x) :: ws /\
  (isSoft f = false -> x = [] \/ isSpaced f = false /\ exists g seg', seg = g :: seg' /\ exists y, x = f_text g ++ y).
Proof.
  destruct seg as [|g seg].
  - exists (if rh && isSoft f then [45] else []), []. split; [reflexivity|]. intros ->. rewrite andb_false_r. now left.
  - rewrite lineWords_cons. destruct (isSpaced f) eqn:E; [exists [], (lineWords rh (g :: seg)); rewrite app_nil_r; split; [reflexivity|]; now left|].
    assert (exists y ws, lineWords rh (g :: seg) = (f_text g ++ y) :: ws) as (y & ws & Ew).
    { destruct seg as [|h seg]; [eexists _, []; reflexivity|]. rewrite lineWords_cons. destruct (isSpaced g); [exists [], (lineWords rh (h :: seg)); now rewrite app_nil_r|].
      destruct (lineWords rh (h :: seg)) as [|w ws]; [exists [], []; now rewrite app_nil_r|eauto]. }
    rewrite Ew. exists (f_text g ++ y), ws. split; [reflexivity|]. intros _. right. split; [reflexivity|]. eauto 6.
Qed.

(** ** Which fragments are marks *)
Section Heads.
Variable isP isH : rune -> bool.
Variable parts : list rune -> list (list rune).
Variable breakable : list rune -> bool.
Hypothesis Hparts : forall w p, w <> [] -> breakable p = true -> parts w <> [] /\ concat (parts w) = w.
Notation dashes := (splitAt isH).
Notation wordFrags := (wordFrags parts (single isH)).
Notation pieceFrags := (pieceFrags dashes parts (single isP) (single isH) breakable).
Notation tokenFrags := (tokenFrags (splitAt isP) dashes parts (single isP) (single isH) breakable).
Notation paragraph := (paragraph (splitAt isP) dashes parts (single isP) (single isH) breakable).

Definition nonP (t : list rune) : Prop := Forall (fun r => isP r = false) t.
Definition nonH (t : list rune) : Prop := Forall (fun r => isH r = false) t.
Definition free (f : frag) : Prop := f_mark f = true \/ nonP (f_text f) /\ nonH (f_text f).
Definition headP (fs : list frag) : Prop := exists g r c t, fs = g :: r /\ f_text g = c :: t /\ isP c = true.
Definition okHead (f : frag) (rest : list frag) : Prop :=
  free f \/ nonP (f_text f) /\ breakable (f_text f) = false /\ isSoft f = false /\ (f_joint f = Space \/ rest = [] \/ headP rest).
Fixpoint wf (fs : list frag) : Prop := match fs with [] => True | f :: rest => okHead f rest /\ wf rest end.

Lemma wf_app a b : wf a -> wf b -> (forall a' z, a = a' ++ [z] -> okHead z [] -> okHead z b) -> wf (a ++ b).
Proof.
  induction a as [|f a IH]; intros Ha Hb H; [exact Hb|]. destruct Ha as [H1 H2]. cbn [app wf]. split.
  - destruct a as [|g a]; [apply (H [] f eq_refl H1)|]. destruct H1 as [H1|(H1 & H3 & H4 & H5)]; [now left|right].
    split; [exact H1|]. split; [exact H3|]. split; [exact H4|]. destruct H5 as [H5|[H5|H5]]; [now left|discriminate|right; right].
    destruct H5 as (x & r & c & t & E & E2 & E3). injection E as <- <-. exists g, (a ++ b), c, t. now split.
  - apply IH; try assumption. intros a' z ->. apply (H (f :: a') z). reflexivity.
Qed.
Lemma wf_suffix a b : wf (a ++ b) -> wf b.
Proof. induction a as [|f a IH]; intros H; [exact H|]. apply IH, H. Qed.
Lemma wf_free fs : Forall free fs -> wf fs.
Proof. induction 1 as [|f fs H _ IH]; [exact I|]. split; [now left|exact IH]. Qed.

Lemma partFrags_free ps : nonP (concat ps) -> nonH (concat ps) -> Forall free (partFrags ps).
Proof.
  induction ps as [|p ps IH]; intros H1 H2; [constructor|]. cbn [concat] in *. apply Forall_app in H1, H2. destruct H1 as [H1 H3], H2 as [H2 H4].
  destruct ps as [|q ps]; [constructor; [right; now split|constructor]|]. constructor; [right; now split|now apply IH].
Qed.
Lemma splitAt_each g w p : In p (splitAt g w) -> single g p = true \/ Forall (fun r => g r = false) p.
Proof.
  intros H. pose proof (splitAt_pieces g w) as P. induction P as [|c w ps Hc P IH|t w ps Ht Hf Hw P IH]; [destruct H| |].
  - destruct H as [<-|H]; [left; exact Hc|now apply IH].
  - destruct H as [<-|H]; [now right|now apply IH].
Qed.
Lemma breakable_free p : breakable p = true -> nonP p -> Forall free (flat_map wordFrags (dashes p)).
Proof.
  intros Hb Hp. rewrite <- (splitAt_concat isH p) in Hp. assert (Forall (fun w => w <> []) (dashes p)) as Hn by apply splitAt_nonempty.
  pose proof (fun w => splitAt_each isH p w) as He. revert Hp Hn He. generalize (dashes p) as ws. intros ws.
  induction ws as [|w ws IH]; intros Hp Hn He; [constructor|]. cbn [concat flat_map] in *. apply Forall_app in Hp. destruct Hp as [Hp1 Hp2].
  inversion Hn as [|? ? Hw Hws]; subst. apply Forall_app. split; [|apply IH; try assumption; intros x Hx; apply He; now right].
  unfold SpecKP.wordFrags. destruct (single isH w) eqn:E; [repeat constructor|].
  destruct (He w (or_introl eq_refl)) as [E'|E']; [congruence|]. destruct (Hparts w p Hw Hb) as [_ Hc]. apply partFrags_free; rewrite Hc; assumption.
Qed.
Lemma tokenFrags_wf t : wf (tokenFrags t).
Proof.
  unfold SpecKP.tokenFrags. pose proof (splitAt_pieces isP t) as P. induction P as [|c w ps Hc P IH|t w ps Ht Hf Hw P IH]; [exact I| |].
  - cbn [flat_map]. unfold SpecKP.pieceFrags at 1. cbn [single]. rewrite Hc. cbn [app wf]. split; [left; now left|exact IH].
  - cbn [flat_map]. apply wf_app; [|exact IH|].
    + unfold SpecKP.pieceFrags. destruct (single isP t) eqn:E; [apply wf_free; repeat constructor|].
      destruct (breakable t) eqn:Eb; [now apply wf_free, breakable_free|]. split; [|exact I]. right. cbn [f_text f_joint]. repeat split; try assumption. right. now left.
    + intros a' z E [Hz|(H1 & H2 & H3 & H4)]; [now left|]. right. split; [exact H1|]. split; [exact H2|]. split; [exact H3|].
      destruct H4 as [H4|_]; [now left|]. destruct Hw as [->|(c & r & -> & Hc)].
      * right. left. remember (@nil rune) as w0 eqn:Ew in P. destruct P as [|? ? ? ? ?|? ? ? H5 ? ? ?]; [reflexivity|discriminate|]. apply app_eq_nil in Ew. tauto.
      * right. right. inversion P as [|c' w' ps' Hc' P' E1 E2|t' w' ps' H5 H6 H7 P' E1 E2]; subst.
        -- cbn [flat_map]. unfold SpecKP.pieceFrags. cbn [single]. rewrite Hc. cbn [app]. eexists _, _, c, []. repeat split. exact Hc.
        -- destruct t' as [|x t']; [congruence|]. cbn in E1. injection E1 as -> _. inversion H6; subst. congruence.
Qed.
Lemma endWith_wf j fs : wf fs -> j <> Soft -> wf (endWith j fs).
Proof.
  induction fs as [|f fs IH]; intros H Hj; [exact I|]. destruct H as [H1 H2]. destruct fs as [|g fs].
  - cbn [endWith]. split; [|exact I]. destruct H1 as [H1|(H1 & H3 & H4 & H5)]; [left; exact H1|right]. cbn [f_text f_joint]. split; [exact H1|]. split; [exact H3|].
    split; [unfold isSoft; cbn; destruct j; congruence|]. right. now left.
  - change (endWith j (f :: g :: fs)) with (f :: endWith j (g :: fs)). split; [|now apply IH].
    destruct H1 as [H1|(H1 & H3 & H4 & H5)]; [now left|right]. split; [exact H1|]. split; [exact H3|]. split; [exact H4|].
    destruct H5 as [H5|[H5|H5]]; [now left|discriminate|right; right]. destruct H5 as (x & r & c & t & E & E2 & E3). injection E as <- <-.
    destruct fs as [|h fs]; [exists (mkFrag (f_text g) (f_mark g) j), [], c, t; now split|]. exists g, (endWith j (h :: fs)), c, t. now split.
Qed.
Lemma paragraph_wf tokens : wf (paragraph tokens).
Proof.
  induction tokens as [|t ts IH]; [exact I|]. destruct ts as [|t2 ts]; [apply endWith_wf; [apply tokenFrags_wf|discriminate]|].
  change (wf (endWith Space (tokenFrags t) ++ paragraph (t2 :: ts))). apply wf_app; [apply endWith_wf; [apply tokenFrags_wf|discriminate]|exact IH|].
  intros a' z E [Hz|(H1 & H2 & H3 & H4)]; [now left|]. right. split; [exact H1|]. split; [exact H2|]. split; [exact H3|]. left.
  destruct (tokenFrags t) as [|x fs _] using rev_ind; [destruct a'; discriminate|]. rewrite endWith_snoc' in E. apply app_inj_tail in E. destruct E as [_ <-]. reflexivity.
Qed.

(** the first fragment of a word *)
Lemma splitAt_first g t x : t <> [] -> Forall (fun r => g r = false) t -> x = [] \/ (exists c r, x = c :: r /\ g c = true) ->
  splitAt g (t ++ x) = t :: splitAt g x.
Proof.
  intros Hn Ht Hx. induction Ht as [|c t Hc Ht IH]; [congruence|]. cbn [app splitAt]. rewrite Hc. destruct t as [|d t].
  - cbn [app]. destruct Hx as [->|(e & r & -> & He)]; [reflexivity|]. cbn [splitAt]. rewrite He. cbn. now rewrite He.
  - rewrite IH by discriminate. inversion Ht as [|? ? Hd _]; subst. now rewrite Hd.
Qed.
Definition firstMark (fs : list frag) : bool := match fs with f :: _ => f_mark f | [] => false end.
Lemma partFrags_first ps r : ps <> [] -> firstMark (partFrags ps ++ r) = false.
Proof. destruct ps as [|p [|q ps]]; [congruence|reflexivity|reflexivity]. Qed.
Lemma first_free c t : isP c = false -> isH c = false -> firstMark (tokenFrags (c :: t)) = false.
Proof.
  intros Hp Hh. unfold SpecKP.tokenFrags. pose proof (splitAt_head isP (c :: t)) as E. destruct (splitAt isP (c :: t)) as [|p ps]; [discriminate|].
  destruct E as (d & r & -> & w' & E). injection E as <- <-. cbn [flat_map]. unfold SpecKP.pieceFrags at 1.
  assert (single isP (c :: r) = false) as -> by (unfold single; destruct r; [exact Hp|reflexivity]).
  destruct (breakable (c :: r)) eqn:Eb; [|reflexivity].
  pose proof (splitAt_head isH (c :: r)) as E. destruct (splitAt isH (c :: r)) as [|q qs]; [discriminate|].
  destruct E as (d & r' & -> & w' & E). injection E as <- <-. cbn [flat_map]. unfold SpecKP.wordFrags at 1.
  assert (single isH (c :: r') = false) as -> by (unfold single; destruct r'; [exact Hh|reflexivity]).
  rewrite <- app_assoc. apply partFrags_first. exact (proj1 (Hparts (c :: r') _ ltac:(discriminate) Eb)).
Qed.
Lemma first_whole t x : t <> [] -> nonP t -> breakable t = false -> x = [] \/ (exists c r, x = c :: r /\ isP c = true) -> firstMark (tokenFrags (t ++ x)) = false.
Proof.
  intros Hn Hp Hb Hx. unfold SpecKP.tokenFrags. rewrite splitAt_first by assumption. cbn [flat_map]. unfold SpecKP.pieceFrags at 1.
  assert (single isP t = false) as ->.
  { unfold single. destruct t as [|c [|d t]]; [reflexivity| |reflexivity]. now inversion Hp. }
  rewrite Hb. reflexivity.
Qed.
Lemma line_first rh f seg rest : f_text f <> [] -> f_mark f = false -> wf ((f :: seg) ++ rest) ->
  exists w ws, lineWords rh (f :: seg) = w :: ws /\ firstMark (tokenFrags w) = false.
Proof.
  intros Hn Hm [H _]. destruct (lineWords_first rh f seg) as (x & ws & E & Hx). exists (f_text f ++ x), ws. split; [exact E|].
  destruct H as [[H|[H1 H2]]|(H1 & H2 & H3 & H4)]; [congruence| |].
  - destruct (f_text f) as [|c t]; [congruence|]. cbn [app]. apply first_free; [now inversion H1|now inversion H2].
  - apply first_whole; try assumption. destruct (Hx H3) as [->|(Hs & g & seg' & -> & y & ->)]; [now left|]. right.
    destruct H4 as [H4|[H4|H4]]; [unfold isSpaced in Hs; rewrite H4 in Hs; discriminate|discriminate|].
    destruct H4 as (g' & r & c & t & E1 & E2 & E3). cbn in E1. injection E1 as <- _. rewrite E2. exists c, (t ++ y). now split.
Qed.
End Heads.

(** ** Fields of lines *)
Lemma fields_skip f s b us : Forall (fun r => f r = true) s -> fields f b us -> fields f (s ++ b) us.
Proof.
  intros Hs H. destruct H as [s' Hs'|s' t rest ts Hs' Ht Hf Hr H].
  - apply fields_none. apply Forall_app. now split.
  - rewrite app_assoc. apply fields_one; try assumption. apply Forall_app. now split.
Qed.
Lemma fields_app f sep a ts b us : f sep = true -> fields f a ts -> fields f b us -> fields f (a ++ sep :: b) (ts ++ us).
Proof.
  intros Hsep Ha Hb. induction Ha as [s Hs|s t rest ts Hs Ht Hf Hr Ha IH].
  - cbn [app]. apply fields_skip; [exact Hs|]. change (sep :: b) with ([sep] ++ b). apply fields_skip; [repeat constructor; exact Hsep|exact Hb].
  - rewrite <- !app_assoc. cbn [app]. apply fields_one; try assumption. destruct Hr as [->|(c & r & -> & Hc)]; right; eexists _, _; (split; [reflexivity|assumption]).
Qed.
Lemma fields_lines f sep gs : f sep = true -> f 32 = true -> Forall (Forall (fun w => w <> [] /\ Forall (fun r => f r = false) w)) gs ->
  fields f (joinWith sep (map (joinWith 32) gs)) (concat gs).
Proof.
  intros Hsep H32 H. induction H as [|g gs Hg Hgs IH]; [constructor; constructor|]. assert (fields f (joinWith 32 g) g) as Fg.
  { apply fields_join; [exact H32|exact Hg]. }
  destruct gs as [|g2 gs]; [cbn; now rewrite app_nil_r|]. change (fields f (joinWith 32 g ++ sep :: joinWith sep (map (joinWith 32) (g2 :: gs))) (g ++ concat (g2 :: gs))).
  now apply fields_app.
Qed.
Lemma tokenizer_fields w words : tokenizerBreakWord w = Ret words -> fields isSpace w words.
Proof. intros E. unfold tokenizerBreakWord in E. destruct (fieldsFunc_fields w isSpace) as (ts & E' & H). rewrite E in E'. now injection E' as <-. Qed.

(** ** The lines of the second call *)
Section Second.
Variable A : arith.
Variable L : laws A.
Variable rh : bool.
Variable m : list rune -> Z.
Variable sp hy W : Z.
Variable tol : F A.
Hypothesis Hm : forall t, 0 <= m t.
Hypothesis Hsp : 0 <= sp.
Hypothesis Hhy : 0 <= hy.
Hypothesis HW : 0 < W <= 2 ^ 50.
Hypothesis Hno : fle A (fZ A 10000) tol = false.
Notation lineOk := (lineOk rh m sp hy A tol W).
Notation lineWidth := (lineWidth rh m sp hy).
Lemma lineOk_again b e seg seg' : lineOk b e seg = true -> lineWidth seg' = lineWidth seg ->
  (startsWithMark seg' = true -> startsWithMark seg = true) -> lastSoft seg' = false -> lineOk b e seg' = true.
Proof.
  unfold SpecKP.lineOk. intros Ho -> Hs Hl. pose proof (lineWidth_nonneg rh m sp hy Hm Hsp Hhy seg) as Hw. set (w := lineWidth seg) in *.
  assert (lineStretch rh b e seg <= lineStretch rh b e seg' <= 10000) as Hst.
  { unfold lineStretch. rewrite Hl. cbn [andb]. destruct e, (lastSoft seg && negb rh), b, (startsWithMark seg'), (startsWithMark seg); cbn; try lia;
      discriminate (Hs eq_refl). }
  unfold lineRatio in *. destruct (Z.ltb_spec w W) as [H|H]; [|exact Ho]. destruct (Z.ltb_spec 0 (lineStretch rh b e seg)) as [H1|H1].
  - destruct (Z.ltb_spec 0 (lineStretch rh b e seg')); [|lia]. unfold within in *. apply andb_prop in Ho. destruct Ho as [_ Ho].
    rewrite (proj2 (quo_low A L (W - w) (lineStretch rh b e seg') ltac:(lia) ltac:(lia))). cbn [andb].
    apply (le_trans A L) with (2 := Ho). apply (quo_mono A L); try lia. nia.
  - unfold within in Ho. rewrite Hno, andb_false_r in Ho. discriminate.
Qed.
Lemma lineWidth_end ini f j : isSoft f = false -> j <> Soft -> lineWidth (ini ++ [mkFrag (f_text f) (f_mark f) j]) = lineWidth (ini ++ [f]).
Proof.
  intros Hf Hj. induction ini as [|g ini IH].
  - cbn [app SpecKP.lineWidth]. rewrite Hf. unfold isSoft. cbn. destruct j; try congruence; reflexivity.
  - assert (forall x, x <> [] -> lineWidth (g :: x) = m (f_text g) + (if isSpaced g then sp else 0) + lineWidth x) as K by (intros x Hx; destruct x; [congruence|reflexivity]).
    cbn [app]. rewrite !K by (destruct ini; discriminate). now rewrite IH.
Qed.
End Second.

Lemma endWith_ne j fs : fs <> [] -> endWith j fs <> [].
Proof. intros H. destruct (exists_last H) as (x & y & ->). rewrite endWith_snoc'. now destruct x. Qed.
Lemma endWith_first j fs : startsWithMark (endWith j fs) = startsWithMark fs.
Proof. destruct fs as [|f [|g fs]]; reflexivity. Qed.
Lemma lastSoft_snoc ini f : lastSoft (ini ++ [f]) = isSoft f.
Proof. unfold lastSoft. now rewrite rev_app_distr. Qed.

(** fragments of texts satisfy what all runes of the tokens satisfy *)
Lemma frs_runes A L u (o : lopts A) m punct parts lb tokens (P : rune -> Prop) : settings A L u o m punct parts -> usable A u o lb ->
  Forall (fun t => t <> [] /\ Forall P t) tokens -> Forall (fun f => f_text f <> [] /\ Forall P (f_text f)) (fragsOf u o punct parts tokens).
Proof.
  intros S U Ht. destruct (settings_regular A L u o m punct parts S lb U) as (R & _ & _).
  rewrite <- (frs_eq A L u o m punct parts S lb U tokens). clear -R Ht.
  assert (forall j t, t <> [] -> Forall P t -> Forall (fun f => f_text f <> [] /\ Forall P (f_text f)) (endWith j (tokenFrags punct (splitAt isHyphenRune) parts (single (punctSplitFunc u)) (single isHyphenRune) (breakable A lb) t))) as K.
  { intros j t Hn Hb. destruct (tokenFrags_ok A L u lb m _ _ punct parts R t Hn) as [H1 H]. rewrite <- H in Hb. clear H.
    apply (Forall_map f_text (fun x => x <> [] /\ Forall P x)). rewrite endWith_text. unfold textOf in Hb. apply Forall_map.
    revert Hb H1. generalize (tokenFrags punct (splitAt isHyphenRune) parts (single (punctSplitFunc u)) (single isHyphenRune) (breakable A lb) t).
    intros l. induction l as [|x l IH]; [constructor|]. cbn [map concat]. intros Hb H1. apply Forall_app in Hb. destruct Hb. inversion H1; subst.
    constructor; [|now apply IH]. split; [|assumption]. match goal with H : fragOk _ |- _ => apply H end. }
  induction Ht as [|t ts [H1 H2] Hts IH]; [constructor|]. destruct ts as [|t2 ts]; [now apply K|].
  cbn [paragraph]. apply Forall_app. split; [now apply K|now apply IH].
Qed.

Lemma plain_sub words spare g : plainTokens words spare -> incl g words -> plainTokens g (fun _ => []).
Proof.
  intros [H1 H2] Hi. rewrite Forall_forall in H1. split; [apply Forall_forall; auto|]. intros j t Ej. apply nth_error_In, Hi in Ej.
  destruct (In_nth_error _ _ Ej) as (k & Ek). specialize (H2 k t Ek). rewrite app_nil_r. unfold zlen in *. rewrite app_length in H2. lia.
Qed.

Section Again.
Variable A : arith.
Variable L : laws A.
Variable u : unicode.
Variable o : lopts A.
Variable m : list rune -> Z.
Variable punct parts : list rune -> list (list rune).
Hypothesis S : settings A L u o m punct parts.
Variable lb : breaker A.
Hypothesis U : usable A u o lb.
Hypothesis Hadd : forall a b, m (a ++ b) = m a + m b.
Hypothesis Hpu : l_punctuator o = defaultPunctuator u.
Notation rh := (l_renderHyphens o).
Notation softOn := (negb (feq A (l_hyphenPenalty o) (fZ A 10000))).
Notation isP := (punctSplitFunc u).
Notation brk := (fun w : list rune => l_wordBreak o && negb (zlen w <=? 4)).
Notation frs := (fragsOf u o punct parts).
Notation toks := (tokenFrags (splitAt isP) (splitAt isHyphenRune) parts (single isP) (single isHyphenRune) brk).

Lemma punct_default w : w <> [] -> punct w = splitAt isP w.
Proof.
  intros Hw. destruct (se_punct _ _ _ _ _ _ _ S w Hw) as [E _]. rewrite Hpu in E. destruct (default_punctuator u w Hw) as [E' _]. rewrite E in E'. now injection E'.
Qed.
Lemma parts_ok w p : w <> [] -> brk p = true -> parts w <> [] /\ concat (parts w) = w.
Proof.
  intros Hw Hb. apply andb_prop in Hb. destruct Hb as [Hb _]. destruct (se_parts _ _ _ _ _ _ _ S Hb w Hw) as (_ & E & _). split; [|exact E].
  intros N. rewrite N in E. cbn in E. congruence.
Qed.
Lemma frs_default tokens : Forall (fun t => t <> []) tokens ->
  frs tokens = paragraph (splitAt isP) (splitAt isHyphenRune) parts (single isP) (single isHyphenRune) brk tokens.
Proof.
  intros H. unfold fragsOf. induction H as [|t ts Ht Hts IH]; [reflexivity|]. destruct ts as [|t2 ts].
  - cbn [paragraph]. unfold tokenFrags. now rewrite punct_default.
  - cbn [paragraph] in *. rewrite IH. f_equal. unfold tokenFrags. now rewrite punct_default.
Qed.
Lemma toks_ne t : t <> [] -> tokenFrags punct (splitAt isHyphenRune) parts (single isP) (single isHyphenRune) brk t <> [].
Proof.
  intros Ht N. destruct (settings_regular A L u o m punct parts S lb U) as (R & _ & E). destruct (tokenFrags_ok A L u lb m _ _ punct parts R t Ht) as [_ H].
  unfold breakable in H. rewrite E in H. replace (l_minHyphenate o) with 4 in H; [rewrite N in H; now subst t|]. symmetry.
  destruct (se_opts _ _ _ _ _ _ _ S) as (opts & ->). apply options_fixed.
Qed.
(** the lines of words *)
Fixpoint newSegs (gs : list (list (list rune))) : list (list frag) :=
  match gs with [] => [] | [g] => [frs g] | g :: gs' => endWith Space (frs g) :: newSegs gs' end.
Definition okGroup (g : list (list rune)) : Prop := g <> [] /\ Forall (fun t => t <> []) g /\ plainTokens g (fun _ => []).
Lemma group_shape g : okGroup g -> exists ini f, frs g = ini ++ [f] /\ f_joint f = End_.
Proof. intros (H1 & H2 & H3). destruct (frs_shape A L u o m punct parts S lb U g _ H3 (conj H1 H2)) as (ini & f & E & Hf & _). eauto. Qed.
Lemma newSegs_layout gs : gs <> [] -> Forall okGroup gs -> layout softOn (frs (concat gs)) (newSegs gs).
Proof.
  intros Hn H. induction H as [|g gs Hg Hgs IH]; [congruence|]. destruct (group_shape g Hg) as (ini & f & E & Hf). destruct gs as [|g2 gs].
  - cbn [concat newSegs]. rewrite app_nil_r. constructor. rewrite E. now destruct ini.
  - change (newSegs (g :: g2 :: gs)) with (endWith Space (frs g) :: newSegs (g2 :: gs)). cbn [concat]. specialize (IH ltac:(discriminate)). cbn [concat] in IH.
    destruct Hg as (G1 & G2 & _). inversion Hgs as [|? ? (G3 & _) _]; subst.
    assert (frs (g ++ g2 ++ concat gs) = endWith Space (frs g) ++ frs (g2 ++ concat gs)) as ->.
    { unfold fragsOf. apply paragraph_app; [exact G1|destruct g2; [congruence|discriminate]|]. eapply Forall_impl; [|exact G2]. intros t. apply toks_ne. }
    rewrite E, endWith_snoc'. apply lay_cut; [apply orb_true_r|exact IH].
Qed.
Lemma group_width g : okGroup g -> lineWidth rh m (m [32]) (hyphenW o m) (frs g) = m (joinWith 32 g).
Proof. intros (H1 & H2 & H3). apply (any_width A L u o m punct parts S lb U g (fun _ => []) H3 (conj H1 H2) m Hadd). Qed.
Lemma group_end j g : okGroup g -> j <> Soft -> lineWidth rh m (m [32]) (hyphenW o m) (endWith j (frs g)) = m (joinWith 32 g) /\ lastSoft (endWith j (frs g)) = false.
Proof.
  intros Hg Hj. rewrite <- (group_width g Hg). destruct (group_shape g Hg) as (ini & f & E & Hf). rewrite E, endWith_snoc', lastSoft_snoc. split.
  - apply lineWidth_end; [|exact Hj]. unfold isSoft. now rewrite Hf.
  - unfold isSoft. cbn. destruct j; congruence.
Qed.
Lemma group_last g : okGroup g -> endWith End_ (frs g) = frs g.
Proof. intros Hg. destruct (group_shape g Hg) as (ini & f & E & Hf). rewrite E, endWith_snoc'. destruct f; cbn in *. now subst. Qed.
Lemma group_first w ws : w <> [] -> Forall (fun t => t <> []) ws -> startsWithMark (frs (w :: ws)) = firstMark (toks w).
Proof.
  intros Hw Hws. rewrite frs_default by now constructor. pose proof (toks_ne w Hw) as N. unfold tokenFrags in N. rewrite punct_default in N by exact Hw.
  fold (toks w) in N. destruct (toks w) as [|f fs] eqn:E; [exfalso; now apply N|]. destruct ws as [|w2 ws]; cbn [paragraph]; rewrite E.
  - rewrite endWith_first. reflexivity.
  - destruct fs; reflexivity.
Qed.

Variable W : Z.
Hypothesis HW : 0 < W <= 2 ^ 50.
Notation tol := (k_tolerance (l_search o)).
Notation linesOk := (linesOk rh m (m [32]) (hyphenW o m) A tol W).
Notation lineOk := (lineOk rh m (m [32]) (hyphenW o m) A tol W).
Notation lineWidth := (lineWidth rh m (m [32]) (hyphenW o m)).
Notation wf := (wf isP isHyphenRune brk).
Definition softOk (f : frag) : Prop := l_wordBreak o = false -> isSoft f = false.
Lemma seg_again b e seg rest j : seg <> [] -> Forall (fun f => f_text f <> []) seg -> Forall softOk seg -> wf (seg ++ rest) ->
  okGroup (lineWords rh seg) -> j <> Soft -> lineOk b e seg = true -> lineOk b e (endWith j (frs (lineWords rh seg))) = true.
Proof.
  intros Hn Ht Hs Hw Hg Hj Ho. destruct (group_end j _ Hg Hj) as [G1 G2].
  assert (forall x, 0 <= m x) as Hm by (intros x; exact (proj1 (se_measure _ _ _ _ _ _ _ S x))).
  apply (lineOk_again A L rh m (m [32]) (hyphenW o m) W tol Hm (Hm _)) with (seg := seg); try assumption.
  - unfold hyphenW. destruct (l_wordBreak o); [apply Hm|lia].
  - apply S.
  - rewrite G1, lineWords_text. symmetry. apply width_text; [exact Hadd|reflexivity|]. intros _ f Hf Hsoft. unfold hyphenW.
    destruct (l_wordBreak o) eqn:Ew; [reflexivity|]. rewrite Forall_forall in Hs. rewrite (Hs f Hf Ew) in Hsoft. discriminate.
  - rewrite endWith_first. destruct seg as [|f seg]; [congruence|]. cbn [startsWithMark]. destruct (f_mark f) eqn:Em; [reflexivity|].
    inversion Ht as [|? ? Ht1 _]; subst. destruct (line_first isP isHyphenRune parts brk parts_ok rh f seg rest Ht1 Em Hw) as (w & ws & E & F).
    rewrite E in *. destruct Hg as (_ & Hg & _). inversion Hg; subst. rewrite group_first by assumption. congruence.
Qed.
Lemma segs_again fs segs : layout softOn fs segs -> Forall (fun f => f_text f <> []) fs -> Forall softOk fs -> wf fs ->
  Forall okGroup (map (lineWords rh) segs) -> forall b, linesOk b segs = true -> linesOk b (newSegs (map (lineWords rh) segs)) = true.
Proof.
  induction 1 as [seg Hs|seg f rest lines Hc Hl IH]; intros Ht Hso Hw Hg b Ho.
  - cbn [map newSegs SpecKP.linesOk] in *. inversion Hg as [|? ? Hg1 _]; subst. rewrite <- group_last by exact Hg1.
    apply seg_again with (rest := []); try assumption; [now rewrite app_nil_r|discriminate].
  - rewrite linesOk_cons in Ho by (eapply layout_some; exact Hl). apply andb_prop in Ho. destruct Ho as [Ho1 Ho2].
    apply Forall_app in Ht, Hso. destruct Ht as [Ht1 Ht2], Hso as [Hs1 Hs2]. cbn [map] in *. inversion Hg as [|? ? Hg1 Hg2]; subst.
    assert (lines <> []) as Hln by (eapply layout_some; exact Hl). destruct lines as [|l2 lines]; [congruence|]. cbn [map] in *.
    change (newSegs (lineWords rh (seg ++ [f]) :: lineWords rh l2 :: map (lineWords rh) lines)) with
      (endWith Space (frs (lineWords rh (seg ++ [f]))) :: newSegs (lineWords rh l2 :: map (lineWords rh) lines)).
    rewrite linesOk_cons by (destruct lines; discriminate). rewrite (IH Ht2 Hs2 (wf_suffix _ _ _ _ _ Hw) Hg2 false Ho2), andb_true_r.
    apply seg_again with (rest := rest); try assumption; [now destruct seg|discriminate].
Qed.
End Again.

(** A text whose lines were set is set again from its lines *)
Theorem align_again A L u o m punct parts tokens maxWidth W lb1 spare1 ord1 lb2 spare2 ord2 words :
  plainCall A L u o m punct parts lb1 tokens spare1 maxWidth W ord1 ->
  plainCall A L u o m punct parts lb2 words spare2 maxWidth W ord2 ->
  (forall a b, m (a ++ b) = m a + m b) -> l_punctuator o = defaultPunctuator u -> Forall (Forall (fun r => isSpace r = false)) tokens ->
  forall ls lb1', leftAlignUniform A u ord1 spare1 lb1 tokens maxWidth = Ret (Some ls, lb1') ->
  tokenizerBreakWord (joinWith 10 ls) = Ret words ->
  exists ls2 lb2', leftAlignUniform A u ord2 spare2 lb2 words maxWidth = Ret (Some ls2, lb2').
Proof.
  intros C1 C2 Hadd Hpu Hsp ls lb1' E1 Hwords. apply tokenizer_fields in Hwords. destruct (align_sound _ _ _ _ _ _ _ _ _ _ _ _ _ C1 _ _ E1) as (segs & -> & Hl & Hok).
  destruct (align_complete _ _ _ _ _ _ _ _ _ _ _ _ _ C2) as ([ls2|] & lb2' & E2 & Hn); [eauto|]. exfalso.
  apply (proj1 Hn eq_refl). clear Hn E2 E1. pose proof (pc_settings _ _ _ _ _ _ _ _ _ _ _ _ _ C2) as S.
  destruct (pc_nonempty _ _ _ _ _ _ _ _ _ _ _ _ _ C1) as [T1 T2].
  assert (Forall (fun t => t <> [] /\ Forall (fun r => isSpace r = false) t) tokens) as Ht.
  { rewrite Forall_forall in *. intros t Hin. split; [now apply T2|now apply Hsp]. }
  pose proof (frs_runes A L u o m punct parts lb1 tokens _ S (pc_breaker _ _ _ _ _ _ _ _ _ _ _ _ _ C1) Ht) as Hf.
  destruct (layout_ne _ _ _ Hl) as [Hs Hc].
  assert (Forall (Forall (fun w => w <> [] /\ Forall (fun r => isSpace r = false) w)) (map (lineWords (l_renderHyphens o)) segs)) as Hg.
  { apply Forall_map. apply Forall_forall. intros s Hin. apply lineWords_all; [reflexivity|]. apply Forall_forall. intros f Hin2. rewrite Forall_forall in Hf. apply Hf.
    eapply layout_in; eassumption. }
  assert (words = concat (map (lineWords (l_renderHyphens o)) segs)) as ->.
  { eapply fields_unique; [exact Hwords|]. replace (map (lineText (l_renderHyphens o)) segs) with (map (joinWith 32) (map (lineWords (l_renderHyphens o)) segs)).
    - now apply fields_lines.
    - rewrite map_map. apply map_ext. intros s. apply lineWords_text. }
  assert (Forall (okGroup) (map (lineWords (l_renderHyphens o)) segs)) as Ho.
  { apply Forall_forall. intros g Hin. split; [|split].
    - apply in_map_iff in Hin. destruct Hin as (s & <- & Hin). rewrite Forall_forall in Hs. now apply lineWords_ne, Hs.
    - rewrite Forall_forall in Hg. eapply Forall_impl; [|now apply Hg]. cbn; tauto.
    - apply plain_sub with (1 := pc_tokens _ _ _ _ _ _ _ _ _ _ _ _ _ C2). intros w Hw. apply in_concat. eauto. }
  pose proof (pc_breaker _ _ _ _ _ _ _ _ _ _ _ _ _ C2) as U2.
  exists (newSegs A u o punct parts (map (lineWords (l_renderHyphens o)) segs)). split.
  - apply (newSegs_layout A L u o m punct parts S lb2 U2); try assumption. destruct segs; [|discriminate]. eapply layout_some in Hl. congruence.
  - apply (segs_again A L u o m punct parts S lb2 U2 Hadd Hpu W (pc_bounds _ _ _ _ _ _ _ _ _ _ _ _ _ C2) _ _ Hl); try assumption.
    + eapply Forall_impl; [|exact Hf]. cbn; tauto.
    + apply Forall_forall. intros f Hin Ew. pose proof (nosoft_off A u o punct parts tokens Ew) as N.
      rewrite Forall_forall in N. now apply N.
    + rewrite (frs_default A L u o m punct parts S Hpu tokens T2). apply paragraph_wf. intros w p. apply (parts_ok A L u o m punct parts S).
Qed.

(** Lines of whole tokens *)
Theorem align_same A u o tokens maxWidth lb1 spare1 lb2 spare2 ord gs words :
  usable A u o lb1 -> usable A u o lb2 -> plainTokens tokens spare1 -> plainTokens words spare2 ->
  Forall (fun t => t <> [] /\ Forall (fun r => isSpace r = false) t) tokens ->
  forall ls lb1', leftAlignUniform A u ord spare1 lb1 tokens maxWidth = Ret (Some ls, lb1') ->
  concat gs = tokens -> ls = map (joinWith 32) gs -> tokenizerBreakWord (joinWith 10 ls) = Ret words ->
  words = tokens /\ exists lb2', leftAlignUniform A u ord spare2 lb2 words maxWidth = Ret (Some ls, lb2').
Proof.
  intros U1 U2 P1 P2 Ht ls lb1' E Hc Hls Hw. apply tokenizer_fields in Hw. assert (words = tokens) as ->.
  { eapply fields_unique; [exact Hw|]. subst ls tokens. apply fields_lines; [reflexivity|reflexivity|].
    clear -Ht. induction gs as [|g gs IH]; [constructor|]. cbn [concat] in Ht. apply Forall_app in Ht. destruct Ht. constructor; [assumption|now apply IH]. }
  split; [reflexivity|]. pose proof (align_reuse A u o lb1 lb2 ord spare1 spare2 tokens maxWidth U1 U2 P1 P2) as R. rewrite E in R. cbn [gbind fst] in R.
  destruct (leftAlignUniform A u ord spare2 lb2 tokens maxWidth) as [[res lb2']|]; [|discriminate]. cbn [gbind fst] in R. injection R as <-. now exists lb2'.
Qed.

(** Tokens that are never cut *)
Fixpoint spacedButLast (fs : list frag) : Prop := match fs with [] => True | [f] => isSoft f = false | f :: fs' => isSpaced f = true /\ spacedButLast fs' end.
Lemma spaced_cons f fs : spacedButLast (f :: fs) -> isSoft f = false /\ spacedButLast fs /\ (fs <> [] -> isSpaced f = true).
Proof.
  destruct fs as [|g fs]; [intros H; repeat split; [exact H|congruence]|]. intros [H1 H2]. split; [|now split].
  unfold isSpaced, isSoft in *. destruct (f_joint f); congruence.
Qed.
Lemma spaced_app a b : spacedButLast (a ++ b) -> spacedButLast a /\ spacedButLast b.
Proof.
  induction a as [|f a IH]; intros H; [now split|]. cbn [app] in H. apply spaced_cons in H. destruct H as (H1 & H2 & H3). destruct (IH H2) as [H4 H5].
  split; [|exact H5]. destruct a as [|g a]; [exact H1|]. split; [apply H3; discriminate|exact H4].
Qed.
Lemma spaced_words rh seg : spacedButLast seg -> lineWords rh seg = map f_text seg.
Proof.
  induction seg as [|f seg IH]; intros H; [reflexivity|]. destruct (spaced_cons _ _ H) as (H1 & H2 & H3). destruct seg as [|g seg].
  - cbn. now rewrite H1, andb_false_r, app_nil_r.
  - rewrite lineWords_cons, H3 by discriminate. cbn [map]. now rewrite IH.
Qed.
Lemma whole_frags punct dashes parts isMark isDash breakable tokens :
  Forall (fun t => tokenFrags punct dashes parts isMark isDash breakable t = [mkFrag t false Glued]) tokens ->
  spacedButLast (paragraph punct dashes parts isMark isDash breakable tokens) /\ map f_text (paragraph punct dashes parts isMark isDash breakable tokens) = tokens.
Proof.
  intros H. induction H as [|t ts Ht Hts [IH1 IH2]]; [now split|]. destruct ts as [|t2 ts]; cbn [paragraph]; rewrite Ht; [split; reflexivity|].
  cbn [endWith app map]. cbn [paragraph] in IH1, IH2. rewrite IH2. split; [|reflexivity]. cbn [spacedButLast].
  match goal with |- match ?x with _ => _ end => destruct x as [|f fs] eqn:E end; [reflexivity|]. split; [reflexivity|exact IH1].
Qed.
Lemma splitAt_none g t : t <> [] -> Forall (fun r => g r = false) t -> splitAt g t = [t].
Proof. intros H1 H2. rewrite <- (app_nil_r t) at 1. rewrite splitAt_first; [reflexivity|exact H1|exact H2|now left]. Qed.
Theorem align_whole A L u o m punct parts tokens maxWidth W lb spare ord :
  plainCall A L u o m punct parts lb tokens spare maxWidth W ord -> l_punctuator o = defaultPunctuator u ->
  Forall (fun t => Forall (fun r => punctSplitFunc u r = false) t /\ (l_wordBreak o = true -> zlen t <= 4)) tokens ->
  forall ls lb', leftAlignUniform A u ord spare lb tokens maxWidth = Ret (Some ls, lb') -> exists gs, concat gs = tokens /\ ls = map (joinWith 32) gs.
Proof.
  intros C Hpu Ht ls lb' E. destruct (align_sound _ _ _ _ _ _ _ _ _ _ _ _ _ C _ _ E) as (segs & -> & Hl & _). destruct (layout_ne _ _ _ Hl) as [_ Hc].
  pose proof (proj2 (pc_nonempty _ _ _ _ _ _ _ _ _ _ _ _ _ C)) as Hn.
  destruct (whole_frags punct (splitAt isHyphenRune) parts (single (punctSplitFunc u)) (single isHyphenRune) (fun w => l_wordBreak o && negb (zlen w <=? 4)) tokens) as [H1 H2].
  - rewrite Forall_forall in *. intros t Hin. destruct (Ht t Hin) as [H1 H2]. unfold tokenFrags.
    rewrite (punct_default A L u o m punct parts (pc_settings _ _ _ _ _ _ _ _ _ _ _ _ _ C) Hpu t (Hn t Hin)), (splitAt_none _ t (Hn t Hin) H1).
    cbn [flat_map]. rewrite app_nil_r. unfold pieceFrags. assert (single (punctSplitFunc u) t = false) as ->.
    { unfold single. destruct t as [|c [|d t]]; [reflexivity| |reflexivity]. now inversion H1. }
    destruct (l_wordBreak o); [|reflexivity]. specialize (H2 eq_refl). destruct (Z.leb_spec (zlen t) 4); [reflexivity|lia].
  - fold (fragsOf u o punct parts tokens) in H1, H2. rewrite <- Hc in H1, H2. exists (map (map f_text) segs). split; [now rewrite concat_map in H2|].
    rewrite map_map. clear -H1. induction segs as [|s segs IH]; [reflexivity|]. cbn [concat map] in *. apply spaced_app in H1. destruct H1 as [H1 H3].
    rewrite (IH H3), <- (spaced_words (l_renderHyphens o) s H1), lineWords_text. reflexivity.
Qed.
