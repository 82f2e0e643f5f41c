(** Dictionaries on which BreakWord never panics, whatever the options; the embedded files are such. *)
From Verif Require Import Base Unicode Utf8 Text SpecTrie Trie TrieProofs Dict SpecHyph SpecHyphAll DictProofs FileProofs Hyph HyphProofs HyphExact
  Shipped PatDe PatGb PatEs PatFr PatUs Cache Lang HyphTests ShippedProofs.
Local Open Scope Z_scope.

Lemma keepFrom_in al minL minR len todo : forall prev i x, In x (keepFrom al minL minR len prev i todo) -> al x = true.
Proof.
  induction todo as [|todo IH]; intros prev i x; cbn [keepFrom]; [intros []|].
  destruct (al i) eqn:E; cbn [andb]; [|apply IH]. destruct (_ && _); [|apply IH]. intros [<-|H]; [exact E|]. now apply IH in H.
Qed.
Lemma cut_returns w kept : (forall i, In i kept -> (i <= length w)%nat) -> cutOrPanic w kept = Ret (cutAt w 0 kept).
Proof.
  intros H. unfold cutOrPanic. destruct (existsb _ kept) eqn:E; [|reflexivity]. apply existsb_exists in E. destruct E as (i & Hi & E).
  apply Nat.ltb_lt in E. specialize (H i Hi). lia.
Qed.
(** No digit after the dot that ends a pattern, no digit past the end of an exception. *)
Definition bounded (d : dictionary) : Prop :=
  (forall k digits, get (d_patterns d) k = Some digits -> (length digits <= S (length k))%nat /\
     (forall k', k = k' ++ [46] -> (length digits <= length k)%nat)) /\
  (forall w pos, w <> [] -> get (d_exceptions d) w = Some pos -> (length pos <= S (length w))%nat).
Lemma bounded_returns u d o w : bounded d -> w <> [] -> exists parts, breakWord u d o w = Ret parts /\ concat parts = w.
Proof.
  intros [B1 B2] Hw.
  assert (concat [w] = w) as C1 by apply app_nil_r.
  destruct (containsHyphen w) eqn:E1; [exists [w]; split; [|exact C1]; unfold breakWord; now rewrite E1|].
  destruct (Z.ltb_spec (zlen w) (o_minLength o)) as [E2|E2].
  { exists [w]. split; [|exact C1]. apply breakWord_whole. now right. }
  destruct (isException d w) as [pos|] eqn:E3.
  - eexists. split; [rewrite (breakWord_exception_exact u d o w pos E1 E2 E3); apply cut_returns|apply concat_cutAt].
    intros i Hi. apply keepFrom_in in Hi. specialize (B2 w pos Hw E3).
    destruct (Nat.le_gt_cases i (length w)) as [|Hi']; [assumption|]. rewrite nth_overflow in Hi by lia. discriminate.
  - destruct (breakWord_exact u d o w E1 E2 E3) as (f & al & N & Hf & Ha & _ & E). eexists. split; [rewrite E; apply cut_returns|apply concat_cutAt].
    intros i Hi. apply keepFrom_in in Hi. apply Ha in Hi. destruct Hi as (_ & Ho & _).
    destruct (Nat.le_gt_cases i (length w)) as [|Hi']; [assumption|exfalso].
    destruct (Hf (S i)) as (_ & _ & [F|F]); [rewrite F in Ho; discriminate|].
    destruct F as (a & dg & (pre & k & post & Hd & Hl & Han & Hk & _ & Hg) & Hle & Hn).
    assert (S i - a < length dg)%nat as Hlt by (apply nth_error_Some; congruence).
    assert (length (wordDots u w) = length w + 2)%nat as Hlen by (unfold wordDots, dotted; cbn [length app]; rewrite app_length, map_length; cbn [length]; lia).
    pose proof Hd as Hd'. apply (f_equal (@length rune)) in Hd'. rewrite Hlen, !app_length in Hd'.
    destruct (B1 k dg Hg) as [L1 L2]. assert (length post = 0)%nat as Hp by lia. apply length_zero_iff_nil in Hp. subst post. rewrite app_nil_r in Hd.
    destruct (exists_last Hk) as (k' & x & ->).
    assert (x = 46) as ->.
    { unfold wordDots, dotted in Hd. rewrite app_assoc in Hd. change (dot :: map (toLower u) w ++ [dot]) with ((dot :: map (toLower u) w) ++ [dot]) in Hd.
      apply app_inj_tail in Hd. now destruct Hd as [_ <-]. }
    specialize (L2 k' eq_refl). cbn [length] in Hd'. lia.
Qed.

(** ** The embedded files *)
Definition dotDigit (t : str) : bool := match rev t with _ :: 46 :: _ => true | _ => false end.
Definition checkBounds (lines : list str) : bool :=
  forallb (fun t => negb (dotDigit t)) (patternRules lines) &&
  forallb (fun l => zlen (exception_mask l false []) <=? zlen (filter (fun r => negb (r =? 45)) l) + 1) (exceptionRules lines).
Lemma lastRule_In k (rules : list (list rune * list Z)) v : lastRule k rules = Some v -> In (k, v) rules.
Proof.
  induction rules as [|[k0 v0] rules IH]; cbn [lastRule]; [discriminate|]. destruct (lastRule k rules) as [v'|]; [intros H; right; now apply IH|].
  destruct (list_eq_dec _ _ _) as [->|]; [intros [= ->]; now left|discriminate].
Qed.
Lemma checked_bounded u name bs n : knows u -> checkPatterns (scanLines bs) = Some n -> checkBounds (scanLines bs) = true -> bounded (loadFile u name bs).
Proof.
  intros Hu Hc Hb. pose proof (shipped_wellFormed u name bs n Hu Hc) as Hwf.
  destruct (patterns_checked u name bs n Hu Hc) as (ps & _ & _ & _ & _ & H5 & H6).
  unfold checkBounds in Hb. apply andb_true_iff in Hb. destruct Hb as [Hb1 Hb2]. rewrite forallb_forall in Hb1, Hb2. split.
  - intros k dg Hg. split; [exact (Hwf k dg Hg)|]. intros k' ->. rewrite H6 in Hg. apply lastRule_In, in_map_iff in Hg. destruct Hg as (p & Ep & Hp).
    assert (In (pText p) (patternRules (scanLines bs))) as Ht by (rewrite <- H5; now apply in_map). specialize (Hb1 _ Ht).
    destruct p as [items fin]. unfold pRule, patternRule in Ep. cbn [fst snd] in Ep. injection Ep as Ek <-. unfold patternDigits.
    rewrite <- Ek, app_length, !map_length. destruct fin as [v|]; [exfalso|cbn [length]; lia].
    destruct (exists_last (l := items)) as (it & [od c] & ->). { intros ->. cbn in Ek. now destruct k'. }
    rewrite map_app in Ek. cbn [map snd] in Ek. apply app_inj_tail in Ek. destruct Ek as [_ ->].
    unfold dotDigit, pText, patternText in Hb1. cbn [fst snd digitText] in Hb1. rewrite flat_map_app in Hb1. cbn [flat_map fst snd] in Hb1.
    rewrite app_nil_r, !rev_app_distr in Hb1. cbn in Hb1. discriminate.
  - intros w pos Hw Hg. unfold loadFile in Hg. rewrite (proj2 (loadLines_spec u name (scanLines bs)) w Hw) in Hg.
    apply lastRule_In, in_map_iff in Hg. destruct Hg as (l & El & Hl). specialize (Hb2 l Hl). apply Z.leb_le in Hb2. unfold zlen in Hb2.
    unfold readException in El. destruct (isTeXComment l); injection El as <- <-; [cbn; lia|]. rewrite map_length. apply Nat2Z.inj_le. rewrite Nat2Z.inj_succ. exact Hb2.
Qed.
Lemma bounds_gb : checkBounds (scanLines gb_file) = true.
Proof. vm_compute. reflexivity. Qed.
Lemma bounds_es : checkBounds (scanLines es_file) = true.
Proof. vm_compute. reflexivity. Qed.
Lemma bounds_fr : checkBounds (scanLines fr_file) = true.
Proof. vm_compute. reflexivity. Qed.
Lemma bounds_de : checkBounds (scanLines de_file) = true.
Proof. vm_compute. reflexivity. Qed.
Lemma bounds_us : checkBounds (scanLines us_file) = true.
Proof. vm_compute. reflexivity. Qed.
Lemma bounds_lang l : checkBounds (scanLines (fileOf l)) = true.
Proof. destruct l; cbn [fileOf];
  match goal with
  | |- context [gb_file] => exact bounds_gb
  | |- context [es_file] => exact bounds_es
  | |- context [fr_file] => exact bounds_fr
  | |- context [de_file] => exact bounds_de
  | |- context [us_file] => exact bounds_us
  end. Qed.
Theorem shipped_returns u l name o w bs : knows u -> openFile (langToPattern l) = Some bs -> w <> [] ->
  exists parts, breakWord u (loadFile u name bs) o w = Ret parts /\ concat parts = w.
Proof.
  rewrite open_lang. intros Hu [= <-] Hw. apply bounded_returns; [|exact Hw]. eapply checked_bounded; [exact Hu|apply check_lang|apply bounds_lang].
Qed.
