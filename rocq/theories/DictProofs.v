From Verif Require Import Base Unicode Utf8 Trie SpecTrie TrieProofs Dict SpecHyph.
Local Open Scope Z_scope.

Lemma isDigit_digit u n : 0 <= n <= 9 -> isDigit u (48 + n) = true /\ atoiRune (48 + n) = n.
Proof.
  intros H. unfold isDigit, atoiRune.
  destruct (Z.leb_spec (48 + n) 255); [|lia]. destruct (Z.leb_spec 48 (48 + n)); [|lia].
  destruct (Z.leb_spec (48 + n) 57); [|lia]. cbn [andb]. split; [reflexivity|lia].
Qed.

Lemma readPattern_items u items : forall final pat pos,
  Forall (fun i => okDigit (fst i) /\ isDigit u (snd i) = false) items -> okDigit final ->
  readPattern_loop u (patternText items final) false pat pos =
  (pat ++ map (fun i => toLower u (snd i)) items, pos ++ patternDigits items final).
Proof.
  induction items as [|[d c] items IH]; intros final pat pos H Hf.
  - unfold patternText, patternDigits. cbn [flat_map app map]. destruct final as [n|]; cbn [digitText readPattern_loop].
    + destruct (isDigit_digit u n Hf) as [-> ->]. rewrite app_nil_r. reflexivity.
    + rewrite !app_nil_r. reflexivity.
  - inversion H as [|? ? [Hd Hc] Hi]; subst. cbn [fst snd] in *.
    unfold patternText. cbn [flat_map fst snd]. rewrite <- !app_assoc.
    change (flat_map (fun i => digitText (fst i) ++ [snd i]) items ++ digitText final) with (patternText items final).
    destruct d as [n|]; cbn [digitText app readPattern_loop].
    + destruct (isDigit_digit u n Hd) as [-> ->]. rewrite Hc.
      rewrite (IH final _ _ Hi Hf). cbn [map snd]. rewrite <- !app_assoc. reflexivity.
    + rewrite Hc. rewrite (IH final _ _ Hi Hf). cbn [map snd]. rewrite <- !app_assoc. reflexivity.
Qed.
Lemma readPattern_spec u items final :
  Forall (fun i => okDigit (fst i) /\ isDigit u (snd i) = false) items -> okDigit final ->
  readPattern u (patternText items final) = (map (fun i => toLower u (snd i)) items, patternDigits items final).
Proof. intros H Hf. unfold readPattern. rewrite readPattern_items by assumption. reflexivity. Qed.

(** ** Exceptions *)
Lemma mask_letters s : Forall (fun r => isHyphenRune r = false) s -> forall rest pos,
  exception_mask (s ++ rest) false pos = exception_mask rest false (pos ++ zeros s).
Proof.
  induction 1 as [|r s Hr Hs IH]; intros rest pos; cbn [app exception_mask zeros map].
  - rewrite app_nil_r. reflexivity.
  - rewrite Hr, IH. rewrite <- app_assoc. reflexivity.
Qed.
Lemma mask_letters_nil s pos : Forall (fun r => isHyphenRune r = false) s ->
  exception_mask s false pos = pos ++ zeros s.
Proof. intros H. pose proof (mask_letters s H [] pos) as E. rewrite app_nil_r in E. exact E. Qed.
Lemma mask_syllables ss : forall s b pos, Forall (fun s => s <> [] /\ Forall (fun r => isHyphenRune r = false) s) (s :: ss) ->
  exception_mask (hyphenated s ss) b pos = pos ++ (if b then tl (mask s ss) else mask s ss).
Proof.
  induction ss as [|s' ss IH]; intros s b pos H; inversion H as [|? ? [Hne Hs] Hss]; subst; cbn [hyphenated].
  - destruct s as [|r s]; [congruence|]. inversion Hs; subst.
    unfold mask. cbn [flat_map]. rewrite app_nil_r. cbn [zeros map tl].
    destruct b; cbn [exception_mask app]; rewrite H2, mask_letters_nil by assumption.
    + reflexivity.
    + rewrite <- app_assoc. reflexivity.
  - destruct s as [|r s]; [congruence|]. inversion Hs; subst. pose proof Hss as Hss'.
    inversion Hss' as [|? ? [Hne' Hs'] Hss'']; subst.
    assert (forall pos, exception_mask (s ++ 45 :: hyphenated s' ss) false pos = pos ++ zeros s ++ flat_map (fun s => 1 :: zeros (tl s)) (s' :: ss)) as E.
    { intros p. rewrite mask_letters by assumption. cbn [exception_mask]. change (isHyphenRune 45) with true. cbv iota.
      rewrite (IH s' true) by assumption. rewrite <- !app_assoc. do 2 f_equal. cbn [flat_map app]. f_equal.
      unfold mask. destruct s'; [congruence|]. reflexivity. }
    unfold mask. cbn [zeros map tl app exception_mask]. rewrite H2. destruct b; rewrite E; [reflexivity|].
    rewrite <- app_assoc. reflexivity.
Qed.

Lemma filter_hyphenated ss : forall s, Forall (Forall (fun r => isHyphenRune r = false)) (s :: ss) ->
  filter (fun r => negb (r =? 45)) (hyphenated s ss) = concat (s :: ss).
Proof.
  assert (forall s, Forall (fun r => isHyphenRune r = false) s -> filter (fun r => negb (r =? 45)) s = s) as F.
  { induction 1 as [|r s Hr Hs IH]; [reflexivity|]. cbn [filter].
    destruct (Z.eqb_spec r 45) as [->|]; [discriminate|]. cbn [negb]. rewrite IH. reflexivity. }
  induction ss as [|s' ss IH]; intros s H; inversion H; subst; cbn [hyphenated concat].
  - rewrite app_nil_r. apply F. assumption.
  - rewrite filter_app, F by assumption. cbn [filter]. change (negb (45 =? 45)) with false. cbv iota.
    rewrite IH by assumption. reflexivity.
Qed.

Lemma readException_spec u s ss :
  Forall (fun s => s <> [] /\ Forall (fun r => isHyphenRune r = false) s) (s :: ss) ->
  (forall r, hd_error s = Some r -> r <> 37 /\ r <> 92 /\ r <> 125) ->
  readException u (hyphenated s ss) = (map (toLower u) (concat (s :: ss)), mask s ss).
Proof.
  intros H Hc. unfold readException.
  assert (isTeXComment (hyphenated s ss) = false) as ->.
  { inversion H as [|? ? [Hne Hs] Hss]; subst. destruct s as [|r s]; [congruence|].
    destruct (Hc r eq_refl) as (C1 & C2 & C3).
    destruct ss; cbn [hyphenated isTeXComment app hasPrefix];
      destruct (Z.eqb_spec 37 r); try congruence; destruct (Z.eqb_spec 92 r); try congruence;
      destruct (Z.eqb_spec 125 r); try congruence; reflexivity. }
  f_equal.
  - rewrite filter_hyphenated; [reflexivity|]. eapply Forall_impl; [|exact H]. intros x [_ Hx]. exact Hx.
  - rewrite (mask_syllables ss s false []) by assumption. reflexivity.
Qed.

(** ** Loading *)
Lemma lastRule_app k a b :
  lastRule k (a ++ b) = match lastRule k b with Some v => Some v | None => lastRule k a end.
Proof.
  induction a as [|[k' v] a IH]; cbn [app lastRule].
  - destruct (lastRule k b); reflexivity.
  - rewrite IH. destruct (lastRule k b); [reflexivity|]. reflexivity.
Qed.

Lemma get_putRules rules : forall t k,
  get (fold_left putRule rules t) k = match lastRule k rules with Some v => Some v | None => get t k end.
Proof.
  induction rules as [|[k' v] rules IH]; intros t k; cbn [fold_left lastRule]; [reflexivity|].
  rewrite IH. destruct (lastRule k rules); [reflexivity|].
  unfold putRule. cbn [fst snd]. rewrite get_put. unfold keyb. destruct (list_eq_dec Z.eq_dec k k'); reflexivity.
Qed.

Definition isExcHeader (l : str) : bool := hasPrefix l exceptionsSection.

Lemma message_comment l : hasPrefix l messageSection = true -> isTeXComment l = true /\ isExcHeader l = false.
Proof.
  unfold messageSection, isExcHeader, exceptionsSection. destruct l as [|r [|r2 l]]; try discriminate.
  - intros H. cbn in H. rewrite andb_false_r in H. discriminate.
  - cbn [hasPrefix isTeXComment]. intros H.
    destruct (Z.eqb_spec 92 r) as [<-|]; [|discriminate]. destruct (Z.eqb_spec 109 r2) as [<-|]; [|discriminate].
    split; reflexivity.
Qed.

Definition patternRules (lines : list str) : list str :=
  flat_map (stringFields []) (filter (fun l => negb (isTeXComment l)) (before isExcHeader lines)).
Definition exceptionRules (lines : list str) : list str :=
  filter (fun l => negb (isTeXComment l)) (after isExcHeader lines).

Lemma load_patterns u lines : forall d k,
  get (d_patterns (load_loop u lines d)) k =
  match lastRule k (map (readPattern u) (patternRules lines)) with Some v => Some v | None => get (d_patterns d) k end.
Proof.
  induction lines as [|l lines IH]; intros d k; [reflexivity|].
  cbn [load_loop]. unfold patternRules. cbn [before].
  destruct (hasPrefix l messageSection) eqn:Em.
  - destruct (message_comment l Em) as [H1 H2]. rewrite H2. cbn [filter]. rewrite H1. cbn [negb].
    rewrite IH. reflexivity.
  - change (hasPrefix l exceptionsSection) with (isExcHeader l). destruct (isExcHeader l) eqn:Ee; [reflexivity|].
    cbn [filter]. destruct (isTeXComment l) eqn:Ec; cbn [negb].
    + rewrite IH. reflexivity.
    + cbn [flat_map]. rewrite map_app, lastRule_app, IH. unfold patternRules.
      destruct (lastRule k _); [reflexivity|]. cbn [d_patterns]. rewrite get_putRules. reflexivity.
Qed.

Lemma exceptions_filter u k ls : k <> [] ->
  lastRule k (map (readException u) ls) =
  lastRule k (map (readException u) (filter (fun l => negb (isTeXComment l)) ls)).
Proof.
  intros Hk. induction ls as [|l ls IH]; [reflexivity|]. cbn [map filter].
  destruct (isTeXComment l) eqn:E; cbn [negb map lastRule].
  - unfold readException at 1. rewrite E. rewrite IH.
    match goal with |- context [list_eq_dec ?a ?b ?c] => destruct (list_eq_dec a b c) end; [exfalso; apply Hk; assumption|].
    destruct (lastRule k (map (readException u) (filter (fun l => negb (isTeXComment l)) ls))); reflexivity.
  - rewrite IH. reflexivity.
Qed.
Lemma load_exceptions u lines : forall d k, k <> [] ->
  get (d_exceptions (load_loop u lines d)) k =
  match lastRule k (map (readException u) (exceptionRules lines)) with Some v => Some v | None => get (d_exceptions d) k end.
Proof.
  induction lines as [|l lines IH]; intros d k Hk; [reflexivity|].
  cbn [load_loop]. unfold exceptionRules. cbn [after].
  destruct (hasPrefix l messageSection) eqn:Em.
  - destruct (message_comment l Em) as [H1 H2]. rewrite H2. rewrite IH by assumption. reflexivity.
  - change (hasPrefix l exceptionsSection) with (isExcHeader l). destruct (isExcHeader l) eqn:Ee.
    + cbn [d_exceptions]. rewrite get_putRules. rewrite (exceptions_filter u k lines Hk). reflexivity.
    + destruct (isTeXComment l); rewrite IH by assumption; reflexivity.
Qed.

Lemma loadLines_spec u name lines :
  (forall k, get (d_patterns (loadLines u name lines)) k = lastRule k (map (readPattern u) (patternRules lines))) /\
  (forall k, k <> [] ->
     get (d_exceptions (loadLines u name lines)) k = lastRule k (map (readException u) (exceptionRules lines))).
Proof.
  split; intros k; [|intros Hk]; unfold loadLines.
  - rewrite load_patterns. cbn [d_patterns]. destruct (lastRule k _); [reflexivity|]. destruct k; reflexivity.
  - rewrite load_exceptions by assumption. cbn [d_exceptions]. destruct (lastRule k _); [reflexivity|]. destruct k; reflexivity.
Qed.

(** ** Fields *)
Lemma stringFields_nospace l : forall cur, Forall (fun r => isSpace r = false) cur ->
  Forall (fun t => t <> [] /\ Forall (fun r => isSpace r = false) t) (stringFields cur l).
Proof.
  induction l as [|r l IH]; intros cur Hc; cbn [stringFields].
  - destruct cur as [|c cur]; [constructor|]. constructor; [|constructor]. split; [|apply Forall_rev, Hc].
    intros E. apply (f_equal (@length rune)) in E. rewrite rev_length in E. discriminate.
  - destruct (isSpace r) eqn:E.
    + destruct cur as [|c cur]; [apply IH; constructor|]. constructor; [|apply IH; constructor].
      split; [|apply Forall_rev, Hc]. intros E'. apply (f_equal (@length rune)) in E'. rewrite rev_length in E'. discriminate.
    + apply IH. constructor; assumption.
Qed.
Lemma stringFields_word w rest : Forall (fun r => isSpace r = false) w -> forall cur,
  stringFields cur (w ++ rest) = stringFields (rev w ++ cur) rest.
Proof.
  induction 1 as [|r w Hr Hw IH]; intros cur; cbn [app stringFields rev]; [reflexivity|].
  rewrite Hr, IH, <- app_assoc. reflexivity.
Qed.
