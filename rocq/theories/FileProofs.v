(** Whole pattern files, from bytes to rules. *)
From Verif Require Import Base Unicode Utf8 SpecUtf8 Utf8Proofs Trie SpecTrie TrieProofs Dict SpecHyph DictProofs.
Local Open Scope Z_scope.

Lemma utf8s_app a : forall b bs, utf8s (a ++ b) bs -> exists b1 b2, bs = b1 ++ b2 /\ utf8s a b1 /\ utf8s b b2.
Proof.
  induction a as [|r a IH]; intros b bs H; cbn [app] in H.
  - exists [], bs. split; [reflexivity|]. split; [constructor|exact H].
  - inversion H; subst. destruct (IH _ _ H4) as (b1 & b2 & -> & H5 & H6).
    exists (bs0 ++ b1), b2. split; [apply app_assoc|]. split; [constructor; assumption|exact H6].
Qed.

Lemma utf8_byte_small r bs b : utf8 r bs -> In b bs -> b < 128 -> r = b.
Proof.
  intros H Hin Hb. inversion H; subst; cbn [In] in Hin; unfold six in *; try lia;
    repeat (destruct Hin as [Hin|Hin]; [lia|]); contradiction.
Qed.
Lemma utf8s_byte_small rs bs b : utf8s rs bs -> In b bs -> b < 128 -> In b rs.
Proof.
  induction 1 as [|r rs b0 bss H0 H IH]; intros Hin Hb; [contradiction|].
  apply in_app_or in Hin. destruct Hin as [Hin|Hin]; [left; eapply utf8_byte_small; eauto|right; auto].
Qed.

Lemma splitLines_line l rest : Forall (fun b => b <> 10) l -> forall cur,
  splitLines cur (l ++ 10 :: rest) = (rev cur ++ l) :: splitLines [] rest.
Proof.
  induction 1 as [|b l Hb Hl IH]; intros cur; cbn [app splitLines].
  - rewrite Z.eqb_refl, app_nil_r. reflexivity.
  - destruct (Z.eqb_spec b 10); [contradiction|]. rewrite IH. cbn [rev]. rewrite <- app_assoc. reflexivity.
Qed.
Lemma dropCR_keep l : Forall (fun b => b <> 13) l -> dropCR l = l.
Proof.
  intros H. unfold dropCR, byte in *. apply Forall_rev in H. destruct (rev l) as [|b t] eqn:E; [reflexivity|].
  inversion H; subst. destruct b as [|p|p]; try reflexivity.
  do 4 (try destruct p as [p|p|]; try reflexivity). congruence.
Qed.

Definition lineOk (l : list rune) : Prop := Forall (fun r => r <> 10 /\ r <> 13) l.
Lemma lineOk_bytes l bs : lineOk l -> utf8s l bs -> Forall (fun b => b <> 10) bs /\ Forall (fun b => b <> 13) bs.
Proof.
  intros Hl H. rewrite !Forall_forall. unfold lineOk in Hl. rewrite Forall_forall in Hl.
  split; intros b Hb E; subst b; apply (utf8s_byte_small _ _ _ H) in Hb; try lia; apply Hl in Hb; lia.
Qed.
Lemma utf8s_nl rest bs : utf8s (10 :: rest) bs -> exists b, bs = 10 :: b /\ utf8s rest b.
Proof.
  intros H. inversion H; subst. assert (bs0 = [10]) as -> by (eapply utf8_fun; [eassumption|]; apply utf8_1; lia).
  exists bss. split; [reflexivity|assumption].
Qed.

Lemma scanLines_text lines : Forall lineOk lines -> forall bs, utf8s (flat_map (fun l => l ++ [10]) lines) bs ->
  scanLines bs = lines.
Proof.
  induction 1 as [|l lines Hl Hls IH]; intros bs H; cbn [flat_map] in H.
  - inversion H. reflexivity.
  - rewrite <- app_assoc in H. apply utf8s_app in H. destruct H as (b1 & b2 & -> & H1 & H2).
    apply utf8s_nl in H2. destruct H2 as (b3 & -> & H3). destruct (lineOk_bytes _ _ Hl H1) as [N1 N2].
    unfold scanLines. rewrite splitLines_line by exact N1. cbn [rev app map]. rewrite dropCR_keep by exact N2.
    rewrite (runesOf_utf8s _ _ H1). f_equal. apply IH, H3.
Qed.

(** Conditions on the contents of a file. *)
Definition okLetter (u : unicode) (r : rune) : Prop :=
  isDigit u r = false /\ isSpace r = false /\ r <> 37 /\ r <> 92 /\ r <> 125.
Definition okPattern (u : unicode) (p : pattern) : Prop :=
  fst p <> [] /\ Forall (fun i => okDigit (fst i) /\ okLetter u (snd i)) (fst p) /\ okDigit (snd p).
Definition okLine (u : unicode) (l : fline) : Prop :=
  match l with Comment t => lineOk t | Patterns ps => Forall (okPattern u) ps end.
Definition okSyllable (s : list rune) : Prop :=
  s <> [] /\ Forall (fun r => isHyphenRune r = false /\ r <> 10 /\ r <> 13 /\ r <> 37 /\ r <> 92 /\ r <> 125) s.
Definition okExc (e : list rune * list (list rune)) : Prop := Forall okSyllable (fst e :: snd e).

Lemma space_10_13 r : isSpace r = false -> r <> 10 /\ r <> 13 /\ r <> 32.
Proof. intros H. repeat split; intros ->; discriminate H. Qed.
Lemma digit_char d : okDigit d -> Forall (fun r => isSpace r = false /\ r <> 37 /\ r <> 92 /\ r <> 125) (digitText d).
Proof.
  destruct d as [n|]; cbn; [|constructor]. intros H. constructor; [|constructor].
  assert (n = 0 \/ n = 1 \/ n = 2 \/ n = 3 \/ n = 4 \/ n = 5 \/ n = 6 \/ n = 7 \/ n = 8 \/ n = 9) as E by lia.
  repeat (destruct E as [->|E]; [split; [reflexivity|lia]|]). subst. split; [reflexivity|lia].
Qed.
Lemma pText_chars u p : okPattern u p ->
  pText p <> [] /\ Forall (fun r => isSpace r = false /\ r <> 37 /\ r <> 92 /\ r <> 125) (pText p).
Proof.
  destruct p as [items final]. intros (Hne & Hi & Hf). unfold pText, patternText. cbn [fst snd] in *. split.
  - destruct items as [|[d r] items]; [congruence|]. cbn [flat_map fst snd]. destruct d; discriminate.
  - apply Forall_app. split; [|apply digit_char, Hf]. clear Hne. induction Hi as [|[d r] items [H1 H2] Hi IH]; [constructor|].
    cbn [flat_map fst snd] in *. apply Forall_app. split; [|exact IH]. apply Forall_app. split; [apply digit_char, H1|].
    constructor; [|constructor]. unfold okLetter in H2. tauto.
Qed.
Lemma spaced_chars u ps : Forall (okPattern u) ps ->
  lineOk (spaced (map pText ps)) /\ (forall r, hd_error (spaced (map pText ps)) = Some r -> r <> 37 /\ r <> 92 /\ r <> 125).
Proof.
  assert (forall p, okPattern u p -> lineOk (pText p)) as L.
  { intros p Hp. destruct (pText_chars u p Hp) as [_ H]. eapply Forall_impl; [|exact H].
    intros r [Hs _]. apply space_10_13 in Hs. tauto. }
  assert (forall p rest r, okPattern u p -> hd_error (pText p ++ rest) = Some r -> r <> 37 /\ r <> 92 /\ r <> 125) as Hd.
  { intros p rest r Hp. destruct (pText_chars u p Hp) as [Hne H]. destruct (pText p); [congruence|]. cbn. intros [= <-].
    inversion H; subst. tauto. }
  induction 1 as [|p ps Hp Hps [IH _]]; [split; [constructor|discriminate]|].
  destruct ps as [|q ps].
  - cbn [map spaced]. split; [apply L, Hp|]. intros r Hr. apply (Hd p [] r Hp). rewrite app_nil_r. exact Hr.
  - change (spaced (map pText (p :: q :: ps))) with (pText p ++ 32 :: spaced (map pText (q :: ps))). split.
    + apply Forall_app. split; [apply L, Hp|]. constructor; [lia|exact IH].
    + intros r Hr. exact (Hd p _ r Hp Hr).
Qed.
Lemma fields_spaced u ps : Forall (okPattern u) ps -> stringFields [] (spaced (map pText ps)) = map pText ps.
Proof.
  assert (forall p rest, okPattern u p -> stringFields [] (pText p ++ rest) = stringFields (rev (pText p)) rest) as W.
  { intros p rest Hp. destruct (pText_chars u p Hp) as [_ H]. rewrite stringFields_word, app_nil_r; [reflexivity|].
    eapply Forall_impl; [|exact H]. intros r Hr; exact (proj1 Hr). }
  assert (forall p, okPattern u p -> rev (pText p) <> []) as R.
  { intros p Hp E. apply (f_equal (@rev rune)) in E. rewrite rev_involutive in E. destruct (pText_chars u p Hp). auto. }
  induction 1 as [|p ps Hp Hps IH]; [reflexivity|]. destruct ps as [|q ps].
  - cbn [map spaced]. rewrite <- (app_nil_r (pText p)) at 1. rewrite W by exact Hp. cbn [stringFields].
    pose proof (R p Hp). rewrite <- (rev_involutive (pText p)) at 2. destruct (rev (pText p)); [congruence|reflexivity].
  - change (spaced (map pText (p :: q :: ps))) with (pText p ++ 32 :: spaced (map pText (q :: ps))).
    rewrite W by exact Hp. cbn [stringFields]. change (isSpace 32) with true. cbn match.
    rewrite IH. pose proof (R p Hp) as Hr. change (map pText (p :: q :: ps)) with (pText p :: map pText (q :: ps)).
    rewrite <- (rev_involutive (pText p)) at 2. destruct (rev (pText p)); [congruence|reflexivity].
Qed.

Lemma hd_not_comment l : (forall r, hd_error l = Some r -> r <> 37 /\ r <> 92 /\ r <> 125) -> l <> [] -> isTeXComment l = false.
Proof.
  destruct l as [|r l]; [congruence|]. intros H _. specialize (H r eq_refl). cbn [isTeXComment hasPrefix].
  destruct (Z.eqb_spec 37 r); [lia|]. destruct (Z.eqb_spec 92 r); [lia|]. destruct (Z.eqb_spec 125 r); [lia|]. reflexivity.
Qed.
Lemma hd_not_header l : (forall r, hd_error l = Some r -> r <> 92) -> isExcHeader l = false.
Proof.
  destruct l as [|r l]; [reflexivity|]. intros H. specialize (H r eq_refl). unfold isExcHeader, exceptionsSection. cbn [hasPrefix].
  destruct (Z.eqb_spec 92 r); [lia|reflexivity].
Qed.
Lemma line_not_header u l : okLine u l -> isExcHeader (lineText l) = false.
Proof.
  intros H. apply hd_not_header. destruct l as [t|ps]; cbn [lineText].
  - intros r [= <-]. lia.
  - intros r Hr. apply (proj2 (spaced_chars u ps H)) in Hr. lia.
Qed.
Lemma line_rules u l : okLine u l ->
  map (readPattern u) (flat_map (stringFields []) (filter (fun l => negb (isTeXComment l)) [lineText l])) =
  match l with Comment _ => [] | Patterns ps => map (patternRule (toLower u)) ps end.
Proof.
  intros H. destruct l as [t|ps]; [destruct t; reflexivity|]. cbn [lineText okLine] in *. destruct ps as [|p ps]; [reflexivity|].
  cbn [filter]. rewrite hd_not_comment; [|apply (spaced_chars u), H|].
  - cbn [negb flat_map]. rewrite app_nil_r, (fields_spaced u) by exact H. rewrite map_map.
    apply map_ext_in. intros q Hq. rewrite Forall_forall in H. destruct (H q Hq) as (_ & Hi & Hf).
    unfold pText, patternRule. apply readPattern_spec; [|exact Hf]. eapply Forall_impl; [|exact Hi].
    intros i [H1 H2]. split; [exact H1|apply H2].
  - inversion H as [|? ? Hp]; subst. pose proof (pText_chars u p Hp) as [Hne _]. cbn [map spaced].
    destruct (map pText ps); destruct (pText p); congruence || discriminate.
Qed.

Lemma before_app {A} (f : A -> bool) a x b : Forall (fun y => f y = false) a -> f x = true ->
  before f (a ++ x :: b) = a /\ after f (a ++ x :: b) = b.
Proof.
  induction 1 as [|y a Hy Ha IH]; intros Hx; cbn [app before after].
  - rewrite Hx. auto.
  - rewrite Hy. destruct (IH Hx) as [-> ->]. auto.
Qed.

Lemma exc_chars e : okExc e -> lineOk (excText e) /\ isTeXComment (excText e) = false.
Proof.
  destruct e as [s ss]. unfold okExc, excText. cbn [fst snd]. revert s.
  assert (forall ss s, Forall okSyllable (s :: ss) -> lineOk (hyphenated s ss)) as L.
  { clear. induction ss as [|s' ss IH]; intros s H; inversion H as [|? ? [_ Hs] Hss]; subst; cbn [hyphenated].
    - eapply Forall_impl; [|exact Hs]. cbn. tauto.
    - apply Forall_app. split; [eapply Forall_impl; [|exact Hs]; cbn; tauto|]. constructor; [lia|apply IH, Hss]. }
  intros s H. split; [apply L, H|]. inversion H as [|? ? [Hne Hs] Hss]; subst. apply hd_not_comment.
  - destruct s as [|r s]; [congruence|]. intros r' Hr'. assert (r' = r) as -> by (destruct ss; cbn in Hr'; congruence).
    inversion Hs; subst. tauto.
  - destruct ss; destruct s; try congruence; discriminate.
Qed.

Lemma lines_rules u ls : Forall (okLine u) ls ->
  map (readPattern u) (flat_map (stringFields []) (filter (fun l => negb (isTeXComment l)) (map lineText ls))) =
  patternRulesOf (toLower u) ls.
Proof.
  induction 1 as [|l ls Hl Hls IH]; [reflexivity|]. unfold patternRulesOf in *. cbn [flat_map]. rewrite <- IH.
  refine (eq_trans _ (f_equal (fun x => x ++ _) (line_rules u l Hl))).
  rewrite <- map_app, <- flat_map_app, <- filter_app. reflexivity.
Qed.
Lemma excs_rules u excs : Forall okExc excs ->
  map (readException u) (filter (fun l => negb (isTeXComment l)) (map excText excs ++ [[125]])) =
  excRulesOf (toLower u) excs.
Proof.
  intros He. rewrite filter_app. cbn [filter].
  change (isTeXComment [125]) with true. cbn [negb]. rewrite app_nil_r. unfold excRulesOf.
  induction He as [|e excs He Hes IH]; [reflexivity|]. cbn [map filter]. rewrite (proj2 (exc_chars e He)). cbn [negb map].
  rewrite IH. f_equal. destruct e as [s ss]. unfold excText. cbn [fst snd]. apply readException_spec.
  - eapply Forall_impl; [|exact He]. intros x [Hne Hx]. split; [exact Hne|]. eapply Forall_impl; [|exact Hx]. cbn. tauto.
  - inversion He as [|? ? [Hne Hs] _]; subst. destruct s as [|r s]; [discriminate|]. intros r' [= <-]. inversion Hs; subst. tauto.
Qed.

Lemma loadFile_rules u name ls excs bs : Forall (okLine u) ls -> Forall okExc excs -> utf8s (fileText ls excs) bs ->
  (forall k, get (d_patterns (loadFile u name bs)) k = lastRule k (patternRulesOf (toLower u) ls)) /\
  (forall k, k <> [] -> get (d_exceptions (loadFile u name bs)) k = lastRule k (excRulesOf (toLower u) excs)).
Proof.
  intros Hl He Hb. unfold loadFile. rewrite (scanLines_text (fileLines ls excs)); [|clear Hb|exact Hb].
  - destruct (before_app isExcHeader (map lineText ls) excHeader (map excText excs ++ [[125]])) as [Hbef Haft].
    { apply Forall_map. eapply Forall_impl; [|exact Hl]. intros l. apply line_not_header. }
    { reflexivity. }
    destruct (loadLines_spec u name (fileLines ls excs)) as [S1 S2]. split; intros k; [|intros Hk].
    + rewrite S1. f_equal. unfold patternRules.
      exact (eq_trans (f_equal (fun x => map (readPattern u) (flat_map (stringFields [])
               (filter (fun l => negb (isTeXComment l)) x))) Hbef) (lines_rules u ls Hl)).
    + rewrite S2 by exact Hk. f_equal. unfold exceptionRules.
      exact (eq_trans (f_equal (fun x => map (readException u) (filter (fun l => negb (isTeXComment l)) x)) Haft)
               (excs_rules u excs He)).
  - apply Forall_app. split.
    + apply Forall_map. eapply Forall_impl; [|exact Hl]. intros [t|ps] H; cbn [lineText okLine] in *.
      * constructor; [lia|exact H].
      * apply (spaced_chars u), H.
    + constructor; [repeat (constructor; [lia|]); constructor|]. apply Forall_app. split.
      * apply Forall_map. eapply Forall_impl; [|exact He]. intros e H. apply exc_chars, H.
      * constructor; [|constructor]. constructor; [lia|constructor].
Qed.

Lemma patternRulesOf_length low ls k digits : lastRule k (patternRulesOf low ls) = Some digits ->
  (length digits <= S (length k))%nat.
Proof.
  unfold patternRulesOf. induction ls as [|l ls IH]; cbn [flat_map lastRule]; [discriminate|].
  rewrite lastRule_app. destruct (lastRule k (flat_map _ ls)) as [v|] eqn:E; [intros [= <-]; apply IH; reflexivity|].
  destruct l as [t|ps]; [discriminate|]. clear. induction ps as [|[items final] ps IH]; cbn [map lastRule]; [discriminate|].
  cbn [patternRule fst snd]. destruct (lastRule k (map (patternRule low) ps)); [intros [= <-]; apply IH; reflexivity|].
  destruct (list_eq_dec Z.eq_dec k _) as [->|]; [|discriminate]. intros [= <-].
  unfold patternDigits. rewrite app_length, !map_length. destruct final; cbn [length]; lia.
Qed.
