(** strip_comments.go *)
From Verif Require Import Base Unicode Utf8 Dict Strip SpecTex DictProofs.

Lemma dropSpaces_spec sp l : exists a, l = a ++ dropSpaces sp l /\ Forall (fun r => sp r = true) a /\
  (forall r l', dropSpaces sp l = r :: l' -> sp r = false).
Proof.
  induction l as [|r l (a & E & H & K)]; [exists []; repeat split; [constructor|discriminate]|]. cbn [dropSpaces].
  destruct (sp r) eqn:Er; [exists (r :: a); split; [cbn; now rewrite <- E|]; split; [now constructor|exact K]|].
  exists []. split; [reflexivity|]. split; [constructor|]. intros r' l' E2. injection E2 as <- _. exact Er.
Qed.
Lemma trimSpace_spec l : trimmed l (trimSpace l).
Proof.
  unfold trimSpace. destruct (dropSpaces_spec isSpace l) as (a & E & H & K). set (m := dropSpaces isSpace l) in *.
  destruct (dropSpaces_spec isSpace (rev m)) as (b & E2 & H2 & K2). set (n := dropSpaces isSpace (rev m)) in *.
  assert (m = rev n ++ rev b) as Em by (rewrite <- rev_app_distr, <- E2; symmetry; apply rev_involutive).
  exists a, (rev b). split; [rewrite E at 1; now rewrite Em|]. split; [apply Forall_app; split; [exact H|now apply Forall_rev]|]. split.
  - intros r l' E3. apply (K r (l' ++ rev b)). rewrite Em, E3. reflexivity.
  - intros r l' E3. apply (K2 r (rev l')). rewrite <- (rev_involutive n), E3, rev_app_distr. reflexivity.
Qed.
Lemma trimmed_fun x l1 l2 : trimmed x l1 -> trimmed x l2 -> l1 = l2.
Proof.
  assert (forall a1 a2 (x1 x2 : list rune), a1 ++ x1 = a2 ++ x2 -> Forall (fun r => isSpace r = true) a1 -> Forall (fun r => isSpace r = true) a2 ->
    (forall r l', x1 = r :: l' -> isSpace r = false) -> (forall r l', x2 = r :: l' -> isSpace r = false) -> x1 = x2) as K.
  { induction a1 as [|y a1 IH]; intros [|z a2] x1 x2 E H1 H2 K1 K2; cbn in E; [exact E| | |].
    - inversion H2; subst. specialize (K1 _ _ eq_refl). congruence.
    - inversion H1; subst. specialize (K2 _ _ eq_refl). congruence.
    - injection E as <- E. inversion H1; inversion H2; subst. now apply (IH a2). }
  intros (a & b & E1 & H1 & P1 & Q1) (c & d & E2 & H2 & P2 & Q2). apply Forall_app in H1, H2. destruct H1 as [Ha Hb], H2 as [Hc Hd].
  assert (forall b, Forall (fun r => isSpace r = true) b -> forall l, (forall r l', l = r :: l' -> isSpace r = false) ->
    l <> [] -> forall r l', l ++ b = r :: l' -> isSpace r = false) as Hd1.
  { intros b0 _ l P Hn r l' E. destruct l as [|y l]; [congruence|]. injection E as <- _. now apply (P y l). }
  rewrite E1 in E2. destruct l1 as [|r1 l1], l2 as [|r2 l2].
  - reflexivity.
  - exfalso. assert (Forall (fun r => isSpace r = true) (c ++ (r2 :: l2) ++ d)) as F by (rewrite <- E2; now apply Forall_app).
    apply Forall_app in F. destruct F as [_ F]. inversion F; subst. specialize (P2 _ _ eq_refl). congruence.
  - exfalso. assert (Forall (fun r => isSpace r = true) (a ++ (r1 :: l1) ++ b)) as F by (rewrite E2; now apply Forall_app).
    apply Forall_app in F. destruct F as [_ F]. inversion F; subst. specialize (P1 _ _ eq_refl). congruence.
  - apply (K a c) in E2; [|assumption|assumption| |].
    2: cbn; intros r l' E; injection E as <- _; now apply (P1 r1 l1).
    2: cbn; intros r l' E; injection E as <- _; now apply (P2 r2 l2).
    apply (f_equal (@rev rune)) in E2. rewrite !rev_app_distr in E2. apply (K (rev b) (rev d)) in E2.
    + apply (f_equal (@rev rune)) in E2. now rewrite !rev_involutive in E2.
    + now apply Forall_rev.
    + now apply Forall_rev.
    + intros r l' E. apply (Q1 r (rev l')). rewrite <- (rev_involutive (r1 :: l1)), E. reflexivity.
    + intros r l' E. apply (Q2 r (rev l')). rewrite <- (rev_involutive (r2 :: l2)), E. reflexivity.
Qed.
Lemma reSpace_space r : reSpace r = true -> isSpace r = true.
Proof. unfold reSpace. intros H. apply existsb_exists in H. destruct H as (x & Hx & E). apply Z.eqb_eq in E. subst x.
  repeat (destruct Hx as [<-|Hx]; [reflexivity|]). destruct Hx. Qed.
Lemma percent_dec l : {hasPrefix l [37] = true} + {hasPrefix l [37] = false}.
Proof. destruct (hasPrefix l [37]); auto. Qed.
Lemma hasPercent l : hasPrefix l [37] = true -> exists l', l = 37 :: l'.
Proof. destruct l as [|r l]; cbn [hasPrefix]; [discriminate|]. destruct (Z.eqb_spec 37 r) as [<-|]; [eauto|discriminate]. Qed.
Lemma isPercent l : hasPrefix (37 :: l) [37] = true.
Proof. destruct l; reflexivity. Qed.
Lemma uncomment_app a b : ~ In 37 a -> uncomment (a ++ b) = a ++ uncomment b.
Proof. induction a as [|r a IH]; intros H; [reflexivity|]. cbn [app uncomment]. destruct (Z.eqb_spec r 37) as [->|]; [exfalso; apply H; now left|]. rewrite IH; [reflexivity|]. intros K. apply H. now right. Qed.
Lemma spaces_percent a : Forall (fun r => reSpace r = true) a -> ~ In 37 a.
Proof. intros H K. rewrite Forall_forall in H. specialize (H _ K). discriminate H. Qed.
Lemma texMatch_spec rest : forall group, match texMatch group rest with
  | Some g => exists x sp, g = rev group ++ x /\ Forall (fun r => reSpace r = true) sp /\ uncomment rest = x ++ sp
  | None => uncomment rest = rest
  end.
Proof.
  induction rest as [|r rest IH]; intros group.
  - cbn. reflexivity.
  - cbn [texMatch]. destruct (percent_dec (dropSpaces reSpace (r :: rest))) as [H|H]; rewrite H.
    + destruct (dropSpaces_spec reSpace (r :: rest)) as (a & E & Ha & _). apply hasPercent in H. destruct H as (l' & El). rewrite El in E.
      exists [], a. split; [now rewrite app_nil_r|]. split; [exact Ha|]. rewrite E, uncomment_app by now apply spaces_percent. cbn. now rewrite app_nil_r.
    + assert (r <> 37) as Hr by (intros ->; change (hasPrefix (37 :: rest) [37] = false) in H; rewrite isPercent in H; discriminate). cbn [uncomment]. destruct (Z.eqb_spec r 37) as [|_]; [congruence|].
      specialize (IH (r :: group)). destruct (texMatch (r :: group) rest) as [g|].
      * destruct IH as (x & sp & -> & Hs & E). exists (r :: x), sp. split; [cbn [rev]; now rewrite <- app_assoc|]. split; [exact Hs|]. now rewrite E.
      * now rewrite IH.
Qed.
Lemma trimmed_more x sp l : trimmed x l -> Forall (fun r => isSpace r = true) sp -> trimmed (x ++ sp) l.
Proof.
  intros (a & b & -> & H & P & Q) Hs. exists a, (b ++ sp). split; [now rewrite <- !app_assoc|]. split; [|now split].
  rewrite app_assoc. apply Forall_app. now split.
Qed.
Lemma strip_line l : isStripped l = false -> trimmed (uncomment l) (trimSpace (replaceComment l)).
Proof.
  destruct l as [|r rest]; intros H; [discriminate|]. cbn [isStripped] in H. assert (r <> 37) as Hr by (intros ->; rewrite isPercent in H; discriminate H).
  unfold replaceComment. pose proof (texMatch_spec rest [r]) as K. cbn [uncomment]. destruct (Z.eqb_spec r 37) as [|_]; [congruence|].
  destruct (texMatch [r] rest) as [g|].
  - destruct K as (x & sp & -> & Hs & ->). change (r :: x ++ sp) with ((rev [r] ++ x) ++ sp). apply trimmed_more; [apply trimSpace_spec|].
    eapply Forall_impl; [|exact Hs]. apply reSpace_space.
  - rewrite K. apply trimSpace_spec.
Qed.

(** ** Words *)
Lemma splitWords_space a l : Forall (fun r => isSpace r = true) a -> a <> [] -> splitWords (a ++ l) = ([], words l).
Proof.
  induction 1 as [|r a Hr H IH]; [congruence|]. intros _. cbn [app splitWords]. destruct a as [|r2 a].
  - cbn [app]. unfold words. destruct (splitWords l). now rewrite Hr.
  - rewrite IH by discriminate. rewrite Hr. reflexivity.
Qed.
Lemma words_space a l : Forall (fun r => isSpace r = true) a -> words (a ++ l) = words l.
Proof. intros H. destruct a as [|r a]; [reflexivity|]. unfold words at 1. rewrite splitWords_space by (assumption || discriminate). reflexivity. Qed.
Lemma words_join l k c : isSpace c = true -> splitWords (l ++ c :: k) = let (w, ws) := splitWords l in
  match ws with
  | [] => (w, words k)
  | _ => (w, ws ++ words k)
  end.
Proof.
  intros Hc. induction l as [|r l IH].
  - cbn [app splitWords]. unfold words. destruct (splitWords k) as [w ws]. rewrite Hc. reflexivity.
  - cbn [app splitWords]. rewrite IH. destruct (splitWords l) as [w ws]. destruct ws as [|x ws].
    + destruct (isSpace r); [|reflexivity]. destruct w; reflexivity.
    + destruct (isSpace r); [|reflexivity]. destruct w; reflexivity.
Qed.
Lemma words_cut l k c : isSpace c = true -> words (l ++ c :: k) = words l ++ words k.
Proof. intros Hc. unfold words at 1 2. rewrite words_join by exact Hc. destruct (splitWords l) as [w [|x ws]]; destruct w; reflexivity. Qed.
Lemma words_end l b : Forall (fun r => isSpace r = true) b -> words (l ++ b) = words l.
Proof. intros H. destruct H as [|c b Hc Hb]; [now rewrite app_nil_r|]. rewrite words_cut by exact Hc. rewrite <- (app_nil_r b), words_space by exact Hb. apply app_nil_r. Qed.
Lemma trimmed_words x l : trimmed x l -> words l = words x.
Proof.
  intros (a & b & -> & H & _). apply Forall_app in H. destruct H as [Ha Hb]. rewrite words_space by exact Ha. symmetry. now apply words_end.
Qed.
Lemma stripped_none l : isStripped l = true -> uncomment l = [].
Proof. destruct l as [|r l]; [reflexivity|]. cbn [isStripped uncomment]. intros H. apply hasPercent in H. destruct H as (l' & E). injection E as -> _. reflexivity. Qed.
Lemma uncomment_clean l : ~ In 37 (uncomment l).
Proof. induction l as [|r l IH]; [tauto|]. cbn [uncomment]. destruct (Z.eqb_spec r 37); [tauto|]. intros [E|E]; [congruence|tauto]. Qed.
Lemma strip_spec lines :
  Forall2 (fun l out => trimmed (uncomment l) out /\ ~ In 37 out) (filter (fun l => negb (isStripped l)) lines) (stripLines lines) /\
  flat_map words (stripLines lines) = flat_map (fun l => words (uncomment l)) lines.
Proof.
  induction lines as [|l lines [I1 I2]]; [split; [constructor|reflexivity]|]. unfold stripLines in *. cbn [filter flat_map].
  destruct (isStripped l) eqn:E; cbn [negb].
  - rewrite (stripped_none l E). split; assumption.
  - pose proof (strip_line l E) as T. cbn [map flat_map]. split.
    + constructor; [|exact I1]. split; [exact T|]. destruct T as (a & b & Eu & _). intros K. apply (uncomment_clean l). rewrite Eu. apply in_or_app. right. apply in_or_app. now left.
    + rewrite I2. f_equal. now apply trimmed_words.
Qed.
