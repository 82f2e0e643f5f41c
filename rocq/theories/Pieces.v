(** The pieces of a part stripped again: a run of consecutive items of a lexing is a lexing. *)
From Verif Require Import Base Unicode Split SpecSplit Ansi SpecAnsi AnsiProofs.

Section Pieces.
Variable u : unicode.

Lemma lexed_inv i is l : lexed u l (i :: is) -> exists l', l = runesIn i ++ l' /\ lexed u l' is.
Proof. inversion 1; subst; cbn [runesIn app]; eauto using lx_nil. Qed.

(** The beginning of a lexing. *)
Lemma lexed_begin a : forall b l, lexed u l (a ++ b) -> lexed u (concat (map runesIn a)) a.
Proof.
  induction a as [|i a IH]; intros b l H; [constructor|].
  cbn [app] in H. inversion H; subst; cbn [map concat runesIn app].
  - apply lx_chr; [assumption|]. eapply IH; eassumption.
  - match goal with E : [] = a ++ b |- _ => symmetry in E; apply app_eq_nil in E; destruct E as [-> ->] end. apply lx_esc.
  - apply lx_esc2; [assumption|]. eapply IH; eassumption.
  - match goal with Hl : lexed u _ (a ++ b), Hc : csi u _ _ _ |- _ => rename Hl into L; rename Hc into C end.
    apply lx_csi; [|eapply IH; eassumption]. inversion C as [? ps first f k0 P D S K|? ps first f P|ps first P]; subst.
    + eapply csi_done; eassumption.
    + eapply csi_long; eassumption.
    + apply lexed_unique with (is2 := []) in L; [|constructor]. apply app_eq_nil in L. destruct L as [-> ->]. eapply csi_cut; eassumption.
Qed.

(** The end of a lexing. *)
Lemma lexed_end a : forall b l, lexed u l (a ++ b) -> lexed u (concat (map runesIn b)) b.
Proof.
  induction a as [|i a IH]; intros b l H.
  - pose proof (lexed_runes _ _ _ H) as E. cbn [app] in *. now rewrite E.
  - cbn [app] in H. apply lexed_inv in H. destruct H as (l' & _ & H). eauto.
Qed.

Lemma lexed_mid a b c l : lexed u l (a ++ b ++ c) -> lexed u (concat (map runesIn b)) b.
Proof. intros H. apply lexed_end in H. eapply lexed_begin; eauto. Qed.

Definition isChr (i : item) : Prop := exists l, i = Chr l.
Definition isOther (i : item) : Prop := exists l, i = Ctl Other l.

Lemma one_chr l : Forall isChr [Chr l].
Proof. repeat constructor. now exists l. Qed.
Lemma one_other l : Forall isOther [Ctl Other l].
Proof. repeat constructor. now exists l. Qed.
Lemma more_chr cs l : Forall isChr cs -> Forall isChr (cs ++ [Chr l]).
Proof. intros H. apply Forall_app. split; [exact H|apply one_chr]. Qed.
Lemma more_other os l : Forall isOther os -> Forall isOther (os ++ [Ctl Other l]).
Proof. intros H. apply Forall_app. split; [exact H|apply one_other]. Qed.
#[local] Hint Resolve one_chr one_other more_chr more_other : pieces.

(** Start sequence, text, sequences of no kind, stop sequence. *)
Inductive shaped : list item -> Prop :=
| shaped_intro st cs os sp :
    (st = [] \/ exists l, st = [Ctl Start l]) -> Forall isChr cs -> Forall isOther os ->
    (cs = [] -> os = [] \/ sp = [] /\ exists i, os = [i]) ->
    (sp = [] \/ exists l, sp = [Ctl Stop l]) -> shaped (st ++ (cs ++ os) ++ sp).

Definition open (ph : phase) (cur : list item) : Prop :=
  match ph with
  | Fresh => cur = []
  | Started => exists l, cur = [Ctl Start l]
  | InText => exists st cs, cur = st ++ cs /\ (st = [] \/ exists l, st = [Ctl Start l]) /\ Forall isChr cs /\ cs <> []
  | Trailing => exists st cs os, cur = st ++ cs ++ os /\ (st = [] \/ exists l, st = [Ctl Start l]) /\ Forall isChr cs /\ cs <> [] /\ Forall isOther os
  end.

Lemma open_parts ph cur : open ph cur -> exists st cs os, cur = st ++ cs ++ os /\ (st = [] \/ exists l, st = [Ctl Start l]) /\
  Forall isChr cs /\ Forall isOther os /\ (cs = [] -> os = []).
Proof.
  destruct ph; cbn [open]; intros H.
  - exists [], [], []. subst. intuition.
  - destruct H as (l & ->). exists [Ctl Start l], [], []. intuition eauto.
  - destruct H as (st & cs & -> & Hs & Hc & _). exists st, cs, []. rewrite app_nil_r. intuition.
  - destruct H as (st & cs & os & -> & Hs & Hc & N & Ho). exists st, cs, os. intuition.
Qed.

Lemma open_shaped ph cur : open ph cur -> shaped cur.
Proof.
  intros H. apply open_parts in H. destruct H as (st & cs & os & -> & Hs & Hc & Ho & N).
  rewrite <- (app_nil_r (cs ++ os)). constructor; intuition.
Qed.
Lemma open_stop ph cur l : open ph cur -> shaped (cur ++ [Ctl Stop l]).
Proof.
  intros H. apply open_parts in H. destruct H as (st & cs & os & -> & Hs & Hc & Ho & N).
  rewrite <- app_assoc. constructor; intuition eauto.
Qed.

Lemma groups_shaped is : forall ph cur, open ph cur -> Forall shaped (groupsFrom ph cur is).
Proof.
  induction is as [|i is IH]; intros ph cur H.
  - destruct ph; cbn [groupsFrom]; repeat constructor; eapply open_shaped; eassumption.
  - destruct i as [l|[| |] l].
    + destruct ph; cbn [groupsFrom].
      * apply IH. cbn [open] in *. subst. exists [], [Chr l]. repeat split; [auto|eauto with pieces|discriminate].
      * apply IH. cbn [open] in *. destruct H as (m & ->). exists [Ctl Start m], [Chr l]. repeat split; [eauto|eauto with pieces|discriminate].
      * apply IH. cbn [open] in *. destruct H as (st & cs & -> & Hs & Hc & N). exists st, (cs ++ [Chr l]). rewrite app_assoc.
        repeat split; [auto|eauto with pieces|now destruct cs].
      * constructor; [eapply open_shaped; eassumption|]. apply IH. exists [], [Chr l]. repeat split; [auto|eauto with pieces|discriminate].
    + destruct ph; cbn [groupsFrom]; try (constructor; [eapply open_shaped; eassumption|]); apply IH; cbn [open]; eauto.
    + cbn [groupsFrom]. constructor; [eapply open_stop; eassumption|]. apply IH. reflexivity.
    + destruct ph; cbn [groupsFrom].
      * constructor; [|apply IH; reflexivity]. cbn [open] in H. subst. apply (shaped_intro [] [] [Ctl Other l] []); eauto 6 with pieces.
      * constructor; [|apply IH; reflexivity]. cbn [open] in H. destruct H as (m & ->).
        apply (shaped_intro [Ctl Start m] [] [Ctl Other l] []); eauto 6 with pieces.
      * apply IH. cbn [open] in *. destruct H as (st & cs & -> & Hs & Hc & N). exists st, cs, [Ctl Other l]. rewrite app_assoc. repeat split; eauto with pieces.
      * apply IH. cbn [open] in *. destruct H as (st & cs & os & -> & Hs & Hc & N & Ho). exists st, cs, (os ++ [Ctl Other l]). rewrite !app_assoc. repeat split; eauto with pieces.
Qed.

Lemma groupsFrom_concat is : forall ph cur, open ph cur -> concat (groupsFrom ph cur is) = cur ++ is.
Proof.
  induction is as [|i is IH]; intros ph cur H.
  - destruct ph; cbn [groupsFrom concat open] in *; subst; now rewrite ?app_nil_r.
  - pose proof (groups_shaped [] ph cur H) as _.
    assert (Nx : open Fresh []) by reflexivity.
    destruct i as [l|[| |] l]; destruct ph; cbn [groupsFrom concat open] in *; subst; cbn [app] in *;
      rewrite ?IH; cbn [open app]; rewrite <- ?app_assoc; cbn [app]; try reflexivity; eauto.
    all: try (exists [], [Chr l]; repeat split; [auto|eauto with pieces|discriminate]).
    + destruct H as (m & ->). exists [Ctl Start m], [Chr l]. repeat split; [eauto|eauto with pieces|discriminate].
    + destruct H as (st & cs & -> & Hs & Hc & N). exists st, (cs ++ [Chr l]). rewrite app_assoc.
      repeat split; [auto|eauto with pieces|now destruct cs].
    + destruct H as (st & cs & -> & Hs & Hc & N). exists st, cs, [Ctl Other l]. rewrite app_assoc. repeat split; eauto with pieces.
    + destruct H as (st & cs & os & -> & Hs & Hc & N & Ho). exists st, cs, (os ++ [Ctl Other l]). rewrite !app_assoc. repeat split; eauto with pieces.
Qed.

Lemma groups_concat is : concat (groups is) = is.
Proof. destruct is; [reflexivity|]. apply (groupsFrom_concat (_ :: _) Fresh []). reflexivity. Qed.
Lemma groups_all_shaped is : Forall shaped (groups is).
Proof.
  destruct is as [|i is]; [|apply groups_shaped; reflexivity]. constructor; [|constructor]. apply (shaped_intro [] [] [] []); intuition.
Qed.

Definition tail (sp : list item) : Prop := sp = [] \/ exists l, sp = [Ctl Stop l].

Lemma groups_tail sp ph cur : tail sp -> ph <> Fresh -> groupsFrom ph cur sp = [cur ++ sp].
Proof. intros [->|[l ->]] H; destruct ph; cbn [groupsFrom]; rewrite ?app_nil_r; try reflexivity; congruence. Qed.
Lemma groups_others os : Forall isOther os -> forall sp cur, tail sp -> groupsFrom Trailing cur (os ++ sp) = [cur ++ os ++ sp].
Proof.
  induction 1 as [|i os [l ->] H IH]; intros sp cur Hs; cbn [groupsFrom app]; [now apply groups_tail|]. rewrite IH, <- app_assoc by auto. reflexivity.
Qed.
Lemma groups_text cs : Forall isChr cs -> forall os sp cur, Forall isOther os -> tail sp -> groupsFrom InText cur (cs ++ os ++ sp) = [cur ++ cs ++ os ++ sp].
Proof.
  induction 1 as [|i cs [l ->] H IH]; intros os sp cur Ho Hs; cbn [app].
  - destruct Ho as [|i os [l ->] Ho]; cbn [groupsFrom app]; [now apply groups_tail|]. rewrite groups_others by auto. now rewrite <- app_assoc.
  - cbn [groupsFrom]. rewrite IH by auto. now rewrite <- app_assoc.
Qed.
(** A part that is not a sequence of no kind before a stop sequence. *)
Lemma groups_part st cs os sp : (st = [] \/ exists l, st = [Ctl Start l]) -> Forall isChr cs -> Forall isOther os ->
  (cs = [] -> os = [] \/ sp = [] /\ exists i, os = [i]) -> tail sp -> groups (st ++ (cs ++ os) ++ sp) = [st ++ (cs ++ os) ++ sp].
Proof.
  intros Hst Hc Ho N Hs. destruct Hc as [|i cs [l ->] Hc].
  - destruct N as [->|[-> [i ->]]]; [reflexivity| |].
    + cbn [app]. destruct Hst as [->|[m ->]]; destruct Hs as [->|[l ->]]; reflexivity.
    + inversion Ho as [|? ? [l ->]]; subst. destruct Hst as [->|[m ->]]; reflexivity.
  - rewrite <- app_assoc. destruct Hst as [->|[m ->]]; cbn [app groups groupsFrom]; rewrite groups_text by auto; reflexivity.
Qed.
Lemma groups_one cs os : Forall isChr cs -> Forall isOther os -> (cs = [] -> os = [] \/ exists i, os = [i]) -> groups (cs ++ os) = [cs ++ os].
Proof.
  intros Hc Ho N. rewrite <- (app_nil_r (cs ++ os)). apply (groups_part [] cs os []); auto; [|now left]. intros E. destruct (N E); auto.
Qed.

Lemma part_text tx : Forall isText tx -> partOf tx = ([], concat (map runesIn tx), []).
Proof. intros H. pose proof (covers_intro [] tx [] (or_introl eq_refl) H (or_introl eq_refl)) as C. cbn [app] in C. rewrite app_nil_r in C. now apply covers_partOf in C. Qed.

(** One part, made of one of the pieces. *)
Lemma strip_again x spare its a b c : mcap (x ++ spare) -> lexed u x its -> map partOf (groups its) = [(a, b, c)] ->
  exists p, stripToken u (x ++ spare) (zlen x) = Ret (x ++ spare, [p]) /\
    contents (x ++ spare) (s_start p) = a /\ contents (x ++ spare) (s_text p) = b /\ contents (x ++ spare) (s_stop p) = c.
Proof.
  intros M L E. destruct (stripToken_exact u x spare its M L) as (parts & R & X). rewrite E in X.
  destruct parts as [|p [|q parts]]; try discriminate. injection X as <- <- <-. eauto.
Qed.

Definition partIs (mem : list rune) (p : stripped) (start text stop : list rune) : Prop :=
  contents mem (s_start p) = start /\ contents mem (s_text p) = text /\ contents mem (s_stop p) = stop.

Lemma concat_in {A} (l : list (list A)) g : In g l -> exists x y, concat l = x ++ g ++ y.
Proof.
  intros H. apply in_split in H. destruct H as (l1 & l2 & ->). exists (concat l1), (concat l2). now rewrite concat_app.
Qed.

Theorem strip_pieces tok spare items parts m : mcap (tok ++ spare) -> lexed u tok items ->
  stripToken u (tok ++ spare) (zlen tok) = Ret (m, parts) -> Forall (fun p => forall spare',
    let start := contents m (s_start p) in let text := contents m (s_text p) in let stop := contents m (s_stop p) in
    (let whole := start ++ text ++ stop in mcap (whole ++ spare') -> exists q, stripToken u (whole ++ spare') (zlen whole) = Ret (whole ++ spare', [q]) /\ partIs (whole ++ spare') q start text stop) /\
    (mcap (start ++ spare') -> exists q, stripToken u (start ++ spare') (zlen start) = Ret (start ++ spare', [q]) /\ partIs (start ++ spare') q start [] []) /\
    (mcap (text ++ spare') -> exists q, stripToken u (text ++ spare') (zlen text) = Ret (text ++ spare', [q]) /\ partIs (text ++ spare') q [] text []) /\
    (mcap (stop ++ spare') -> exists q, stripToken u (stop ++ spare') (zlen stop) = Ret (stop ++ spare', [q]) /\ partIs (stop ++ spare') q [] [] stop)) parts.
Proof.
  intros M L R. destruct (stripToken_exact u tok spare items M L) as (parts' & R' & X). rewrite R in R'. injection R' as -> ->.
  apply Forall_forall. intros p Hp spare' start text stop.
  apply (in_map (fun p => (contents (tok ++ spare) (s_start p), contents (tok ++ spare) (s_text p), contents (tok ++ spare) (s_stop p)))) in Hp.
  rewrite X in Hp. apply in_map_iff in Hp. destruct Hp as (g & Eg & Hg).
  assert (Sh : shaped g) by (eapply Forall_forall; [apply groups_all_shaped|eassumption]).
  apply concat_in in Hg. destruct Hg as (x & y & Ei). rewrite groups_concat in Ei. subst items.
  fold start text stop in Eg. inversion Sh as [st cs os sp Hst Hc Ho N Hsp]; subst g.
  assert (T : Forall isText (cs ++ os)).
  { apply Forall_app; split; [eapply Forall_impl; [|exact Hc]|eapply Forall_impl; [|exact Ho]]; intros i [l ->]; exact I. }
  pose proof (covers_partOf _ _ _ _ (covers_intro st (cs ++ os) sp Hst T Hsp)) as E. rewrite E in Eg. injection Eg as E1 E2 E3.
  assert (L' := L). rewrite <- !app_assoc in L. clearbody start text stop. split; [|split; [|split]]; [intros whole Mc|intros Mc..].
  - apply strip_again with (its := st ++ (cs ++ os) ++ sp); [exact Mc| |].
    + unfold whole. rewrite <- E1, <- E2, <- E3, <- !concat_app, <- !map_app. eapply (lexed_mid x); exact L'.
    + rewrite groups_part by auto. cbn [map]. rewrite E. now rewrite E1, E2, E3.
  - apply strip_again with (its := st); [exact Mc|rewrite <- E1; eapply (lexed_mid x); exact L|].
    rewrite <- E1. destruct Hst as [->|[l ->]]; reflexivity.
  - apply strip_again with (its := cs ++ os); [exact Mc|rewrite <- E2; eapply (lexed_mid (x ++ st)); rewrite <- !app_assoc; exact L|].
    rewrite groups_one by (auto; intros Z; destruct (N Z) as [?|[? ?]]; auto). cbn [map]. rewrite part_text by auto. now rewrite E2.
  - apply strip_again with (its := sp); [exact Mc|rewrite <- E3; eapply (lexed_mid (x ++ st ++ cs ++ os)); rewrite <- !app_assoc; exact L|].
    rewrite <- E3. destruct Hsp as [->|[l ->]]; reflexivity.
Qed.
End Pieces.
