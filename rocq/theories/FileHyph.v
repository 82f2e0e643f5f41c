(** Hyphenation from the contents of a pattern file: FileProofs and HyphProofs together. *)
From Verif Require Import Base Unicode Utf8 SpecUtf8 Trie SpecTrie TrieProofs Dict SpecHyph DictProofs Hyph HyphProofs FileProofs.
Local Open Scope Z_scope.

Definition okFile (u : unicode) (ls : list fline) (excs : list (list rune * list (list rune))) : Prop :=
  Forall (okLine u) ls /\ Forall okExc excs.

Lemma greatest_ext f g w j m : (forall k, f k = g k) -> greatest f w j m -> greatest g w j m.
Proof.
  intros H (H1 & H2 & H3).
  assert (forall v, gives f w j v <-> gives g w j v) as Hg.
  { intros v. unfold gives. split; intros (pre & k & post & dg & A & B & C & D); exists pre, k, post, dg;
    [rewrite <- H|rewrite H]; tauto. }
  repeat split.
  - intros v Hv. apply H1, Hg, Hv.
  - exact H2.
  - destruct H3 as [H3|H3]; [left; exact H3|right; apply Hg, H3].
Qed.

Lemma file_liang u name ls excs bs o w : okFile u ls excs -> utf8s (fileText ls excs) bs ->
  w <> [] -> Forall (fun r => isHyphenRune r = false) w -> o_minLength o <= zlen w ->
  lastRule w (excRulesOf (toLower u) excs) = None ->
  1 <= o_minLeft o -> 2 <= o_minRight o -> zlen w <= 27 + o_minRight o ->
  exists allowed : nat -> bool,
    (forall i, (0 < i)%nat -> o_minRight o <= zlen w - Z.of_nat i ->
       exists m, greatest (fun k => lastRule k (patternRulesOf (toLower u) ls)) (dotted (map (toLower u) w)) (S i) m /\
         allowed i = Z.odd m) /\
    breakWord u (loadFile u name bs) o w = Ret (cutAt w 0 (keep allowed (o_minLeft o) (o_minRight o) (length w))).
Proof.
  intros [Hl He] Hb Hw Hh Hm Hx Hml Hmr Hn. destruct (loadFile_rules u name ls excs bs Hl He Hb) as [G1 G2].
  destruct (breakWord_liang u (loadFile u name bs) o w) as (al & Ha & E); try assumption.
  - intros k digits Hk. rewrite G1 in Hk. eapply patternRulesOf_length, Hk.
  - unfold containsHyphen. clear - Hh. induction Hh as [|r w Hr Hw IH]; [reflexivity|]. cbn [existsb]. rewrite Hr. exact IH.
  - unfold isException. rewrite G2 by exact Hw. exact Hx.
  - exists al. split; [|exact E]. intros i Hi Hi'. destruct (Ha i Hi Hi') as (m & Hg & Hm'). exists m.
    split; [|exact Hm']. eapply greatest_ext; [exact G1|exact Hg].
Qed.

Lemma reaches_ext f g w n j : (forall k, f k = g k) -> reaches f w n j <-> reaches g w n j.
Proof.
  intros H. split; intros (pre & k & post & dg & A & B & C & D); exists pre, k, post, dg;
    [rewrite <- H|rewrite H]; tauto.
Qed.
Lemma file_liang_any u name ls excs bs o w : okFile u ls excs -> utf8s (fileText ls excs) bs ->
  w <> [] -> Forall (fun r => isHyphenRune r = false) w -> o_minLength o <= zlen w ->
  lastRule w (excRulesOf (toLower u) excs) = None ->
  1 <= o_minLeft o -> 2 <= o_minRight o ->
  let rules := fun k => lastRule k (patternRulesOf (toLower u) ls) in
  let word := dotted (map (toLower u) w) in
  exists allowed : nat -> bool,
    (forall i, (0 < i)%nat -> o_minRight o <= zlen w - Z.of_nat i ->
       exists m, greatest rules word (S i) m /\
         (allowed i = true <-> Z.odd m = true /\ ((i < 28)%nat \/ reaches rules word (length w) (i + 2)))) /\
    breakWord u (loadFile u name bs) o w = Ret (cutAt w 0 (keep allowed (o_minLeft o) (o_minRight o) (length w))).
Proof.
  intros [Hl He] Hb Hw Hh Hm Hx Hml Hmr rules word. destruct (loadFile_rules u name ls excs bs Hl He Hb) as [G1 G2].
  destruct (breakWord_liang_gen u (loadFile u name bs) o w) as (al & Ha & E); try assumption.
  - intros k digits Hk. rewrite G1 in Hk. eapply patternRulesOf_length, Hk.
  - unfold containsHyphen. clear - Hh. induction Hh as [|r w Hr Hw IH]; [reflexivity|]. cbn [existsb]. rewrite Hr. exact IH.
  - unfold isException. rewrite G2 by exact Hw. exact Hx.
  - exists al. split; [|exact E]. intros i Hi Hi'. destruct (Ha i Hi Hi') as (m & Hg & Hm'). exists m.
    split; [eapply greatest_ext; [exact G1|exact Hg]|]. rewrite Hm'.
    rewrite (reaches_ext _ _ (wordDots u w) (length w) (i + 2) G1). reflexivity.
Qed.

Lemma file_exception u name ls excs bs o s ss : okFile u ls excs -> utf8s (fileText ls excs) bs ->
  lastRule (concat (s :: ss)) (excRulesOf (toLower u) excs) = Some (mask s ss) ->
  Forall okSyllable (s :: ss) -> o_minLength o <= zlen (concat (s :: ss)) ->
  1 <= o_minLeft o -> 0 <= o_minRight o -> longEnough (o_minLeft o) (o_minRight o) s ss ->
  breakWord u (loadFile u name bs) o (concat (s :: ss)) = Ret (s :: ss).
Proof.
  intros [Hl He] Hb Hx Hs Hm Hml Hmr Hlong. destruct (loadFile_rules u name ls excs bs Hl He Hb) as [_ G2].
  assert (concat (s :: ss) <> []) as Hne.
  { inversion Hs as [|? ? [H _] _]; subst. destruct s; [congruence|discriminate]. }
  apply breakWord_syllables; try assumption.
  - unfold containsHyphen. clear - Hs. apply not_true_is_false. rewrite existsb_exists. intros (r & Hr & H).
    apply in_concat in Hr. destruct Hr as (t & Ht & Hr). rewrite Forall_forall in Hs. destruct (Hs t Ht) as [_ Ht'].
    rewrite Forall_forall in Ht'. destruct (Ht' r Hr) as [H' _]. congruence.
  - unfold isException. rewrite G2 by exact Hne. exact Hx.
  - eapply Forall_impl; [|exact Hs]. intros t [Ht _]. exact Ht.
Qed.

Lemma breakWord_minima u d o w : 1 <= o_minLeft o -> 0 <= o_minRight o ->
  exists parts, breakWord u d o w = Ret parts /\
    (forall pre p post, parts = pre ++ p :: post -> post <> [] ->
       Z.max 1 (o_minLeft o) <= zlen p /\ o_minRight o <= zlen (concat post)).
Proof.
  intros Hl Hr. destruct (breakWord_lossless u d o w Hr) as (parts & E & _ & _ & H). exists parts. split; [exact E|].
  intros pre p post Ep Hp. destruct (H pre p post Ep Hp). lia.
Qed.
Lemma breakWord_returns u name bs o w : 0 <= o_minRight o -> exists parts, breakWord u (loadFile u name bs) o w = Ret parts.
Proof. intros Hr. destruct (breakWord_lossless u (loadFile u name bs) o w Hr) as (parts & E & _). eauto. Qed.
