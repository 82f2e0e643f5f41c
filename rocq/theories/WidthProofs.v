From Coq Require Import ZifyBool.
From Verif Require Import Base Tables Width SpecWidth.
Ltac Zify.zify_post_hook ::= Z.div_mod_to_equations.

(* ---------- binary search ---------- *)

Lemma sorted_tl a t : sorted (a :: t) -> sorted t.
Proof. intros H; inversion H; subst; [constructor|assumption]. Qed.

Lemma sorted_hd_lt : forall t a x, sorted (a :: t) -> In x t -> snd a < fst x.
Proof.
  induction t as [|b t IH]; intros a x H Hin; [destruct Hin|].
  inversion H as [| |a' b' t' Ha Hab Hs]; subst. destruct Hin as [->|Hin]; [exact Hab|].
  specialize (IH b x Hs Hin). assert (fst b <= snd b) by (inversion Hs; assumption). lia.
Qed.

Lemma sorted_nth : forall t i j a b, sorted t ->
  nth_error t i = Some a -> nth_error t j = Some b -> (i < j)%nat -> snd a < fst b.
Proof.
  induction t as [|x t IH]; intros i j a b H Hi Hj Hij.
  - destruct i; discriminate.
  - destruct j as [|j]; [lia|]. cbn in Hj. destruct i as [|i].
    + cbn in Hi. injection Hi as <-. eapply sorted_hd_lt; [exact H|]. eapply nth_error_In; eauto.
    + cbn in Hi. apply (IH i j); auto; [eapply sorted_tl; eauto|lia].
Qed.

Lemma sorted_wf : forall t i a, sorted t -> nth_error t i = Some a -> fst a <= snd a.
Proof.
  induction t as [|x t IH]; intros i a H Hi; [destruct i; discriminate|].
  destruct i as [|i]; cbn in Hi.
  - injection Hi as <-. inversion H; assumption.
  - apply (IH i); auto. eapply sorted_tl; eauto.
Qed.

Lemma tabAt_ok t i : 0 <= i < zlen t ->
  exists a, tabAt t i = Ret a /\ nth_error t (Z.to_nat i) = Some a.
Proof.
  intros H. unfold tabAt, zlen in *. destruct (Z.ltb_spec i 0); [lia|].
  destruct (nth_error t (Z.to_nat i)) as [a|] eqn:E; [eauto|].
  apply nth_error_None in E. lia.
Qed.

Lemma inTable_loop_spec r t : sorted t -> forall fuel bot top,
  0 <= bot -> top < zlen t -> Z.max 0 (top - bot + 1) < Z.of_nat fuel ->
  (forall i a, nth_error t i = Some a -> inInterval r a -> bot <= Z.of_nat i <= top) ->
  exists b, inTable_loop fuel r t bot top = Ret b /\ (b = true <-> member r t).
Proof.
  intros Hs. induction fuel as [|fuel IH]; intros bot top Hb Ht Hf Hin; [exfalso; lia|].
  - cbn [inTable_loop]. destruct (Z.leb_spec bot top) as [Hle|Hgt].
    + set (mid := Z.shiftr (bot + top) 1).
      assert (Hmid : mid = (bot + top) / 2) by (unfold mid; rewrite Z.shiftr_div_pow2 by lia; reflexivity).
      assert (bot <= mid <= top) by lia.
      destruct (tabAt_ok t mid) as [a [Ea Na]]; [lia|]. rewrite Ea. cbn [gbind].
      destruct (Z.ltb_spec (snd a) r) as [H1|H1].
      * apply IH; try lia. intros i x Hi Hx. pose proof (Hin i x Hi Hx).
        split; [|lia].
        destruct (Z.leb_spec (mid + 1) (Z.of_nat i)) as [|Hlt]; [assumption|exfalso].
        unfold inInterval in Hx.
        destruct (Z.eq_dec (Z.of_nat i) mid) as [He|Hne].
        -- assert (i = Z.to_nat mid) as -> by lia. rewrite Na in Hi. injection Hi as <-. lia.
        -- assert (snd x < fst a) by (apply (sorted_nth t i (Z.to_nat mid)); auto; lia).
           pose proof (sorted_wf t _ _ Hs Na). lia.
      * destruct (Z.ltb_spec r (fst a)) as [H2|H2].
        -- apply IH; try lia. intros i x Hi Hx. pose proof (Hin i x Hi Hx).
           split; [lia|].
           destruct (Z.leb_spec (Z.of_nat i) (mid - 1)) as [|Hlt]; [assumption|exfalso].
           unfold inInterval in Hx.
           destruct (Z.eq_dec (Z.of_nat i) mid) as [He|Hne].
           ++ assert (i = Z.to_nat mid) as -> by lia. rewrite Na in Hi. injection Hi as <-. lia.
           ++ assert (snd a < fst x) by (apply (sorted_nth t (Z.to_nat mid) i); auto; lia).
              pose proof (sorted_wf t _ _ Hs Na). lia.
        -- exists true. split; [reflexivity|]. split; [intros _|reflexivity].
           exists a. split; [eapply nth_error_In; eauto|unfold inInterval; lia].
    + exists false. split; [reflexivity|]. split; [discriminate|].
      intros [a [Ha Hr]]. apply In_nth_error in Ha as [i Hi].
      pose proof (Hin i a Hi Hr). lia.
Qed.

Definition inb (r : rune) (iv : interval) : bool := (fst iv <=? r) && (r <=? snd iv).
Definition memberb (r : rune) (t : table) : bool := existsb (inb r) t.

Lemma memberb_iff r t : memberb r t = true <-> member r t.
Proof.
  unfold memberb, member. rewrite existsb_exists. unfold inb, inInterval.
  split; intros [iv [H1 H2]]; exists iv; split; auto; lia.
Qed.

Lemma inTable_member r t : sorted t -> t <> [] -> inTable r t = Ret (memberb r t).
Proof.
  intros Hs Hne. unfold inTable.
  assert (0 < zlen t) by (destruct t; [congruence|rewrite zlen_cons; pose proof (zlen_nonneg t); lia]).
  destruct (tabAt_ok t 0) as [a [Ea Na]]; [lia|]. rewrite Ea. cbn [gbind].
  destruct (Z.ltb_spec r (fst a)) as [Hlt|Hge].
  - f_equal. symmetry. apply not_true_is_false. rewrite memberb_iff. intros [x [Hx Hr]].
    apply In_nth_error in Hx as [i Hi]. unfold inInterval in Hr.
    destruct i as [|i].
    + change (Z.to_nat 0) with 0%nat in Na. rewrite Na in Hi. injection Hi as <-. lia.
    + assert (snd a < fst x) by (apply (sorted_nth t 0 (S i)); auto; lia).
      pose proof (sorted_wf t _ _ Hs Na). lia.
  - destruct (inTable_loop_spec r t Hs (S (length t)) 0 (zlen t - 1)) as [b [E Hb]].
    + lia.
    + lia.
    + unfold zlen. lia.
    + intros i x Hi _. assert (i < length t)%nat by (apply nth_error_Some; congruence).
      unfold zlen. lia.
    + rewrite E. f_equal. destruct (memberb r t) eqn:Em.
      * apply Hb. now apply memberb_iff.
      * destruct b; [|reflexivity]. rewrite <- Em. symmetry. apply memberb_iff. now apply Hb.
Qed.

(* ---------- facts about the shipped tables (finite data) ---------- *)

Fixpoint sortedb (t : table) : bool :=
  match t with
  | [] => true
  | a :: t' => (fst a <=? snd a) && (match t' with [] => true | b :: _ => snd a <? fst b end) && sortedb t'
  end.

Lemma sortedb_sound t : sortedb t = true -> sorted t.
Proof.
  induction t as [|a t IH]; intros H; [constructor|].
  cbn [sortedb] in H. destruct t as [|b t].
  - constructor. lia.
  - apply andb_prop in H as [H H3]. apply andb_prop in H as [H1 H2].
    constructor; [lia|lia|]. now apply IH.
Qed.

Lemma nonprint_sorted : sorted nonprint. Proof. apply sortedb_sound; vm_compute; reflexivity. Qed.
Lemma combining_sorted : sorted combining. Proof. apply sortedb_sound; vm_compute; reflexivity. Qed.
Lemma doublewidth_sorted : sorted doublewidth. Proof. apply sortedb_sound; vm_compute; reflexivity. Qed.
Lemma ambiguous_sorted : sorted ambiguous. Proof. apply sortedb_sound; vm_compute; reflexivity. Qed.
Lemma narrow_sorted : sorted narrow. Proof. apply sortedb_sound; vm_compute; reflexivity. Qed.
Lemma neutral_sorted : sorted neutral. Proof. apply sortedb_sound; vm_compute; reflexivity. Qed.
Lemma emoji_sorted : sorted emoji. Proof. apply sortedb_sound; vm_compute; reflexivity. Qed.

Definition disjointb (t1 t2 : table) : bool :=
  forallb (fun a => forallb (fun b => (snd a <? fst b) || (snd b <? fst a)) t2) t1.

Lemma disjointb_sound t1 t2 r : disjointb t1 t2 = true -> memberb r t1 = true -> memberb r t2 = false.
Proof.
  intros H H1. apply not_true_is_false. intros H2.
  apply memberb_iff in H1 as [a [Ha Ra]]. apply memberb_iff in H2 as [b [Hb Rb]].
  unfold disjointb in H. rewrite forallb_forall in H. specialize (H a Ha).
  rewrite forallb_forall in H. specialize (H b Hb). unfold inInterval in *. lia.
Qed.

Lemma amb_not_narrow r : memberb r ambiguous = true -> memberb r narrow = false.
Proof. apply disjointb_sound. vm_compute. reflexivity. Qed.
Lemma amb_not_double r : memberb r ambiguous = true -> memberb r doublewidth = false.
Proof. apply disjointb_sound. vm_compute. reflexivity. Qed.
Lemma double_above r : memberb r doublewidth = true -> 0x300 <= r.
Proof.
  intros H. assert (D : disjointb doublewidth [(0,0x2ff)] = true) by (vm_compute; reflexivity).
  pose proof (disjointb_sound _ _ _ D H) as N. 
  assert (D2 : forallb (fun iv => 0 <=? fst iv) doublewidth = true) by (vm_compute; reflexivity).
  apply memberb_iff in H as [iv [Hi Hr]]. rewrite forallb_forall in D2. specialize (D2 iv Hi).
  cbn in N. unfold inInterval, inb in *. cbn in N. lia.
Qed.
(* below U+0300 the zero-width tables hold only the control characters already excluded *)
Lemma low_not_zero r : memberb r nonprint || memberb r combining = true -> r < 0x300 ->
  r < 0x20 \/ 0x7f <= r <= 0x9f \/ r = 0xad.
Proof.
  intros H Hr.
  assert (D : forallb (fun iv => (0x300 <=? fst iv) || (snd iv <? 0x20)
      || ((0x7f <=? fst iv) && (snd iv <=? 0x9f)) || ((fst iv =? 0xad) && (snd iv =? 0xad)))
      (nonprint ++ combining) = true) by (vm_compute; reflexivity).
  rewrite forallb_forall in D. apply orb_prop in H.
  assert (exists iv, In iv (nonprint ++ combining) /\ inInterval r iv) as [iv [Hi Hx]].
  { destruct H as [H|H]; apply memberb_iff in H as [iv [Hi Hx]]; exists iv; rewrite in_app_iff; auto. }
  specialize (D iv Hi). unfold inInterval in Hx. lia.
Qed.

(* ---------- runeWidth in closed form ---------- *)

Definition rwSpec (r : rune) (o : wopts) : Z :=
  if negb (validRune r) || (r =? runeError) then 0
  else if r <? 0x20 then 0
  else if ((0x7f <=? r) && (r <=? 0x9f)) || (r =? 0xad) then 0
  else if (r <? 0x300) && negb (eastAsian o) then 1
  else if r =? 0x2e3b then 4
  else if r =? 0x2e3a then 3
  else if memberb r nonprint || memberb r combining then 0
  else if memberb r narrow then 1
  else if memberb r doublewidth then 2
  else if negb (eastAsian o) then 1
  else if memberb r ambiguous then defaultAsianAmbiguousWidth o
  else if skipStrictEmojiNeutral o && memberb r emoji then 2
  else 1.

Lemma runeWidth_spec r o : runeWidth r o = Ret (rwSpec r o).
Proof.
  unfold runeWidth, rwSpec.
  destruct (_ || _); [reflexivity|]. destruct (r <? 0x20); [reflexivity|].
  destruct (_ || _); [reflexivity|]. destruct (_ && _); [reflexivity|].
  destruct (r =? 0x2e3b); [reflexivity|]. destruct (r =? 0x2e3a); [reflexivity|].
  unfold inTables.
  rewrite !inTable_member by first [apply nonprint_sorted|apply combining_sorted|apply narrow_sorted
    |apply doublewidth_sorted|apply ambiguous_sorted|apply emoji_sorted|discriminate].
  cbn [gbind]. destruct (memberb r nonprint); [reflexivity|]. cbn [gbind orb].
  destruct (memberb r combining); [reflexivity|]. cbn [gbind].
  destruct (memberb r narrow); [reflexivity|]. destruct (memberb r doublewidth); [reflexivity|].
  destruct (negb (eastAsian o)); [reflexivity|].
  destruct (memberb r ambiguous); [reflexivity|]. cbn [gbind].
  destruct (skipStrictEmojiNeutral o); [|reflexivity].
  cbn [andb]. destruct (memberb r emoji); reflexivity.
Qed.

Ltac rwcases :=
  unfold rwSpec;
  repeat match goal with |- context [if ?b then _ else _] => let E := fresh "E" in destruct b eqn:E end.

Lemma rwSpec_default_bounds r o : eastAsian o = false -> 0 <= rwSpec r o <= 4.
Proof. intros H. rwcases; try lia. cbn in *. rewrite H in *. discriminate. Qed.

Lemma rwSpec_bounds r o : 0 <= defaultAsianAmbiguousWidth o ->
  0 <= rwSpec r o <= Z.max 4 (defaultAsianAmbiguousWidth o).
Proof. intros H. rwcases; lia. Qed.

Lemma rwSpec_lt4 r o : eastAsian o = false -> r <> 0x2e3b -> 0 <= rwSpec r o < 4.
Proof. intros H Hr. rwcases; try lia. rewrite H in *. discriminate. Qed.

(* ---------- the packed table ---------- *)

Lemma pack_sweep :
  forallb (fun x0 => forallb (fun x1 => forallb (fun x2 => forallb (fun x3 => forallb (fun k =>
     Z.land (Z.shiftr (pack x0 x1 x2 x3) (k * 2)) 3 =?
       (if k =? 0 then x0 else if k =? 1 then x1 else if k =? 2 then x2 else x3 mod 4))
   [0;1;2;3]) [0;1;2;3;4]) [0;1;2;3]) [0;1;2;3]) [0;1;2;3] = true.
Proof. vm_compute. reflexivity. Qed.

Lemma in4 x : 0 <= x < 4 -> In x [0;1;2;3].
Proof. intros H. assert (x = 0 \/ x = 1 \/ x = 2 \/ x = 3) by lia. cbn. intuition. Qed.
Lemma in5 x : 0 <= x <= 4 -> In x [0;1;2;3;4].
Proof. intros H. assert (x = 0 \/ x = 1 \/ x = 2 \/ x = 3 \/ x = 4) by lia. cbn. intuition. Qed.

Lemma pack_unpack x0 x1 x2 x3 k : 0 <= x0 < 4 -> 0 <= x1 < 4 -> 0 <= x2 < 4 -> 0 <= x3 <= 4 -> 0 <= k < 4 ->
  Z.land (Z.shiftr (pack x0 x1 x2 x3) (k * 2)) 3 =
    (if k =? 0 then x0 else if k =? 1 then x1 else if k =? 2 then x2 else x3 mod 4).
Proof.
  intros H0 H1 H2 H3 Hk. pose proof pack_sweep as S.
  rewrite forallb_forall in S. specialize (S x0 (in4 _ H0)).
  rewrite forallb_forall in S. specialize (S x1 (in4 _ H1)).
  rewrite forallb_forall in S. specialize (S x2 (in4 _ H2)).
  rewrite forallb_forall in S. specialize (S x3 (in5 _ H3)).
  rewrite forallb_forall in S. specialize (S k (in4 _ Hk)).
  now apply Z.eqb_eq in S.
Qed.

Definition defo : wopts := optionsWithDefaults [].

Lemma cachedWidth_ok r : 0 <= r <= 0x10ffff ->
  cachedWidth r = Ret (if r =? 0x2e3b then 0 else rwSpec r defo).
Proof.
  intros Hr. unfold cachedWidth, lookupTable.
  assert (Hq : Z.shiftr r 2 = r / 4) by (rewrite Z.shiftr_div_pow2 by lia; reflexivity).
  rewrite Hq.
  change lookupSize with 278528.
  assert (Hc : ((0 <=? r / 4) && (r / 4 <? 278528)) = true) by lia.
  rewrite Hc. unfold lookupEntry. fold defo. rewrite !runeWidth_spec. cbn [gbind].
  unfold unpack. assert (Hrem : Z.rem r 4 = r mod 4) by (apply Z.rem_mod_nonneg; lia). rewrite Hrem.
  destruct (Z.ltb_spec (r mod 4 * 2) 0); [lia|]. f_equal.
  assert (D : eastAsian defo = false) by reflexivity.
  rewrite pack_unpack.
  - destruct (Z.eqb_spec (r mod 4) 0) as [K|K0].
    { replace (r / 4 * 4) with r by lia. destruct (Z.eqb_spec r 0x2e3b); [lia|reflexivity]. }
    destruct (Z.eqb_spec (r mod 4) 1) as [K|K1].
    { replace (r / 4 * 4 + 1) with r by lia. destruct (Z.eqb_spec r 0x2e3b); [lia|reflexivity]. }
    destruct (Z.eqb_spec (r mod 4) 2) as [K|K2].
    { replace (r / 4 * 4 + 2) with r by lia. destruct (Z.eqb_spec r 0x2e3b); [lia|reflexivity]. }
    replace (r / 4 * 4 + 3) with r by lia.
    destruct (Z.eqb_spec r 0x2e3b) as [->|Hne]; [vm_compute; reflexivity|].
    pose proof (rwSpec_lt4 r defo D Hne). rewrite Z.mod_small; lia.
  - apply rwSpec_lt4; [exact D|lia].
  - apply rwSpec_lt4; [exact D|lia].
  - apply rwSpec_lt4; [exact D|lia].
  - apply rwSpec_default_bounds; exact D.
  - lia.
Qed.

Lemma cachedWidth_panics r : cachedWidth r = Panic <-> (r < 0 \/ 0x10ffff < r).
Proof.
  split.
  - intros H. destruct (Z_lt_dec r 0); [auto|]. destruct (Z_lt_dec 0x10ffff r); [auto|].
    rewrite cachedWidth_ok in H by lia. discriminate.
  - intros H. unfold cachedWidth, lookupTable.
    assert (Hq : Z.shiftr r 2 = r / 4) by (rewrite Z.shiftr_div_pow2 by lia; reflexivity).
    rewrite Hq. change lookupSize with 278528.
    assert (((0 <=? r / 4) && (r / 4 <? 278528)) = false) as -> by lia. reflexivity.
Qed.

(* ---------- Width ---------- *)

Lemma valid_range r : validRune r = true -> 0 <= r <= 0x10ffff.
Proof. unfold validRune. lia. Qed.

Lemma width_spec r opts : width r opts = Ret (rwSpec r (optionsWithDefaults opts))
  \/ (eastAsian (optionsWithDefaults opts) = false /\ width r opts = Ret (rwSpec r defo)).
Proof.
  unfold width.
  destruct (negb (validRune r) || (r =? runeError)) eqn:E.
  - left. unfold rwSpec. rewrite E. reflexivity.
  - destruct (Z.eqb_spec r 0x2e3b) as [->|Hne].
    + left. destruct (optionsWithDefaults opts) as [[] s w]; reflexivity.
    + destruct (eastAsian (optionsWithDefaults opts)) eqn:Ea.
      * left. apply runeWidth_spec.
      * right. split; [reflexivity|]. apply orb_false_elim in E as [E _].
        rewrite cachedWidth_ok by (apply valid_range; destruct (validRune r); [reflexivity|discriminate]).
        destruct (Z.eqb_spec r 0x2e3b); [contradiction|reflexivity].
Qed.

Lemma rwSpec_noneast r o1 o2 : eastAsian o1 = false -> eastAsian o2 = false -> rwSpec r o1 = rwSpec r o2.
Proof. intros H1 H2. unfold rwSpec. rewrite H1, H2. reflexivity. Qed.

Lemma width_eq r opts : width r opts = Ret (rwSpec r (optionsWithDefaults opts)).
Proof.
  destruct (width_spec r opts) as [H|[E H]]; [exact H|]. rewrite H. f_equal.
  now apply rwSpec_noneast.
Qed.

Lemma rwSpec_invalid r o : validRune r = false \/ r = 0xfffd -> rwSpec r o = 0.
Proof.
  intros H. unfold rwSpec, runeError. destruct H as [H| ->]; [rewrite H|]; reflexivity.
Qed.

Lemma width_total_bounded r opts :
  exists w, width r opts = Ret w /\
    (validRune r = false \/ r = 0xfffd -> w = 0) /\
    (eastAsian (optionsWithDefaults opts) = false -> 0 <= w <= 4) /\
    (0 <= defaultAsianAmbiguousWidth (optionsWithDefaults opts) ->
       0 <= w <= Z.max 4 (defaultAsianAmbiguousWidth (optionsWithDefaults opts))).
Proof.
  exists (rwSpec r (optionsWithDefaults opts)). split; [apply width_eq|]. repeat split.
  - apply rwSpec_invalid.
  - apply rwSpec_default_bounds; assumption.
  - apply rwSpec_default_bounds; assumption.
  - apply rwSpec_bounds; assumption.
  - apply rwSpec_bounds; assumption.
Qed.

Lemma width_is_direct r : width r [] = runeWidth r (optionsWithDefaults []).
Proof. rewrite width_eq, runeWidth_spec. reflexivity. Qed.

Lemma width_is_direct_any r opts : width r opts = runeWidth r (optionsWithDefaults opts).
Proof. rewrite width_eq, runeWidth_spec. reflexivity. Qed.

(* ---------- Widths ---------- *)

Lemma sumWidths_total f g : forall rs acc, (forall r, In r rs -> f r = Ret (g r)) ->
  sumWidths f rs acc = Ret (acc + zsum (map g rs)).
Proof.
  induction rs as [|r rs IH]; intros acc H; cbn [sumWidths map zsum fold_right].
  - f_equal. lia.
  - rewrite H by (left; reflexivity). cbn [gbind]. rewrite IH by (intros; apply H; right; assumption).
    unfold zsum. f_equal. lia.
Qed.

Lemma sumWidths_panic f : forall rs acc, (exists r, In r rs /\ f r = Panic) -> sumWidths f rs acc = Panic.
Proof.
  induction rs as [|r rs IH]; intros acc [x [Hx Hf]]; [destruct Hx|].
  cbn [sumWidths]. destruct Hx as [->|Hx].
  - rewrite Hf. reflexivity.
  - destruct (f r); cbn [gbind]; [|reflexivity]. apply IH. eauto.
Qed.

Definition inRange (r : rune) : Prop := 0 <= r <= 0x10ffff.

Lemma inRange_dec r : {inRange r} + {~ inRange r}.
Proof.
  unfold inRange. destruct (Z_le_dec 0 r), (Z_le_dec r 0x10ffff); [left|right|right|right]; lia.
Defined.

Lemma all_range_dec rs : {Forall inRange rs} + {exists r, In r rs /\ ~ inRange r}.
Proof.
  induction rs as [|r rs IH]; [left; constructor|].
  destruct (inRange_dec r) as [H|H].
  - destruct IH as [IH|IH]; [left; constructor; assumption|].
    right. destruct IH as [x [Hx Hn]]. exists x. split; [right; assumption|assumption].
  - right. exists r. split; [left; reflexivity|assumption].
Qed.

Lemma widths_east rs opts : eastAsian (optionsWithDefaults opts) = true ->
  widths rs opts = Ret (zsum (map (fun r => rwSpec r (optionsWithDefaults opts)) rs)).
Proof.
  intros H. unfold widths. rewrite H.
  rewrite (sumWidths_total _ (fun r => rwSpec r (optionsWithDefaults opts))); [reflexivity|].
  intros; apply runeWidth_spec.
Qed.

Lemma widths_default rs opts : eastAsian (optionsWithDefaults opts) = false -> Forall inRange rs ->
  widths rs opts = Ret (zsum (map (fun r => if r =? 0x2e3b then 0 else rwSpec r defo) rs)).
Proof.
  intros H Hr. unfold widths. rewrite H.
  rewrite (sumWidths_total _ (fun r => if r =? 0x2e3b then 0 else rwSpec r defo)); [reflexivity|].
  intros r Hin. apply cachedWidth_ok. rewrite Forall_forall in Hr. exact (Hr r Hin).
Qed.

Lemma widths_default_panic rs opts : eastAsian (optionsWithDefaults opts) = false ->
  (exists r, In r rs /\ ~ inRange r) -> widths rs opts = Panic.
Proof.
  intros H [r [Hin Hr]]. unfold widths. rewrite H. apply sumWidths_panic.
  exists r. split; [exact Hin|]. apply cachedWidth_panics. unfold inRange in Hr. lia.
Qed.

Lemma widths_panic_iff rs opts :
  widths rs opts = Panic <->
  (eastAsian (optionsWithDefaults opts) = false /\ exists r, In r rs /\ (r < 0 \/ 0x10ffff < r)).
Proof.
  split.
  - intros H. destruct (eastAsian (optionsWithDefaults opts)) eqn:E.
    + rewrite widths_east in H by exact E. discriminate.
    + split; [reflexivity|]. destruct (all_range_dec rs) as [A|[r [Hin Hr]]].
      * rewrite widths_default in H by assumption. discriminate.
      * exists r. split; [exact Hin|]. unfold inRange in Hr. lia.
  - intros [E [r [Hin Hr]]]. apply widths_default_panic; [exact E|]. exists r. unfold inRange. split; [exact Hin|lia].
Qed.

Lemma zsum_app a b : zsum (a ++ b) = zsum a + zsum b.
Proof. induction a as [|x a IH]; cbn [app zsum fold_right] in *; [reflexivity|]. unfold zsum in *. lia. Qed.

Lemma sumWidths_acc f : forall rs acc, sumWidths f rs acc = let! w := sumWidths f rs 0 in Ret (acc + w).
Proof.
  induction rs as [|r rs IH]; intros acc; cbn [sumWidths gbind].
  - f_equal; lia.
  - destruct (f r) as [w|]; cbn [gbind]; [|reflexivity].
    rewrite IH. rewrite (IH (0 + w)). destruct (sumWidths f rs 0); cbn [gbind]; [f_equal; lia|reflexivity].
Qed.

Lemma sumWidths_app f : forall a b acc,
  sumWidths f (a ++ b) acc = let! w := sumWidths f a acc in sumWidths f b w.
Proof.
  induction a as [|r a IH]; intros b acc; cbn [app sumWidths gbind]; [reflexivity|].
  destruct (f r); cbn [gbind]; [apply IH|reflexivity].
Qed.

Lemma widths_app a b opts :
  widths (a ++ b) opts = let! x := widths a opts in let! y := widths b opts in Ret (x + y).
Proof.
  unfold widths. destruct (eastAsian _); rewrite sumWidths_app;
    match goal with |- gbind ?m _ = _ => destruct m end; cbn [gbind]; try reflexivity; apply sumWidths_acc.
Qed.

Definition widthOf (r : rune) (opts : list wopt) : Z := match width r opts with Ret w => w | Panic => 0 end.
Lemma widthOf_eq r opts : widthOf r opts = rwSpec r (optionsWithDefaults opts).
Proof. unfold widthOf. rewrite width_eq. reflexivity. Qed.

(* what Widths really computes *)
Lemma widths_sum_guarded rs opts :
  (eastAsian (optionsWithDefaults opts) = false ->
     Forall (fun r => 0 <= r <= 0x10ffff /\ r <> 0x2e3b) rs) ->
  exists ws, Forall2 (fun r w => width r opts = Ret w) rs ws /\ widths rs opts = Ret (zsum ws).
Proof.
  intros H. exists (map (fun r => rwSpec r (optionsWithDefaults opts)) rs). split.
  - clear H. induction rs as [|r rs IH]; constructor; [apply width_eq|exact IH].
  - destruct (eastAsian (optionsWithDefaults opts)) eqn:E.
    + now apply widths_east.
    + specialize (H eq_refl).
      rewrite widths_default; [|exact E|eapply Forall_impl; [|exact H]; unfold inRange; cbn; lia].
      f_equal. f_equal. apply map_ext_in. intros r Hin.
      rewrite Forall_forall in H. destruct (H r Hin) as [_ Hne].
      destruct (Z.eqb_spec r 0x2e3b); [contradiction|]. now apply rwSpec_noneast.
Qed.

Lemma widths_sum_refuted :
  exists r w, width r [] = Ret w /\ widths [r] [] = Ret 0 /\ w = 4.
Proof. exists 0x2e3b, 4. repeat split; vm_compute; reflexivity. Qed.

Lemma widths_panic_refuted : exists r, width r [] = Ret 0 /\ widths [r] [] = Panic.
Proof. exists (-1). split; vm_compute; reflexivity. Qed.

(* ---------- East-Asian mode and emojis ---------- *)

Lemma east_only_ambiguous r opts wa we :
  eastAsian (optionsWithDefaults opts) = true ->
  skipStrictEmojiNeutral (optionsWithDefaults opts) = false ->
  width r [] = Ret wa -> width r opts = Ret we ->
  (wa <> we -> isAmbiguous r = Ret true) /\
  (isAmbiguous r = Ret true -> wa = 1 -> we = defaultAsianAmbiguousWidth (optionsWithDefaults opts)).
Proof.
  intros HE HS Ha He. rewrite width_eq in Ha, He. injection Ha as <-. injection He as <-.
  unfold isAmbiguous. rewrite inTable_member by (apply ambiguous_sorted || discriminate).
  change (optionsWithDefaults []) with defo. unfold rwSpec. rewrite HE, HS.
  change (eastAsian defo) with false. cbn [negb andb].
  destruct (_ || _) eqn:E1; [split; [congruence|intros _ ?; lia]|].
  destruct (Z.ltb_spec r 0x20); [split; [congruence|intros _ ?; lia]|].
  destruct (((0x7f <=? r) && (r <=? 0x9f)) || (r =? 0xad)) eqn:E2;
    [split; [congruence|intros _ ?; lia]|].
  rewrite andb_false_r, andb_true_r.
  destruct (Z.ltb_spec r 0x300) as [Hlo|Hhi].
  - destruct (Z.eqb_spec r 0x2e3b); [lia|]. destruct (Z.eqb_spec r 0x2e3a); [lia|].
    destruct (memberb r nonprint || memberb r combining) eqn:Z.
    { destruct (low_not_zero r Z Hlo) as [?|[?|?]]; lia. }
    destruct (memberb r narrow) eqn:N.
    { split; [congruence|]. intros A. injection A as A. apply amb_not_narrow in A. congruence. }
    destruct (memberb r doublewidth) eqn:D; [apply double_above in D; lia|].
    destruct (memberb r ambiguous) eqn:A; split; congruence.
  - destruct (r =? 0x2e3b); [split; [congruence|intros _ ?; lia]|].
    destruct (r =? 0x2e3a); [split; [congruence|intros _ ?; lia]|].
    destruct (memberb r nonprint || memberb r combining); [split; [congruence|intros _ ?; lia]|].
    destruct (memberb r narrow) eqn:N.
    { split; [congruence|]. intros A. injection A as A. apply amb_not_narrow in A. congruence. }
    destruct (memberb r doublewidth) eqn:D; [split; [congruence|intros _ ?; lia]|].
    destruct (memberb r ambiguous) eqn:A; split; congruence.
Qed.

Lemma emoji_only r opts :
  let o := optionsWithDefaults opts in
  (eastAsian o = false ->
     width r (opts ++ [WithSkipStrictEmojiNeutral true]) = width r (opts ++ [WithSkipStrictEmojiNeutral false])) /\
  (eastAsian o = true -> forall w0 w1,
     width r (opts ++ [WithSkipStrictEmojiNeutral false]) = Ret w0 ->
     width r (opts ++ [WithSkipStrictEmojiNeutral true]) = Ret w1 -> w0 <> w1 ->
     w0 = 1 /\ w1 = 2 /\ member r emoji /\ ~ member r ambiguous /\ ~ member r narrow /\
     ~ member r doublewidth /\ ~ member r nonprint /\ ~ member r combining).
Proof.
  intros o.
  assert (Ho : forall b, optionsWithDefaults (opts ++ [WithSkipStrictEmojiNeutral b]) =
     mkWopts (eastAsian o) b (defaultAsianAmbiguousWidth o)).
  { intros b. unfold o, optionsWithDefaults. rewrite fold_left_app. reflexivity. }
  split.
  - intros E. rewrite !width_eq, !Ho. f_equal. now apply rwSpec_noneast.
  - intros E w0 w1 H0 H1 Hne. rewrite width_eq, Ho in H0, H1. injection H0 as <-. injection H1 as <-.
    rewrite E in *. rewrite <- !memberb_iff. revert Hne. unfold rwSpec. cbn [eastAsian skipStrictEmojiNeutral defaultAsianAmbiguousWidth].
    cbn [andb negb].
    destruct (_ || _); [congruence|]. destruct (_ <? 0x20); [congruence|]. destruct (_ || _); [congruence|].
    destruct (_ && _); [congruence|]. destruct (r =? _); [congruence|]. destruct (r =? _); [congruence|].
    destruct (memberb r nonprint); [cbn [orb]; congruence|].
    destruct (memberb r combining); [cbn [orb]; congruence|]. cbn [orb].
    destruct (memberb r narrow); [congruence|]. destruct (memberb r doublewidth); [congruence|].
    destruct (memberb r ambiguous); [congruence|]. destruct (memberb r emoji); [|congruence].
    intros _. repeat split; congruence.
Qed.

Lemma isAmbiguous_iff r : (isAmbiguous r = Ret true <-> member r ambiguous) /\
                          (isAmbiguous r = Ret false <-> ~ member r ambiguous).
Proof.
  unfold isAmbiguous. rewrite inTable_member by (apply ambiguous_sorted || discriminate).
  rewrite <- memberb_iff. destruct (memberb r ambiguous); split; split; congruence.
Qed.

Lemma inTable_iff r t : sorted t -> t <> [] ->
  (inTable r t = Ret true <-> member r t) /\ (inTable r t = Ret false <-> ~ member r t).
Proof.
  intros Hs Hn. rewrite inTable_member by assumption. rewrite <- memberb_iff.
  destruct (memberb r t); split; split; congruence.
Qed.

Lemma tables_sorted : Forall (fun t => sorted t /\ t <> [])
  [nonprint; combining; doublewidth; ambiguous; narrow; neutral; emoji].
Proof.
  repeat (apply Forall_cons; [split; [first [apply nonprint_sorted|apply combining_sorted|apply narrow_sorted
    |apply doublewidth_sorted|apply ambiguous_sorted|apply emoji_sorted|apply neutral_sorted]|discriminate]|]).
  constructor.
Qed.

(* ---------- exact widths ---------- *)
Lemma setting_fold {O T S} (pick : O -> option T) (get : S -> T) (app : S -> O -> S) opts :
  (forall s o, get (app s o) = match pick o with Some v => v | None => get s end) ->
  forall s, setting pick (get s) opts (get (fold_left app opts s)).
Proof.
  intros H. induction opts as [|o opts IH] using rev_ind; intros s; [left; split; [constructor|reflexivity]|].
  rewrite fold_left_app. cbn [fold_left]. rewrite H. destruct (pick o) as [v|] eqn:E.
  - right. exists opts, o, []. split; [reflexivity|]. split; [exact E|constructor].
  - destruct (IH s) as [[F ->]|(a & x & b & -> & P & F)].
    + left. split; [|reflexivity]. apply Forall_app. split; [exact F|]. now constructor.
    + right. exists a, x, (b ++ [o]). split; [now rewrite <- app_assoc|]. split; [exact P|]. apply Forall_app. split; [exact F|now constructor].
Qed.
Definition pickEast (o : wopt) := match o with WithEastAsian b => Some b | _ => None end.
Definition pickSkip (o : wopt) := match o with WithSkipStrictEmojiNeutral b => Some b | _ => None end.
Definition pickAmb (o : wopt) := match o with WithEastAsianAmbiguousWidth w => Some w | _ => None end.
Lemma settings_wopts opts : let o := optionsWithDefaults opts in
  setting pickEast false opts (eastAsian o) /\ setting pickSkip false opts (skipStrictEmojiNeutral o) /\
  setting pickAmb 2 opts (defaultAsianAmbiguousWidth o).
Proof.
  repeat split.
  - apply (setting_fold pickEast eastAsian applyWopt). intros s []; reflexivity.
  - apply (setting_fold pickSkip skipStrictEmojiNeutral applyWopt). intros s []; reflexivity.
  - apply (setting_fold pickAmb defaultAsianAmbiguousWidth applyWopt). intros s []; reflexivity.
Qed.
Lemma setting_fun {O T} (pick : O -> option T) d opts v w : setting pick d opts v -> setting pick d opts w -> v = w.
Proof.
  assert (forall a (o : O) b l, l = a ++ o :: b -> Forall (fun o => pick o = None) l -> pick o = None) as K.
  { intros a o b l -> H. rewrite Forall_forall in H. apply H, in_or_app. right. now left. }
  intros [[F ->]|(a & x & b & E & P & F)] [[F2 ->]|(a2 & x2 & b2 & E2 & P2 & F2)]; [reflexivity| | |].
  - rewrite (K _ _ _ _ E2 F) in P2. discriminate.
  - rewrite (K _ _ _ _ E F2) in P. discriminate.
  - assert (forall l1 (o1 : O) l2 m1 o2 m2, l1 ++ o1 :: l2 = m1 ++ o2 :: m2 -> pick o1 = Some v -> pick o2 = Some w ->
      Forall (fun o => pick o = None) l2 -> Forall (fun o => pick o = None) m2 -> v = w) as G.
    { clear. induction l1 as [|y l1 IH]; intros o1 l2 [|z m1] o2 m2 E P1 P2 F1 F2; cbn in E; injection E as E0 E.
      - congruence.
      - subst l2. rewrite Forall_forall in F1. rewrite (F1 o2) in P2 by (apply in_or_app; right; now left). discriminate.
      - subst m2. rewrite Forall_forall in F2. rewrite (F2 o1) in P1 by (apply in_or_app; right; now left). discriminate.
      - apply (IH _ _ _ _ _ E P1 P2 F1 F2). }
    subst opts. apply (G _ _ _ _ _ _ E2 P P2 F F2).
Qed.
Lemma dash_ordinary r : r = 0x2e3a \/ r = 0x2e3b -> ~ invisible r.
Proof.
  intros H. assert (scalar r /\ r <> 0xfffd /\ memberb r nonprint = false /\ memberb r combining = false) as (H1 & H2 & H3 & H4).
  { unfold scalar. repeat split; try (destruct H as [-> | ->]; vm_compute; reflexivity); destruct H; lia. }
  intros [K|[K|[K|K]]]; [tauto|tauto| |]; apply memberb_iff in K; congruence.
Qed.
Lemma columns_fun east skip amb r v w : columns east skip amb r v -> columns east skip amb r w -> v = w.
Proof.
  pose proof (dash_ordinary r) as D.
  intros H1 H2; inversion H1; inversion H2; subst; try reflexivity; unfold ordinary in *; exfalso; try tauto;
    try (apply D; tauto); try lia; intuition congruence.
Qed.
Lemma nonprint_low r : 0 <= r < 0x20 \/ 0x7f <= r <= 0x9f \/ r = 0xad -> memberb r nonprint = true.
Proof. intros H. apply memberb_iff. unfold member, nonprint, inInterval.
  destruct H as [H|[H|H]]; [exists (0x0, 0x1f)|exists (0x7f, 0x9f)|exists (0xad, 0xad)]; (split; [cbn; tauto|cbn; lia]). Qed.
Lemma rwSpec_columns r o : columns (eastAsian o) (skipStrictEmojiNeutral o) (defaultAsianAmbiguousWidth o) r (rwSpec r o).
Proof.
  assert (forall t, memberb r t = false -> ~ member r t) as M by (intros t H K; apply memberb_iff in K; congruence).
  assert (forall t, memberb r t = true -> member r t) as M' by (intros t; apply memberb_iff).
  unfold rwSpec. destruct (negb (validRune r) || (r =? runeError)) eqn:E1.
  { apply col_invisible. unfold invisible, scalar, validRune, runeError in *. apply orb_prop in E1. destruct E1; [left|right; left]; lia. }
  assert (scalar r /\ r <> 0xfffd) as [Hs Hf] by (unfold scalar, validRune, runeError in *; lia).
  destruct (r <? 0x20) eqn:E2.
  { apply col_invisible. right. right. left. apply M', nonprint_low. unfold scalar in Hs. lia. }
  destruct (((0x7f <=? r) && (r <=? 0x9f)) || (r =? 0xad)) eqn:E3.
  { apply col_invisible. right. right. left. apply M', nonprint_low. lia. }
  assert (memberb r nonprint || memberb r combining = false -> ~ invisible r) as Hv.
  { intros H. apply orb_false_elim in H. intros [K|[K|[K|K]]]; [tauto|tauto| |]; apply memberb_iff in K; destruct H; congruence. }
  destruct (memberb r nonprint || memberb r combining) eqn:Ez.
  - destruct ((r <? 0x300) && negb (eastAsian o)) eqn:E4; [pose proof (low_not_zero r Ez); lia|].
    assert (invisible r) as I by (apply orb_prop in Ez; unfold invisible; destruct Ez; auto).
    destruct (r =? 0x2e3b) eqn:E5; [exfalso; apply (dash_ordinary r); [lia|exact I]|].
    destruct (r =? 0x2e3a) eqn:E6; [exfalso; apply (dash_ordinary r); [lia|exact I]|]. now apply col_invisible.
  - specialize (Hv eq_refl). destruct ((r <? 0x300) && negb (eastAsian o)) eqn:E4.
    { assert (ordinary r) as O by (split; [exact Hv|lia]). destruct (memberb r narrow) eqn:En; [apply col_narrow; auto|].
      apply col_usual; auto; [|destruct (eastAsian o); [lia|reflexivity]]. apply M. destruct (memberb r doublewidth) eqn:Ed; [apply double_above in Ed; lia|reflexivity]. }
    destruct (r =? 0x2e3b) eqn:E5; [apply col_three_em_dash; lia|]. destruct (r =? 0x2e3a) eqn:E6; [apply col_two_em_dash; lia|].
    assert (ordinary r) as O by (split; [exact Hv|lia]).
    destruct (memberb r narrow) eqn:En; [apply col_narrow; auto|]. destruct (memberb r doublewidth) eqn:Ed; [apply col_wide; auto|].
    destruct (eastAsian o) eqn:Ee; cbn [negb]; [|apply col_usual; auto].
    destruct (memberb r ambiguous) eqn:Eam; [apply col_ambiguous; auto|].
    destruct (skipStrictEmojiNeutral o) eqn:Esk; cbn [andb]; [|apply col_other; auto].
    destruct (memberb r emoji) eqn:Eem; [apply col_emoji; auto|apply col_other; auto].
Qed.
Lemma width_exact r opts east skip amb w : setting pickEast false opts east -> setting pickSkip false opts skip -> setting pickAmb 2 opts amb ->
  (width r opts = Ret w <-> columns east skip amb r w).
Proof.
  intros H1 H2 H3. destruct (settings_wopts opts) as (K1 & K2 & K3). pose proof (rwSpec_columns r (optionsWithDefaults opts)) as C.
  rewrite <- (setting_fun _ _ _ _ _ H1 K1), <- (setting_fun _ _ _ _ _ H2 K2), <- (setting_fun _ _ _ _ _ H3 K3) in C.
  rewrite width_eq. split; [intros E; injection E as <-; exact C|]. intros C'. f_equal. apply (columns_fun _ _ _ _ _ _ C C').
Qed.
