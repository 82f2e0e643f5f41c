(** Where the parts returned by the word breakers live in memory. The models of Split.v and Hyph.v return the contents of the
    parts; here the same loops return the parts as Go slices. *)
From Verif Require Import Base Unicode Split Trie Dict Hyph HyphProofs.

(** A part: the elements a to b of the array of the word, up to whose end it can grow ([s[a:b]] keeps the capacity), or a
    one-rune slice of its own ([[]rune{r}], of capacity 1). *)
Inductive part := Shared (a b : Z) | Fresh (r : rune).
Definition content (arr : list rune) (p : part) : list rune :=
  match p with Shared a b => firstn (Z.to_nat (b - a)) (skipn (Z.to_nat a) arr) | Fresh r => [r] end.
(** [arr] once the elements from a on are replaced by xs *)
Definition write (arr : list rune) (a : Z) (xs : list rune) : list rune :=
  firstn (Z.to_nat a) arr ++ xs ++ skipn (Z.to_nat a + length xs) arr.
(** [p[i] = x]: the array of the word afterwards; a panic changes nothing. *)
Definition setElem (arr : list rune) (p : part) (i : Z) (x : rune) : list rune :=
  match p with
  | Shared a b => if (0 <=? i) && (i <? b - a) then write arr (a + i) [x] else arr
  | Fresh _ => arr
  end.
(** [append(p, xs...)]: the array of the word afterwards. Elements are written in place when there is room. *)
Definition appendTo (arr : list rune) (p : part) (xs : list rune) : list rune :=
  match p with
  | Shared a b => if b + zlen xs <=? zlen arr then write arr b xs else arr
  | Fresh _ => arr
  end.

(** [word[a:b]] for a word that starts at index [off] of its array *)
Definition sub (off : Z) (word : list rune) (a b : Z) : go part :=
  if (0 <=? a) && (a <=? b) && (b <=? zlen word) then Ret (Shared (off + a) (off + b)) else Panic.

(** Models [FieldsFunc] (terminal/runes/fields.go:4-29), like [fields_loop] and [fieldsFunc]. *)
Fixpoint fields_parts (off : Z) (f : rune -> bool) (inp rest : list rune) (e start : Z) (tokens : list part) : go (list part) :=
  match rest with
  | [] => if 0 <=? start then let! t := sub off inp start (zlen inp) in Ret (tokens ++ [t]) else Ret tokens
  | r :: rest' =>
      if f r
      then if 0 <=? start
           then let! t := sub off inp start e in fields_parts off f inp rest' (e + 1) (Z.lnot start) (tokens ++ [t])
           else fields_parts off f inp rest' (e + 1) start tokens
      else fields_parts off f inp rest' (e + 1) (if start <? 0 then e else start) tokens
  end.
Definition fieldsParts (off : Z) (f : rune -> bool) (inp : list rune) : go (list part) := fields_parts off f inp inp 0 (-1) [].

(** Models [breakAtFunc] (wordbreak/punctuator/punctuator.go:45-64) and [SplitWord]
    (wordbreak/hyphenator/hyphenator.go:212-231), like [break_loop]. *)
Fixpoint break_parts (off : Z) (isBreak : rune -> bool) (word rest : list rune) (i previous : Z) (result : list part) : go (list part) :=
  match rest with
  | [] => if previous <? zlen word then let! t := sub off word previous (zlen word) in Ret (result ++ [t]) else Ret result
  | r :: rest' =>
      if isBreak r
      then
        let! result1 :=
          (if (0 <? i) && (previous <? zlen word) && (previous <? i)
           then let! t := sub off word previous i in Ret (result ++ [t])
           else Ret result) in
        break_parts off isBreak word rest' (i + 1) (i + 1) (result1 ++ [Fresh r])
      else break_parts off isBreak word rest' (i + 1) previous result
  end.
Definition breakAtParts (off : Z) (isBreak : rune -> bool) (word : list rune) : go (list part) := break_parts off isBreak word word 0 0 [].

(** Models [splitAtPositions] (hyphenator.go:164-184), like [split_loop]. *)
Fixpoint split_parts (off : Z) (o : hoptions) (word : list rune) (length : Z) (positions : list Z) (i previous : Z)
  (parts : list part) : go (list part) :=
  match positions with
  | [] => let! t := sub off word previous (zlen word) in Ret (parts ++ [t])
  | pos :: positions' =>
      if (pos =? 0) || (Z.rem pos 2 =? 0) then split_parts off o word length positions' (i + 1) previous parts
      else if (i - previous <? o_minLeft o) || (length - i <? o_minRight o)
      then split_parts off o word length positions' (i + 1) previous parts
      else let! t := sub off word previous i in split_parts off o word length positions' (i + 1) i (parts ++ [t])
  end.
(** Models [Hyphenator.BreakWord] (hyphenator.go:46-84), like [breakWord]. *)
Definition breakWordParts (off : Z) (u : unicode) (d : dictionary) (o : hoptions) (word : list rune) : go (list part) :=
  let wordLength := zlen word in
  if containsHyphen word || (wordLength <? o_minLength o) then Ret [Shared off (off + zlen word)]
  else match isException d word with
  | Some breakPoints => split_parts off o word wordLength breakPoints 0 0 []
  | None =>
      let! p1 := positions_loop u d word (length word) 0 (repeat 0 30) in
      let! p2 := slice p1 1 (zlen p1 - 1) in
      let! p0 := indexAt p2 0 in
      let! p3 :=
        (if 0 <? p0 then setAt p2 0 0
         else if wordLength <? zlen p2
              then let! pw := indexAt p2 (length word) in
                   if 0 <? pw then setAt p2 (length word) 0 else Ret p2
              else Ret p2) in
      split_parts off o word wordLength p3 0 0 []
  end.

(** ** The parts have the contents given by the models *)
Section Sim.
Variable pre word post : list rune.
Notation arr := (pre ++ word ++ post).
Notation off := (zlen pre).
Definition sim (g : go (list (list rune))) (h : go (list part)) : Prop :=
  match g, h with Ret a, Ret b => a = map (content arr) b | Panic, Panic => True | _, _ => False end.
Lemma sub_content a b : 0 <= a -> a <= b -> b <= zlen word ->
  content arr (Shared (off + a) (off + b)) = firstn (Z.to_nat (b - a)) (skipn (Z.to_nat a) word).
Proof.
  intros H1 H2 H3. unfold content. replace (off + b - (off + a)) with (b - a) by lia.
  rewrite Z2Nat.inj_add by (unfold zlen; lia || lia). rewrite skipn_app. unfold zlen in *. rewrite Nat2Z.id.
  rewrite skipn_all2 by lia. cbn [app]. replace (length pre + Z.to_nat a - length pre)%nat with (Z.to_nat a) by lia.
  rewrite skipn_app, firstn_app. replace (Z.to_nat (b - a) - length (skipn (Z.to_nat a) word))%nat with 0%nat by (rewrite skipn_length; lia).
  cbn [firstn]. apply app_nil_r.
Qed.
Lemma sim_sub a b k h : (forall p, sim (k (content arr p)) (h p)) -> sim (let! t := slice word a b in k t) (let! p := sub off word a b in h p).
Proof.
  intros H. unfold slice, sub. destruct (Z.leb_spec 0 a); [|exact I]. destruct (Z.leb_spec a b); [|exact I].
  destruct (Z.leb_spec b (zlen word)); [|exact I]. cbn [andb gbind]. rewrite <- sub_content by assumption. apply H.
Qed.
Lemma sim_snoc tokens p : map (content arr) tokens ++ [content arr p] = map (content arr) (tokens ++ [p]).
Proof. now rewrite map_app. Qed.
Lemma fields_sim f rest : forall e start tokens,
  sim (fields_loop f word rest e start (map (content arr) tokens)) (fields_parts off f word rest e start tokens).
Proof.
  induction rest as [|r rest IH]; intros e start tokens; cbn [fields_loop fields_parts].
  - destruct (0 <=? start); [|reflexivity]. apply sim_sub. intros p. cbn [sim]. apply sim_snoc.
  - destruct (f r); [|apply IH]. destruct (0 <=? start); [|apply IH]. apply sim_sub. intros p. rewrite sim_snoc. apply IH.
Qed.
Lemma break_sim f rest : forall i previous result,
  sim (break_loop f word rest i previous (map (content arr) result)) (break_parts off f word rest i previous result).
Proof.
  induction rest as [|r rest IH]; intros i previous result; cbn [break_loop break_parts].
  - destruct (previous <? zlen word); [|reflexivity]. apply sim_sub. intros p. cbn [sim]. apply sim_snoc.
  - destruct (f r); [|apply IH]. assert (forall rs, sim (break_loop f word rest (i + 1) (i + 1) (map (content arr) rs ++ [[r]]))
      (break_parts off f word rest (i + 1) (i + 1) (rs ++ [Fresh r]))) as K.
    { intros rs. change [r] with (content arr (Fresh r)). rewrite sim_snoc. apply IH. }
    destruct ((0 <? i) && (previous <? zlen word) && (previous <? i)); [|cbn [gbind]; apply K].
    assert (forall (g : go (list rune)) (h : go part) k1 k2, sim (let! t := g in k1 (map (content arr) result ++ [t])) (let! p := h in k2 (result ++ [p])) ->
      sim (let! r1 := (let! t := g in Ret (map (content arr) result ++ [t])) in k1 r1) (let! r1 := (let! p := h in Ret (result ++ [p])) in k2 r1)) as Q
      by (intros [g|] [h|] k1 k2 Hs; exact Hs).
    apply (Q _ _ (fun r1 => break_loop f word rest (i + 1) (i + 1) (r1 ++ [[r]])) (fun r1 => break_parts off f word rest (i + 1) (i + 1) (r1 ++ [Fresh r]))).
    apply (sim_sub _ _ (fun t => break_loop f word rest (i + 1) (i + 1) ((map (content arr) result ++ [t]) ++ [[r]]))).
    intros p. rewrite sim_snoc. apply K.
Qed.
Lemma split_sim o n pos : forall i previous parts,
  sim (split_loop o word n pos i previous (map (content arr) parts)) (split_parts off o word n pos i previous parts).
Proof.
  induction pos as [|x pos IH]; intros i previous parts; cbn [split_loop split_parts].
  - apply sim_sub. intros p. cbn [sim]. apply sim_snoc.
  - destruct ((x =? 0) || (Z.rem x 2 =? 0)); [apply IH|]. destruct ((i - previous <? o_minLeft o) || (n - i <? o_minRight o)); [apply IH|].
    apply sim_sub. intros p. rewrite sim_snoc. apply IH.
Qed.
Lemma fields_same f : sim (fieldsFunc word f) (fieldsParts off f word).
Proof. apply (fields_sim f word 0 (-1) []). Qed.
Lemma breakAt_same f : sim (breakAtFunc word f) (breakAtParts off f word).
Proof. apply (break_sim f word 0 0 []). Qed.
Lemma breakWord_same u d o : sim (breakWord u d o word) (breakWordParts off u d o word).
Proof.
  unfold breakWord, breakWordParts, splitAtPositions. cbv zeta. destruct (containsHyphen word || (zlen word <? o_minLength o)).
  - cbn [sim map]. f_equal. replace off with (off + 0) at 1 by lia. rewrite sub_content by (unfold zlen; lia).
    rewrite Z.sub_0_r. unfold zlen. rewrite Nat2Z.id. cbn [Z.to_nat skipn]. now rewrite firstn_all.
  - destruct (isException d word) as [bp|]; [apply (split_sim o (zlen word) bp 0 0 [])|].
    destruct (positions_loop _ _ _ _ _ _) as [p1|]; [|exact I]. cbn [gbind]. destruct (slice p1 1 (zlen p1 - 1)) as [p2|]; [|exact I]. cbn [gbind].
    destruct (indexAt p2 0) as [p0|]; [|exact I]. cbn [gbind].
    match goal with |- sim (let! p3 := ?X in _) _ => destruct X as [p3|] end; [|exact I]. cbn [gbind]. apply (split_sim o (zlen word) p3 0 0 []).
Qed.
End Sim.

(** ** The parts do not overlap *)
Fixpoint asc (lo : Z) (ps : list part) (hi : Z) : Prop :=
  match ps with
  | [] => lo <= hi
  | Shared a b :: ps' => lo <= a <= b /\ asc b ps' hi
  | Fresh _ :: ps' => asc lo ps' hi
  end.
Lemma asc_le lo ps hi hi' : asc lo ps hi -> hi <= hi' -> asc lo ps hi'.
Proof. revert lo. induction ps as [|[a b|r] ps IH]; intros lo H Hh; cbn [asc] in *; [lia|destruct H; split; auto|auto]. Qed.
Lemma asc_shared lo ps hi a b : asc lo ps hi -> hi <= a -> a <= b -> asc lo (ps ++ [Shared a b]) b.
Proof. revert lo. induction ps as [|[c d|r] ps IH]; intros lo H H1 H2; cbn [asc app] in *; [lia|destruct H; split; auto|auto]. Qed.
Lemma asc_fresh lo ps hi r : asc lo ps hi -> asc lo (ps ++ [Fresh r]) hi.
Proof. revert lo. induction ps as [|[c d|q] ps IH]; intros lo H; cbn [asc app] in *; [lia|destruct H; split; auto|auto]. Qed.
Lemma sub_bounds off word a b p : sub off word a b = Ret p -> p = Shared (off + a) (off + b) /\ 0 <= a <= b /\ b <= zlen word.
Proof.
  unfold sub. destruct (Z.leb_spec 0 a); [|discriminate]. destruct (Z.leb_spec a b); [|discriminate].
  destruct (Z.leb_spec b (zlen word)); [|discriminate]. intros [= <-]. repeat split; lia.
Qed.
Lemma fields_asc off f inp rest : forall e start tokens ps, 0 <= e -> start <= e -> e + zlen rest = zlen inp ->
  asc off tokens (off + (if 0 <=? start then start else e)) ->
  fields_parts off f inp rest e start tokens = Ret ps -> asc off ps (off + zlen inp).
Proof.
  induction rest as [|r rest IH]; intros e start tokens ps He Hs Hl Ha E; cbn [fields_parts] in E.
  - rewrite zlen_nil in Hl. destruct (Z.leb_spec 0 start) as [H|H].
    + destruct (sub off inp start (zlen inp)) as [t|] eqn:Et; [|discriminate]. injection E as <-. apply sub_bounds in Et.
      destruct Et as (-> & Hb & _). apply asc_shared with (off + start); [exact Ha|lia|lia].
    + injection E as <-. apply asc_le with (1 := Ha). lia.
  - rewrite zlen_cons in Hl. destruct (f r).
    + destruct (Z.leb_spec 0 start) as [H|H].
      * destruct (sub off inp start e) as [t|] eqn:Et; [|discriminate]. cbn [gbind] in E. apply sub_bounds in Et. destruct Et as (-> & Hb & _).
        apply (IH (e + 1) (Z.lnot start) _ ps) in E; [exact E|lia|pose proof (Z.lnot_nonneg start); lia|lia|].
        assert (0 <=? Z.lnot start = false) as -> by (apply Z.leb_gt; unfold Z.lnot; lia).
        apply asc_le with (off + e); [|lia]. apply asc_shared with (off + start); [exact Ha|lia|lia].
      * apply (IH (e + 1) start tokens ps) in E; [exact E|lia|lia|lia|]. destruct (Z.leb_spec 0 start); [lia|]. apply asc_le with (1 := Ha). lia.
    + apply (IH (e + 1) (if start <? 0 then e else start) tokens ps) in E; [exact E|lia|destruct (start <? 0); lia|lia|].
      destruct (Z.ltb_spec start 0) as [H|H].
      * destruct (Z.leb_spec 0 start); [lia|]. destruct (Z.leb_spec 0 e); [exact Ha|lia].
      * destruct (Z.leb_spec 0 start); [exact Ha|lia].
Qed.
Lemma break_asc off f word rest : forall i previous result ps, previous <= i -> i + zlen rest = zlen word ->
  asc off result (off + previous) -> break_parts off f word rest i previous result = Ret ps -> asc off ps (off + zlen word).
Proof.
  induction rest as [|r rest IH]; intros i previous result ps Hp Hl Ha E; cbn [break_parts] in E.
  - rewrite zlen_nil in Hl. destruct (Z.ltb_spec previous (zlen word)) as [H|H].
    + destruct (sub off word previous (zlen word)) as [t|] eqn:Et; [|discriminate]. injection E as <-. apply sub_bounds in Et.
      destruct Et as (-> & Hb & _). apply asc_shared with (off + previous); [exact Ha|lia|lia].
    + injection E as <-. apply asc_le with (1 := Ha). lia.
  - rewrite zlen_cons in Hl. destruct (f r); [|now apply (IH (i + 1) previous result ps) in E; [exact E|lia|lia|]].
    destruct ((0 <? i) && (previous <? zlen word) && (previous <? i)).
    + destruct (sub off word previous i) as [t|] eqn:Et; [|discriminate]. cbn [gbind] in E. apply sub_bounds in Et. destruct Et as (-> & Hb & _).
      apply (IH (i + 1) (i + 1) _ ps) in E; [exact E|lia|lia|]. apply asc_fresh. apply asc_le with (off + i); [|lia].
      apply asc_shared with (off + previous); [exact Ha|lia|lia].
    + cbn [gbind] in E. apply (IH (i + 1) (i + 1) _ ps) in E; [exact E|lia|lia|]. apply asc_fresh. apply asc_le with (1 := Ha). lia.
Qed.
(** the parts of a hyphenated word touch each other *)
Fixpoint chain (lo : Z) (ps : list part) (hi : Z) : Prop :=
  match ps with
  | [] => lo = hi
  | Shared a b :: ps' => a = lo /\ a <= b /\ chain b ps' hi
  | Fresh _ :: _ => False
  end.
Lemma chain_snoc lo ps hi b : chain lo ps hi -> hi <= b -> chain lo (ps ++ [Shared hi b]) b.
Proof. revert lo. induction ps as [|[c d|r] ps IH]; intros lo H Hb; cbn [chain app] in *; [lia|destruct H as (? & ? & ?); auto|contradiction]. Qed.
Lemma chain_asc lo ps hi : chain lo ps hi -> asc lo ps hi.
Proof. revert lo. induction ps as [|[a b|r] ps IH]; intros lo H; cbn [chain asc] in *; [lia|destruct H as (? & ? & ?); split; [lia|auto]|contradiction]. Qed.
Lemma split_chain off o word n pos : forall i previous parts ps, chain off parts (off + previous) ->
  split_parts off o word n pos i previous parts = Ret ps -> chain off ps (off + zlen word).
Proof.
  induction pos as [|x pos IH]; intros i previous parts ps Hc E; cbn [split_parts] in E.
  - destruct (sub off word previous (zlen word)) as [t|] eqn:Et; [|discriminate]. injection E as <-. apply sub_bounds in Et.
    destruct Et as (-> & Hb & _). apply chain_snoc; [exact Hc|lia].
  - destruct ((x =? 0) || (Z.rem x 2 =? 0)); [now apply IH in E|]. destruct ((i - previous <? o_minLeft o) || (n - i <? o_minRight o)); [now apply IH in E|].
    destruct (sub off word previous i) as [t|] eqn:Et; [|discriminate]. cbn [gbind] in E. apply sub_bounds in Et. destruct Et as (-> & Hb & _).
    apply IH in E; [exact E|]. apply chain_snoc; [exact Hc|lia].
Qed.
Lemma breakWord_chain off u d o word ps : breakWordParts off u d o word = Ret ps -> chain off ps (off + zlen word).
Proof.
  unfold breakWordParts. cbv zeta. destruct (containsHyphen word || (zlen word <? o_minLength o)).
  - intros [= <-]. cbn [chain]. unfold zlen. lia.
  - assert (chain off [] (off + 0)) as Hc by (cbn; lia).
    destruct (isException d word) as [bp|]; [now apply split_chain|].
    destruct (positions_loop _ _ _ _ _ _) as [p1|]; [|discriminate]. cbn [gbind]. destruct (slice p1 1 (zlen p1 - 1)) as [p2|]; [|discriminate].
    cbn [gbind]. destruct (indexAt p2 0) as [p0|]; [|discriminate]. cbn [gbind].
    match goal with |- (let! p3 := ?X in _) = _ -> _ => destruct X as [p3|] end; [|discriminate]. cbn [gbind]. now apply split_chain.
Qed.

(** ** Writes *)
Lemma write_nth arr a xs k : 0 <= a -> a + zlen xs <= zlen arr ->
  nth_error (write arr a xs) k = if (k <? Z.to_nat a)%nat then nth_error arr k
    else if (k <? Z.to_nat a + length xs)%nat then nth_error xs (k - Z.to_nat a) else nth_error arr k.
Proof.
  intros Ha Hl. unfold write, zlen in *. assert (length (firstn (Z.to_nat a) arr) = Z.to_nat a) as Ef by (rewrite firstn_length; lia).
  destruct (Nat.ltb_spec k (Z.to_nat a)) as [H|H].
  - rewrite nth_error_app1 by lia. rewrite <- (firstn_skipn (Z.to_nat a) arr) at 2. rewrite nth_error_app1 by lia. reflexivity.
  - rewrite nth_error_app2 by lia. rewrite Ef. destruct (Nat.ltb_spec k (Z.to_nat a + length xs)) as [H2|H2].
    + now rewrite nth_error_app1 by lia.
    + rewrite nth_error_app2 by lia. rewrite <- (firstn_skipn (Z.to_nat a + length xs) arr) at 2. rewrite nth_error_app2; rewrite firstn_length; [|lia].
      f_equal. lia.
Qed.
Lemma content_nth arr a b k : 0 <= a -> (k < Z.to_nat (b - a))%nat -> nth_error (content arr (Shared a b)) k = nth_error arr (Z.to_nat a + k).
Proof.
  intros Ha Hk. cbn [content]. revert arr. generalize (Z.to_nat (b - a)) (Z.to_nat a) Hk. clear. intros l o. revert l k. induction o as [|o IH]; intros l k H arr.
  - cbn [skipn Nat.add]. revert l H arr. induction k as [|k IHk]; intros [|l] H [|x arr]; try lia; try reflexivity. cbn. apply IHk. lia.
  - destruct arr as [|x arr]; [now rewrite skipn_nil, firstn_nil; destruct k|]. cbn [skipn Nat.add nth_error]. now apply IH.
Qed.
Lemma content_length arr a b : 0 <= a -> length (content arr (Shared a b)) = Nat.min (Z.to_nat (b - a)) (length arr - Z.to_nat a).
Proof. intros Ha. cbn [content]. now rewrite firstn_length, skipn_length. Qed.
Lemma list_nth_eq {X} (l1 l2 : list X) : (forall k, nth_error l1 k = nth_error l2 k) -> l1 = l2.
Proof.
  revert l2. induction l1 as [|x l1 IH]; intros [|y l2] H; [reflexivity|discriminate (H 0%nat)|discriminate (H 0%nat)|].
  pose proof (H 0%nat) as H0. injection H0 as ->. f_equal. apply IH. intros k. exact (H (S k)).
Qed.
Lemma write_length arr a xs : 0 <= a -> a + zlen xs <= zlen arr -> length (write arr a xs) = length arr.
Proof. intros Ha Hl. unfold write, zlen in *. rewrite !app_length, firstn_length, skipn_length. lia. Qed.
(** writing outside of a part *)
Lemma write_outside arr a xs c d : 0 <= a -> a + zlen xs <= zlen arr -> 0 <= c -> d <= a \/ a + zlen xs <= c ->
  content (write arr a xs) (Shared c d) = content arr (Shared c d).
Proof.
  intros Ha Hl Hc Hd. apply list_nth_eq. intros k. destruct (Nat.ltb_spec k (Z.to_nat (d - c))) as [H|H].
  - rewrite !content_nth by assumption. rewrite write_nth by assumption.
    destruct (Nat.ltb_spec (Z.to_nat c + k) (Z.to_nat a)); [reflexivity|].
    destruct (Nat.ltb_spec (Z.to_nat c + k) (Z.to_nat a + length xs)); [unfold zlen in *; lia|reflexivity].
  - pose proof (content_length (write arr a xs) c d Hc). pose proof (content_length arr c d Hc).
    rewrite (proj2 (nth_error_None _ _)), (proj2 (nth_error_None _ _)) by lia. reflexivity.
Qed.
(** writing at the start of a part *)
Lemma write_start arr c d x y t : 0 <= c -> content arr (Shared c d) = y :: t -> content (write arr c [x]) (Shared c d) = x :: t.
Proof.
  intros Hc E. assert (0 < d - c /\ c < zlen arr) as [H1 H2].
  { pose proof (content_length arr c d Hc) as K. rewrite E in K. cbn [length] in K. unfold zlen. lia. }
  assert (c + zlen [x] <= zlen arr) as H3 by (change (zlen [x]) with 1; lia).
  apply list_nth_eq. intros k. destruct (Nat.ltb_spec k (Z.to_nat (d - c))) as [H|H].
  - rewrite content_nth by assumption. rewrite write_nth by assumption. destruct (Nat.ltb_spec (Z.to_nat c + k) (Z.to_nat c)); [lia|].
    cbn [length]. destruct (Nat.ltb_spec (Z.to_nat c + k) (Z.to_nat c + 1)).
    + replace k with 0%nat by lia. rewrite Nat.add_0_r, Nat.sub_diag. reflexivity.
    + destruct k as [|k]; [lia|]. rewrite <- (content_nth arr c d (S k) Hc) by lia. rewrite E. reflexivity.
  - rewrite (proj2 (nth_error_None _ _)) by (rewrite content_length by assumption; lia).
    symmetry. apply nth_error_None. assert (length (y :: t) <= Z.to_nat (d - c))%nat as K by (rewrite <- E, content_length by assumption; lia).
    cbn [length] in *. lia.
Qed.

(** ** Independence *)
Definition independent (arr : list rune) (ps : list part) : Prop := forall i j p q k x, i <> j -> nth_error ps i = Some p -> nth_error ps j = Some q ->
  content (setElem arr p k x) q = content arr q.
Lemma asc_in lo ps hi i a b : asc lo ps hi -> nth_error ps i = Some (Shared a b) -> lo <= a <= b /\ b <= hi.
Proof.
  revert lo i. induction ps as [|p ps IH]; intros lo i H E; [destruct i; discriminate|]. destruct i as [|i]; cbn in E.
  - injection E as ->. destruct H as [H1 H2]. assert (b <= hi); [|lia]. clear -H2. revert b H2.
    induction ps as [|[c d|r] ps IH]; intros b H; cbn [asc] in H; [lia|destruct H as [H1 H2]; apply IH in H2; lia|auto].
  - destruct p as [c d|r]; cbn [asc] in H; [destruct H as [H1 H2]; apply (IH _ _ H2) in E; lia|now apply (IH _ _ H) in E].
Qed.
Lemma asc_disjoint lo ps hi i j a b c d : asc lo ps hi -> (i < j)%nat -> nth_error ps i = Some (Shared a b) -> nth_error ps j = Some (Shared c d) -> b <= c.
Proof.
  revert lo i j. induction ps as [|p ps IH]; intros lo i j H Hij Ei Ej; [destruct i; discriminate|]. destruct j as [|j]; [lia|].
  destruct i as [|i]; cbn in Ei, Ej.
  - injection Ei as ->. destruct H as [H1 H2]. apply (asc_in _ _ _ _ _ _ H2) in Ej. lia.
  - destruct p as [x y|r]; cbn [asc] in H; [destruct H as [_ H]|]; (apply (IH _ i j H); [lia|exact Ei|exact Ej]).
Qed.
Lemma asc_independent arr lo ps hi : 0 <= lo -> hi <= zlen arr -> asc lo ps hi -> independent arr ps.
Proof.
  intros Hlo Hhi Ha i j p q k x Hij Ei Ej. destruct p as [a b|r]; [|reflexivity]. destruct q as [c d|r]; [|reflexivity]. cbn [setElem].
  destruct (asc_in _ _ _ _ _ _ Ha Ei) as [H1 H2]. destruct (asc_in _ _ _ _ _ _ Ha Ej) as [H3 H4].
  destruct (Z.leb_spec 0 k); [|reflexivity]. destruct (Z.ltb_spec k (b - a)); [|reflexivity]. cbn [andb].
  apply write_outside; [lia|change (zlen [x]) with 1; lia|lia|]. change (zlen [x]) with 1.
  destruct (Nat.lt_trichotomy i j) as [L|[L|L]]; [|lia|]; [pose proof (asc_disjoint _ _ _ _ _ _ _ _ _ Ha L Ei Ej)|pose proof (asc_disjoint _ _ _ _ _ _ _ _ _ Ha L Ej Ei)]; lia.
Qed.

(** [partsOf g h arr]: h gives the parts of which g gives the contents, and these parts are independent *)
Definition independentParts (g : go (list (list rune))) (h : go (list part)) (arr : list rune) : Prop :=
  match h with Ret ps => g = Ret (map (content arr) ps) /\ independent arr ps | Panic => g = Panic end.
Lemma sim_independent pre word post g h : sim pre word post g h ->
  (forall ps, h = Ret ps -> asc (zlen pre) ps (zlen pre + zlen word)) -> independentParts g h (pre ++ word ++ post).
Proof.
  intros Hs Ha. unfold independentParts. destruct h as [ps|]; destruct g as [l|]; cbn in Hs; try contradiction; [|reflexivity]. subst l.
  split; [reflexivity|]. apply (asc_independent _ _ _ _ (zlen_nonneg pre)) with (2 := Ha ps eq_refl). rewrite !zlen_app. pose proof (zlen_nonneg post). lia.
Qed.
Theorem independent_elements u d o f pre word post : let arr := pre ++ word ++ post in let off := zlen pre in
  independentParts (fieldsFunc word f) (fieldsParts off f word) arr /\
  independentParts (tokenizerBreakWord word) (fieldsParts off isSpace word) arr /\
  independentParts (punctuatorBreakWord u word) (breakAtParts off (punctSplitFunc u) word) arr /\
  independentParts (splitWord word) (breakAtParts off isHyphenRune word) arr /\
  independentParts (breakWord u d o word) (breakWordParts off u d o word) arr.
Proof.
  intros arr off. subst arr off. assert (forall g, independentParts (fieldsFunc word g) (fieldsParts (zlen pre) g word) (pre ++ word ++ post)) as K1.
  { intros g. apply sim_independent; [apply fields_same|]. intros ps E. apply (fields_asc _ g word word 0 (-1) [] ps) in E; [exact E|lia|lia|lia|]. cbn. lia. }
  assert (forall g, independentParts (breakAtFunc word g) (breakAtParts (zlen pre) g word) (pre ++ word ++ post)) as K2.
  { intros g. apply sim_independent; [apply breakAt_same|]. intros ps E. apply (break_asc _ g word word 0 0 [] ps) in E; [exact E|lia|lia|]. cbn. lia. }
  split; [apply K1|]. split; [apply K1|]. split; [apply K2|]. split; [apply K2|].
  apply sim_independent; [apply breakWord_same|]. intros ps E. apply chain_asc. eapply breakWord_chain. exact E.
Qed.
Lemma chain_next lo ps hi i a b q : chain lo ps hi -> nth_error ps i = Some (Shared a b) -> nth_error ps (S i) = Some q -> exists c, q = Shared b c /\ lo <= a.
Proof.
  revert lo i. induction ps as [|p ps IH]; intros lo i H Ei Ej; [destruct i; discriminate|]. destruct i as [|i].
  - cbn in Ei. injection Ei as ->. destruct H as (-> & H1 & H2). cbn in Ej. destruct ps as [|r ps]; [discriminate|]. injection Ej as ->.
    destruct q as [c d|r]; cbn in H2; [destruct H2 as (-> & _)|contradiction]. exists d. split; [reflexivity|lia].
  - destruct p as [c d|r]; cbn in H; [|contradiction]. destruct H as (-> & H1 & H2). destruct (IH d i H2 Ei Ej) as (e & -> & H3). exists e. split; [reflexivity|lia].
Qed.
Theorem append_overwrites u d o pre word post ps i p q x y t : breakWordParts (zlen pre) u d o word = Ret ps ->
  nth_error ps i = Some p -> nth_error ps (S i) = Some q -> content (pre ++ word ++ post) q = y :: t ->
  content (appendTo (pre ++ word ++ post) p [x]) q = x :: t.
Proof.
  intros E Ei Ej Hq. apply breakWord_chain in E. destruct p as [a b|r].
  - destruct (chain_next _ _ _ _ _ _ _ E Ei Ej) as (c & -> & Hlo). pose proof (zlen_nonneg pre).
    destruct (asc_in _ _ _ _ _ _ (chain_asc _ _ _ E) Ei) as [H1 H2]. cbn [appendTo]. change (zlen [x]) with 1.
    destruct (Z.leb_spec (b + 1) (zlen (pre ++ word ++ post))) as [H3|H3].
    + now apply write_start with y; [lia|].
    + exfalso. pose proof (content_length (pre ++ word ++ post) b c ltac:(lia)) as K. rewrite Hq in K. cbn [length] in K. unfold zlen in *. lia.
  - exfalso. clear -E Ei. revert i E Ei. generalize (zlen pre) at 1. induction ps as [|[c d|s] ps IH]; intros lo [|i] E Ei; cbn in *; try discriminate; try contradiction.
    destruct E as (_ & _ & E). eapply IH; eassumption.
Qed.
