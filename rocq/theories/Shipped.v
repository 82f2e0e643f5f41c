(** The pattern files embedded in the package (wordbreak/hyphenator/embedded.go:9-10): a checker and its soundness. *)
From Verif Require Import Base Unicode Utf8 SpecTrie Trie TrieProofs Dict SpecHyph DictProofs FileProofs Hyph HyphProofs.
Local Open Scope Z_scope.

(** The letters of the shipped files: dot, apostrophe, a-z, and these. *)
Definition accents : list rune :=
  [223;224;225;226;228;231;232;233;234;235;237;238;239;241;243;244;246;250;251;252;339].
Definition isLetter (r : rune) : bool :=
  (r =? 46) || (r =? 39) || ((97 <=? r) && (r <=? 122)) || existsb (Z.eqb r) accents.

(** What is needed of Unicode: those letters are lower case, and 339 is not a digit. *)
Definition knows (u : unicode) : Prop := u_digit u 339 = false /\ Forall (fun r => u_lower u r = r) accents.

Lemma letter_low u r : knows u -> isLetter r = true -> toLower u r = r.
Proof.
  intros [_ H]. unfold isLetter, toLower. rewrite !orb_true_iff. rewrite Forall_forall in H. intros [[[E|E]|E]|E].
  - apply Z.eqb_eq in E. subst. reflexivity.
  - apply Z.eqb_eq in E. subst. reflexivity.
  - apply andb_true_iff in E. destruct E as [E1 E2]. apply Z.leb_le in E1, E2.
    destruct (Z.leb_spec 0 r); [|lia]. destruct (Z.leb_spec r 127); [|lia]. destruct (Z.leb_spec r 90); [lia|].
    rewrite andb_false_r. reflexivity.
  - apply existsb_exists in E. destruct E as (x & Hx & E). apply Z.eqb_eq in E. subst x.
    assert (127 < r).
    { clear - Hx. repeat (destruct Hx as [<-|Hx]; [lia|]). destruct Hx. }
    destruct (Z.leb_spec r 127); [lia|]. rewrite andb_false_r. apply H, Hx.
Qed.
Lemma letter_ok u r : knows u -> isLetter r = true -> okLetter u r.
Proof.
  intros [H _]. unfold isLetter, okLetter. rewrite !orb_true_iff. intros [[[E|E]|E]|E].
  - apply Z.eqb_eq in E. subst. repeat split; reflexivity || lia.
  - apply Z.eqb_eq in E. subst. repeat split; reflexivity || lia.
  - apply andb_true_iff in E. destruct E as [E1 E2]. apply Z.leb_le in E1, E2.
    assert (exists n, (n < 26)%nat /\ r = 97 + Z.of_nat n) as (n & Hn & ->) by (exists (Z.to_nat (r - 97)); lia).
    do 26 (destruct n as [|n]; [repeat split; reflexivity || lia|]). lia.
  - apply existsb_exists in E. destruct E as (x & Hx & E). apply Z.eqb_eq in E. subst x.
    unfold accents in Hx. cbn [In] in Hx.
    repeat (destruct Hx as [<-|Hx]; [repeat split; try reflexivity; try lia; unfold isDigit; exact H|]). destruct Hx.
Qed.

(** A field of a file, as a pattern. *)
Fixpoint parse (l : list rune) (d : option Z) : option pattern :=
  match l with
  | [] => Some ([], d)
  | r :: l' =>
      if (49 <=? r) && (r <=? 57) then
        match d with Some _ => None | None => parse l' (Some (r - 48)) end
      else if isLetter r then
        match parse l' None with Some (items, final) => Some ((d, r) :: items, final) | None => None end
      else None
  end.
(** at least one letter *)
Definition parsePattern (l : list rune) : option pattern :=
  match parse l None with Some ([], _) => None | p => p end.

Definition lowLetters (p : pattern) : Prop := Forall (fun i => isLetter (snd i) = true) (fst p).
Lemma parse_sound l : forall d items final, okDigit d -> parse l d = Some (items, final) ->
  digitText d ++ l = patternText items final /\
  Forall (fun i => okDigit (fst i) /\ isLetter (snd i) = true) items /\ okDigit final.
Proof.
  induction l as [|r l IH]; intros d items final Hd; cbn [parse].
  - intros [= <- <-]. unfold patternText. cbn [flat_map app]. rewrite app_nil_r. auto.
  - destruct ((49 <=? r) && (r <=? 57)) eqn:E.
    + destruct d as [n|]; [discriminate|]. intros H. apply andb_true_iff in E. destruct E as [E1 E2]. apply Z.leb_le in E1, E2.
      apply IH in H; [|cbn; lia]. cbn [digitText app] in *. replace (48 + (r - 48)) with r in H by lia. exact H.
    + destruct (isLetter r) eqn:El; [|discriminate].
      destruct (parse l None) as [[it fi]|] eqn:Ep; [|discriminate]. intros [= <- <-].
      apply IH in Ep; [|exact I]. destruct Ep as (E1 & E2 & E3). cbn [digitText app] in E1.
      split; [|split; [|exact E3]].
      * rewrite E1. unfold patternText. cbn [flat_map fst snd]. rewrite <- !app_assoc. reflexivity.
      * constructor; [split; assumption|exact E2].
Qed.
Lemma parsePattern_sound u l p : knows u -> parsePattern l = Some p -> pText p = l /\ okPattern u p /\ lowLetters p.
Proof.
  intros Hu. unfold parsePattern. destruct (parse l None) as [[[|i items] final]|] eqn:E; try discriminate.
  intros [= <-]. apply parse_sound in E; [|exact I]. destruct E as (E1 & E2 & E3). split; [symmetry; exact E1|]. split.
  - split; [discriminate|]. split; [|exact E3]. eapply Forall_impl; [|exact E2].
    intros j [J1 J2]. split; [exact J1|apply letter_ok; assumption].
  - unfold lowLetters. eapply Forall_impl; [|exact E2]. intros j [_ J]. exact J.
Qed.

(** An exception line as syllables. *)
Fixpoint parseExc (l : list rune) (cur : list rune) : option (list rune * list (list rune)) :=
  match l with
  | [] => match cur with [] => None | _ => Some (rev cur, []) end
  | r :: l' =>
      if r =? 45 then
        match cur with
        | [] => None
        | _ => match parseExc l' [] with Some (s, ss) => Some (rev cur, s :: ss) | None => None end
        end
      else if (97 <=? r) && (r <=? 122) then parseExc l' (r :: cur) else None
  end.
Definition azSyllable (s : list rune) : Prop := s <> [] /\ Forall (fun r => 97 <= r <= 122) s.
Lemma parseExc_sound l : forall cur s ss, Forall (fun r => 97 <= r <= 122) cur -> parseExc l cur = Some (s, ss) ->
  rev cur ++ l = excText (s, ss) /\ Forall azSyllable (s :: ss).
Proof.
  assert (forall c cur, rev (c :: cur) <> @nil rune) as Hne.
  { intros c cur E. apply (f_equal (@length rune)) in E. rewrite rev_length in E. discriminate. }
  induction l as [|r l IH]; intros cur s ss Hc; cbn [parseExc].
  - destruct cur as [|c cur]; [discriminate|]. intros [= <- <-]. split; [apply app_nil_r|].
    constructor; [|constructor]. split; [apply (Hne c cur)|exact (Forall_rev Hc)].
  - destruct (Z.eqb_spec r 45) as [->|Hr].
    + destruct cur as [|c cur]; [discriminate|].
      destruct (parseExc l []) as [[s' ss']|] eqn:E; [|discriminate]. intros [= <- <-].
      apply IH in E; [|constructor]. destruct E as [E1 E2]. cbn [rev app] in E1. split.
      * unfold excText in *. cbn [fst snd hyphenated] in *. rewrite E1. reflexivity.
      * constructor; [|exact E2]. split; [apply (Hne c cur)|exact (Forall_rev Hc)].
    + destruct ((97 <=? r) && (r <=? 122)) eqn:E; [|discriminate]. intros H.
      apply andb_true_iff in E. destruct E as [E1 E2]. apply Z.leb_le in E1, E2. apply IH in H.
      * cbn [rev] in H. rewrite <- app_assoc in H. exact H.
      * constructor; [lia|exact Hc].
Qed.

(** All the keys are new. *)
Fixpoint allNew (keys : list (list rune)) (t : trie unit) : bool :=
  match keys with
  | [] => true
  | k :: ks => let (t', new) := put t k (Some tt) in if new then allNew ks t' else false
  end.
Lemma allNew_sound keys : forall t, allNew keys t = true -> NoDup keys /\ Forall (fun k => get t k = None) keys.
Proof.
  induction keys as [|k ks IH]; intros t; cbn [allNew]; [intros; split; constructor|].
  destruct (put t k (Some tt)) as [t' new] eqn:E. intros H. destruct new; [|discriminate].
  destruct (IH _ H) as [H1 H2].
  assert (get t k = None) as Hk.
  { pose proof (put_new k t (Some tt)) as P. rewrite E in P. cbn in P. destruct (get t k); [discriminate|reflexivity]. }
  assert (forall k', get t' k' = if keyb k' k then Some tt else get t k') as G.
  { intros k'. pose proof (get_put k t (Some tt) k') as P. rewrite E in P. exact P. }
  rewrite Forall_forall in H2. split; constructor; try assumption.
  - intros Hin. apply H2 in Hin. rewrite G, keyb_refl in Hin. discriminate.
  - apply Forall_forall. intros k' Hk'. apply H2 in Hk'. rewrite G in Hk'. destruct (keyb k' k); [discriminate|exact Hk'].
Qed.

Fixpoint mapAll {A B} (f : A -> option B) (l : list A) : option (list B) :=
  match l with
  | [] => Some []
  | x :: l' => match f x with Some y => match mapAll f l' with Some ys => Some (y :: ys) | None => None end | None => None end
  end.
Lemma mapAll_sound {A B} (f : A -> option B) (P : A -> B -> Prop) : (forall x y, f x = Some y -> P x y) ->
  forall l ys, mapAll f l = Some ys -> Forall2 P l ys.
Proof.
  intros H. induction l as [|x l IH]; intros ys; cbn [mapAll]; [intros [= <-]; constructor|].
  destruct (f x) as [y|] eqn:E; [|discriminate]. destruct (mapAll f l) as [ys'|]; [|discriminate]. intros [= <-].
  constructor; [apply H, E|apply IH; reflexivity].
Qed.

Definition pKey (p : pattern) : list rune := map snd (fst p).
Definition checkPatterns (lines : list str) : option Z :=
  match mapAll parsePattern (patternRules lines) with
  | Some ps => if allNew (map pKey ps) newTrie then Some (zlen ps) else None
  | None => None
  end.
Definition eKey (e : list rune * list (list rune)) : list rune := concat (fst e :: snd e).
Definition checkExceptions (lines : list str) : option Z :=
  match mapAll (fun l => parseExc l []) (exceptionRules lines) with
  | Some es => if allNew (map eKey es) newTrie then Some (zlen es) else None
  | None => None
  end.

(** The rule that a shipped pattern, or exception, stands for: nothing to lower-case. *)
Definition pRule (p : pattern) : list rune * list Z := patternRule (fun r => r) p.
Definition eRule (e : list rune * list (list rune)) : list rune * list Z := (eKey e, mask (fst e) (snd e)).

Lemma low_rule u p : knows u -> lowLetters p -> patternRule (toLower u) p = pRule p.
Proof.
  intros Hu H. unfold pRule, patternRule. f_equal. apply map_ext_in. intros i Hi. unfold lowLetters in H.
  rewrite Forall_forall in H. apply letter_low; auto.
Qed.

Lemma patterns_checked u name bs n : knows u -> checkPatterns (scanLines bs) = Some n ->
  exists ps : list pattern, zlen ps = n /\ Forall (okPattern u) ps /\
    Forall (fun p => Forall (fun i => toLower u (snd i) = snd i) (fst p)) ps /\
    NoDup (map pKey ps) /\ map pText ps = patternRules (scanLines bs) /\
    (forall k, get (d_patterns (loadFile u name bs)) k = lastRule k (map pRule ps)).
Proof.
  intros Hu. unfold checkPatterns. destruct (mapAll parsePattern (patternRules (scanLines bs))) as [ps|] eqn:E; [|discriminate].
  destruct (allNew (map pKey ps) newTrie) eqn:En; [|discriminate]. intros [= <-]. exists ps. split; [reflexivity|].
  apply (mapAll_sound _ (fun l p => pText p = l /\ okPattern u p /\ lowLetters p)) in E; [|intros; apply parsePattern_sound; auto].
  apply allNew_sound in En.
  assert (Forall (okPattern u) ps /\ Forall lowLetters ps /\ map pText ps = patternRules (scanLines bs)) as (H1 & H2 & H3).
  { clear - E. induction E as [|l p ls ps (E1 & E2 & E3) E IH]; [repeat split; constructor|].
    destruct IH as (I1 & I2 & I3). split; [constructor; assumption|]. split; [constructor; assumption|]. cbn. f_equal; assumption. }
  split; [exact H1|]. split.
  { eapply Forall_impl; [|exact H2]. intros p Hp. eapply Forall_impl; [|exact Hp]. intros i. apply letter_low, Hu. }
  split; [apply En|]. split; [exact H3|].
  intros k. unfold loadFile. rewrite (proj1 (loadLines_spec u name (scanLines bs))). f_equal.
  rewrite <- H3. rewrite map_map. apply map_ext_in. intros p Hp. rewrite Forall_forall in H1, H2.
  destruct (H1 p Hp) as (_ & Hi & Hf).
  rewrite <- (low_rule u p Hu (H2 p Hp)). unfold pText, patternRule. apply readPattern_spec; [|exact Hf].
  eapply Forall_impl; [|exact Hi]. intros i [H4 H5]. split; [exact H4|apply H5].
Qed.

Lemma az_ok s : azSyllable s -> okSyllable s.
Proof.
  intros [H1 H2]. split; [exact H1|]. eapply Forall_impl; [|exact H2]. cbn beta. intros r Hr. split; [|lia].
  assert (exists n, (n < 26)%nat /\ r = 97 + Z.of_nat n) as (n & Hn & ->) by (exists (Z.to_nat (r - 97)); lia).
  do 26 (destruct n as [|n]; [reflexivity|]). lia.
Qed.
Lemma az_low u r : 97 <= r <= 122 -> toLower u r = r.
Proof.
  intros H. unfold toLower. destruct (Z.leb_spec 0 r); [|lia]. destruct (Z.leb_spec r 127); [|lia].
  destruct (Z.leb_spec r 90); [lia|]. rewrite andb_false_r. reflexivity.
Qed.

Lemma exceptions_list u lines es : mapAll (fun l => parseExc l []) lines = Some es ->
  Forall okExc es /\ map excText es = lines /\ map (readException u) lines = map eRule es.
Proof.
  intros E.
  apply (mapAll_sound _ (fun l e => excText e = l /\ Forall azSyllable (fst e :: snd e))) in E.
  2: { intros l [s ss] H. apply parseExc_sound in H; [|constructor]. destruct H as [H1 H2]. split; [symmetry; exact H1|exact H2]. }
  induction E as [|l e ls es (E1 & E2) E IH]; [repeat split; constructor|].
  destruct IH as (I1 & I2 & I3). split; [|split].
  - constructor; [|exact I1]. unfold okExc. eapply Forall_impl; [|exact E2]. apply az_ok.
  - cbn [map]. f_equal; assumption.
  - cbn [map]. f_equal; [|exact I3]. subst l. destruct e as [s ss]. unfold excText, eRule, eKey. cbn [fst snd] in *.
    rewrite readException_spec.
    + f_equal. rewrite <- (map_id (concat (s :: ss))) at 2. apply map_ext_in. intros r Hr. apply in_concat in Hr.
      destruct Hr as (t & Ht & Hr). rewrite Forall_forall in E2. destruct (E2 t Ht) as [_ H]. rewrite Forall_forall in H.
      apply az_low, H, Hr.
    + eapply Forall_impl; [|exact E2]. intros t Ht. apply az_ok in Ht. destruct Ht as [T1 T2]. split; [exact T1|].
      eapply Forall_impl; [|exact T2]. cbn. tauto.
    + inversion E2 as [|? ? [Hne Hs] _]; subst. destruct s as [|r s]; [discriminate|]. intros r' [= <-]. inversion Hs; subst. lia.
Qed.

Lemma exceptions_checked u name bs n : checkExceptions (scanLines bs) = Some n ->
  exists es : list (list rune * list (list rune)), zlen es = n /\ Forall okExc es /\
    NoDup (map eKey es) /\ map excText es = exceptionRules (scanLines bs) /\
    (forall k, k <> [] -> get (d_exceptions (loadFile u name bs)) k = lastRule k (map eRule es)).
Proof.
  unfold checkExceptions. destruct (mapAll (fun l => parseExc l []) (exceptionRules (scanLines bs))) as [es|] eqn:E; [|discriminate].
  destruct (allNew (map eKey es) newTrie) eqn:En; [|discriminate]. intros [= <-]. exists es. split; [reflexivity|].
  destruct (exceptions_list u _ _ E) as (H1 & H2 & H3). apply allNew_sound in En.
  split; [exact H1|]. split; [apply En|]. split; [exact H2|]. intros k Hk. unfold loadFile.
  rewrite (proj2 (loadLines_spec u name (scanLines bs)) k Hk). f_equal. exact H3.
Qed.

Lemma shipped_wellFormed u name bs n : knows u -> checkPatterns (scanLines bs) = Some n -> wellFormed (loadFile u name bs).
Proof.
  intros Hu H. destruct (patterns_checked u name bs n Hu H) as (ps & _ & _ & _ & _ & _ & G).
  intros k digits Hk. rewrite G in Hk. apply (patternRulesOf_length (fun r => r) [Patterns ps] k digits).
  unfold patternRulesOf. cbn [flat_map]. rewrite app_nil_r. exact Hk.
Qed.
