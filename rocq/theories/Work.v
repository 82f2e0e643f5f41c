(** How much a word costs: hyphenator.go and rune_trie.go with counters. *)
From Verif Require Import Base Unicode Utf8 SpecTrie Trie TrieProofs SpecHyph Dict DictProofs Hyph Text Lang Shipped ShippedProofs.

(** Get (rune_trie.go:19-29): the number of reads of a map of children. *)
Fixpoint getReads {V} (t : trie V) (key : list rune) : Z :=
  match key with
  | [] => 0
  | r :: key' => 1 + match assoc r (t_children t) with None => 0 | Some c => getReads c key' end
  end.
(** calls of Get, reads of maps *)
Record work := mkWork { k_gets : Z; k_reads : Z }.
Definition none : work := mkWork 0 0.
Definition plus (a b : work) : work := mkWork (k_gets a + k_gets b) (k_reads a + k_reads b).
Definition oneGet {V} (t : trie V) (key : list rune) : work := mkWork 1 (getReads t key).

(** [pattern_loop], [isPattern], [positions_loop] and [breakWord] (Hyph.v) with the work of the calls of Get: same lines. *)
Fixpoint pattern_work (u : unicode) (d : dictionary) (rest : list rune) (fragment : list rune) : list (list Z) * work :=
  match rest with
  | [] => (match get (d_patterns d) (fragment ++ [46]) with Some p => [p] | None => [] end, oneGet (d_patterns d) (fragment ++ [46]))
  | r :: rest' =>
      let fragment' := fragment ++ [toLower u r] in
      let (ps, k) := pattern_work u d rest' fragment' in
      (match get (d_patterns d) fragment' with None => ps | Some p => p :: ps end, plus (oneGet (d_patterns d) fragment') k)
  end.
Definition isPattern_work (u : unicode) (d : dictionary) (index : nat) (word : list rune) : list (list Z) * work :=
  match index with
  | O => pattern_work u d word [46]
  | S start => pattern_work u d (skipn start word) []
  end.
Fixpoint positions_work (u : unicode) (d : dictionary) (word : list rune) (n i : nat) (positions : list Z) : go (list Z * work) :=
  match n with
  | O => Ret (positions, none)
  | S n' =>
      let (all, k) := isPattern_work u d i word in
      let! positions' := (match all with [] => Ret positions | _ => mergeBreakPoints positions all i end) in
      let! r := positions_work u d word n' (S i) positions' in
      Ret (fst r, plus k (snd r))
  end.
Definition breakWord_work (u : unicode) (d : dictionary) (o : hoptions) (word : list rune) : go (list (list rune) * work) :=
  let wordLength := zlen word in
  if containsHyphen word || (wordLength <? o_minLength o) then Ret ([word], none)
  else let k0 := oneGet (d_exceptions d) word in
  match isException d word with
  | Some breakPoints => let! r := splitAtPositions o word wordLength breakPoints in Ret (r, k0)
  | None =>
      let! p := positions_work u d word (length word) 0 (repeat 0 30) in
      let p1 := fst p in
      let! p2 := slice p1 1 (zlen p1 - 1) in
      let! p0 := indexAt p2 0 in
      let! p3 :=
        (if 0 <? p0 then setAt p2 0 0
         else if wordLength <? zlen p2
              then let! pw := indexAt p2 (length word) in
                   if 0 <? pw then setAt p2 (length word) 0 else Ret p2
              else Ret p2) in
      let! r := splitAtPositions o word wordLength p3 in Ret (r, plus k0 (snd p))
  end.

(** ** The counters change nothing *)
Lemma pattern_work_same u d rest : forall fragment, fst (pattern_work u d rest fragment) = pattern_loop u d rest fragment.
Proof.
  induction rest as [|r rest IH]; intros fragment; cbn [pattern_work pattern_loop]; [reflexivity|].
  specialize (IH (fragment ++ [toLower u r])). destruct (pattern_work u d rest _) as [ps k]. cbn [fst] in *. rewrite <- IH. reflexivity.
Qed.
Lemma isPattern_same u d i word : fst (isPattern_work u d i word) = isPattern u d i word.
Proof. destruct i; apply pattern_work_same. Qed.
Lemma positions_same u d word n : forall i positions, (let! r := positions_work u d word n i positions in Ret (fst r)) = positions_loop u d word n i positions.
Proof.
  induction n as [|n IH]; intros i positions; cbn [positions_work positions_loop]; [reflexivity|].
  pose proof (isPattern_same u d i word) as E. destruct (isPattern_work u d i word) as [all k]. cbn [fst] in E. rewrite <- E.
  destruct (match all with [] => _ | _ => _ end) as [ps|]; [|reflexivity]. cbn [gbind]. rewrite <- IH. destruct (positions_work u d word n (S i) ps); reflexivity.
Qed.
Theorem work_same u d o word : (let! r := breakWord_work u d o word in Ret (fst r)) = breakWord u d o word.
Proof.
  unfold breakWord_work, breakWord. cbv zeta. destruct (containsHyphen word || (zlen word <? o_minLength o)); [reflexivity|].
  destruct (isException d word) as [bp|]; [destruct (splitAtPositions o word (zlen word) bp); reflexivity|].
  rewrite <- positions_same. destruct (positions_work u d word (length word) 0 (repeat 0 30)) as [[p1 k]|]; [|reflexivity]. cbn [gbind fst snd].
  destruct (slice p1 1 (zlen p1 - 1)) as [p2|]; [|reflexivity]. cbn [gbind]. destruct (indexAt p2 0) as [p0|]; [|reflexivity]. cbn [gbind].
  match goal with |- (let! r := let! p3 := ?X in _ in _) = _ => destruct X as [p3|]; [|reflexivity] end. cbn [gbind].
  destruct (splitAtPositions o word (zlen word) p3); reflexivity.
Qed.

(** ** How many calls of Get *)
Lemma pattern_gets u d rest : forall fragment, k_gets (snd (pattern_work u d rest fragment)) = zlen rest + 1.
Proof.
  induction rest as [|r rest IH]; intros fragment; cbn [pattern_work]; [reflexivity|].
  specialize (IH (fragment ++ [toLower u r])). destruct (pattern_work u d rest _) as [ps k]. cbn [snd] in *. unfold plus, oneGet. cbn [k_gets]. rewrite IH, zlen_cons. lia.
Qed.
Lemma isPattern_gets u d i word : (i <= length word)%nat -> k_gets (snd (isPattern_work u d i word)) = match i with O => zlen word + 1 | S _ => zlen word - Z.of_nat i + 2 end.
Proof.
  intros H. destruct i as [|i]; cbn [isPattern_work]; rewrite pattern_gets; [reflexivity|]. unfold zlen. rewrite skipn_length. lia.
Qed.
Lemma positions_gets u d word n : forall i positions r, (n + i = length word)%nat -> positions_work u d word n i positions = Ret r ->
  2 * k_gets (snd r) = Z.of_nat n * (Z.of_nat n + 5) - match i, n with O, S _ => 2 | _, _ => 0 end.
Proof.
  induction n as [|n IH]; intros i positions r Hn E; cbn [positions_work] in E; [injection E as <-; cbn; destruct i; lia|].
  pose proof (isPattern_gets u d i word ltac:(lia)) as G. destruct (isPattern_work u d i word) as [all k]. cbn [snd] in G.
  destruct (match all with [] => _ | _ => _ end) as [ps|]; [|discriminate E]. cbn [gbind] in E.
  destruct (positions_work u d word n (S i) ps) as [r'|] eqn:E'; [|discriminate E]. injection E as <-. cbn [snd]. unfold plus. cbn [k_gets].
  specialize (IH (S i) ps r' ltac:(lia) E'). assert (zlen word = Z.of_nat n + 1 + Z.of_nat i) as Hz by (unfold zlen; lia). rewrite G, Hz. clear G.
  replace (match n with O => 0 | S _ => 0 end) with 0 in IH by (destruct n; reflexivity).
  destruct i as [|i]; nia.
Qed.

(** ** How deep the tries are *)
Definition deep {V} (n : Z) (t : trie V) : Prop := forall key, getReads t key <= n.
Lemma reads_pos {V} key : forall t : trie V, 0 <= getReads t key.
Proof. induction key as [|r key IH]; intros t; cbn [getReads]; [lia|]. destruct (assoc r (t_children t)) as [c|]; [specialize (IH c)|]; lia. Qed.
Lemma deep_new {V} : @deep V 1 newTrie.
Proof. intros [|r key]; cbn; lia. Qed.
Lemma deep_le {V} a b (t : trie V) : a <= b -> deep a t -> deep b t.
Proof. intros H D key. specialize (D key). lia. Qed.
Lemma deep_put {V} k v : forall n (t : trie V), deep n t -> deep (Z.max n (zlen k + 1)) (fst (put t k v)).
Proof.
  induction k as [|r k IH]; intros n t D key; cbn [put].
  - destruct t as [tv ch]. cbn [t_children fst]. destruct key as [|r' key]; [cbn; lia|]. specialize (D (r' :: key)). cbn [getReads t_children] in *. lia.
  - set (child := match assoc r (t_children t) with None => newTrie | Some c => c end). destruct (put child k v) as [c' b] eqn:E. cbn [fst].
    destruct key as [|r' key]; [cbn; unfold zlen; lia|]. cbn [getReads t_children]. rewrite assoc_update. rewrite zlen_cons. destruct (Z.eqb_spec r' r) as [->|N].
    + assert (deep (Z.max (n - 1) 1) child) as Dc.
      { unfold child. destruct (assoc r (t_children t)) as [c|] eqn:Ea; [|apply (deep_le 1); [lia|apply deep_new]].
        intros q. specialize (D (r :: q)). cbn [getReads] in D. rewrite Ea in D. lia. }
      specialize (IH _ _ Dc key). rewrite E in IH. cbn [fst] in IH. unfold zlen in *. lia.
    + specialize (D (r' :: key)). cbn [getReads] in D. lia.
Qed.
Lemma deep_rules n rules : forall t : trie (list Z), deep n t -> Forall (fun kv => zlen (fst kv) + 1 <= n) rules -> deep n (fold_left putRule rules t).
Proof.
  induction rules as [|kv rules IH]; intros t D F; cbn [fold_left]; [exact D|]. inversion F; subst. apply IH; [|assumption].
  unfold putRule. apply (deep_le (Z.max n (zlen (fst kv) + 1))); [lia|]. now apply deep_put.
Qed.
Lemma readPattern_len u line : forall w p q, zlen (fst (readPattern_loop u line w p q)) <= zlen p + zlen line.
Proof.
  induction line as [|r line IH]; intros w p q; cbn [readPattern_loop]; [cbn; unfold zlen; cbn; lia|].
  repeat match goal with |- context [if ?b then _ else _] => destruct b end; (etransitivity; [apply IH|]); rewrite ?zlen_app, ?zlen_cons; unfold zlen; cbn [length]; lia.
Qed.
Lemma load_deep u n lines : forall d, deep n (d_patterns d) -> Forall (fun f => zlen f + 1 <= n) (patternRules lines) -> deep n (d_patterns (load_loop u lines d)).
Proof.
  unfold patternRules. induction lines as [|line lines IH]; intros d D F; cbn [load_loop]; [exact D|]. cbn [before filter] in F.
  destruct (hasPrefix line messageSection) eqn:Em.
  - destruct (message_comment line Em) as [Hc He]. rewrite He in F. cbn [filter] in F. rewrite Hc in F. cbn [negb] in F. now apply IH.
  - unfold isExcHeader in *. destruct (hasPrefix line exceptionsSection); [exact D|]. cbn [filter] in F. destruct (isTeXComment line); cbn [negb] in F; [now apply IH|].
    cbn [flat_map] in F. apply Forall_app in F. destruct F as [F1 F2]. apply IH; [|exact F2]. cbn [d_patterns]. apply deep_rules; [exact D|].
    apply Forall_map. eapply Forall_impl; [|exact F1]. intros f Hf. pose proof (readPattern_len u f false [] []) as L. unfold readPattern. cbv beta in *. change (zlen []) with 0 in L. etransitivity; [|exact Hf]. apply Z.add_le_mono_r. exact L.
Qed.
Theorem file_deep u name bs n : 1 <= n -> Forall (fun f => zlen f + 1 <= n) (patternRules (scanLines bs)) -> deep n (d_patterns (loadFile u name bs)).
Proof. intros Hn F. unfold loadFile, loadLines. apply load_deep; [|exact F]. cbn [d_patterns]. apply (deep_le 1); [exact Hn|apply deep_new]. Qed.

(** ** Bounds *)
Lemma reads_key {V} key : forall t : trie V, getReads t key <= zlen key.
Proof. induction key as [|r key IH]; intros t; cbn [getReads]; [unfold zlen; cbn; lia|]. rewrite zlen_cons. destruct (assoc r (t_children t)) as [c|]; [specialize (IH c); lia|]. pose proof (zlen_nonneg key). lia. Qed.
Section Bound.
Variable u : unicode.
Variable d : dictionary.
Variable D : Z.
Hypothesis HD : deep D (d_patterns d).
Definition light (k : work) : Prop := k_reads k <= D * k_gets k.
Lemma light_get key : light (oneGet (d_patterns d) key).
Proof. unfold light, oneGet. cbn [k_reads k_gets]. specialize (HD key). lia. Qed.
Lemma light_plus a b : light a -> light b -> light (plus a b).
Proof. unfold light, plus. cbn [k_reads k_gets]. nia. Qed.
Lemma pattern_light rest : forall fragment, light (snd (pattern_work u d rest fragment)).
Proof.
  induction rest as [|r rest IH]; intros fragment; cbn [pattern_work]; [apply light_get|].
  specialize (IH (fragment ++ [toLower u r])). destruct (pattern_work u d rest _) as [ps k]. cbn [snd] in *. apply light_plus; [apply light_get|exact IH].
Qed.
Lemma positions_light word n : forall i positions r, positions_work u d word n i positions = Ret r -> light (snd r).
Proof.
  induction n as [|n IH]; intros i positions r E; cbn [positions_work] in E; [injection E as <-; unfold light; cbn; lia|].
  assert (light (snd (isPattern_work u d i word))) as L by (destruct i; apply pattern_light). destruct (isPattern_work u d i word) as [all k].
  destruct (match all with [] => _ | _ => _ end) as [ps|]; [|discriminate E]. cbn [gbind] in E.
  destruct (positions_work u d word n (S i) ps) as [r'|] eqn:E'; [|discriminate E]. injection E as <-. apply light_plus; [exact L|]. eapply IH, E'.
Qed.
End Bound.
Theorem work_spec u d o word D r : deep D (d_patterns d) -> word <> [] -> breakWord_work u d o word = Ret r ->
  (Exists (fun c => isHyphenRune c = true) word \/ zlen word < o_minLength o) /\ snd r = none \/
  isException d word <> None /\ k_gets (snd r) = 1 /\ k_reads (snd r) <= zlen word \/
  2 * k_gets (snd r) = zlen word * (zlen word + 5) /\ k_reads (snd r) <= zlen word + D * (k_gets (snd r) - 1).
Proof.
  intros HD Hw. unfold breakWord_work. cbv zeta. destruct (containsHyphen word || (zlen word <? o_minLength o)) eqn:Eg.
  - intros [= <-]. left. split; [|reflexivity]. apply orb_true_iff in Eg. destruct Eg as [Eg|Eg]; [left|right; now apply Z.ltb_lt].
    apply Exists_exists. now apply existsb_exists in Eg.
  - intros E. right. destruct (isException d word) as [bp|].
    + destruct (splitAtPositions o word (zlen word) bp); [|discriminate E]. injection E as <-. left. split; [discriminate|]. split; [reflexivity|]. apply reads_key.
    + right. destruct (positions_work u d word (length word) 0 (repeat 0 30)) as [[p1 k]|] eqn:Ep; [|discriminate E]. cbn [gbind fst snd] in E.
      destruct (slice p1 1 (zlen p1 - 1)) as [p2|]; [|discriminate E]. cbn [gbind] in E. destruct (indexAt p2 0) as [p0|]; [|discriminate E]. cbn [gbind] in E.
      match type of E with (let! p3 := ?X in _) = _ => destruct X as [p3|]; [|discriminate E] end. cbn [gbind] in E.
      destruct (splitAtPositions o word (zlen word) p3); [|discriminate E]. injection E as <-. cbn [snd].
      pose proof (positions_gets u d word (length word) 0 _ _ ltac:(lia) Ep) as G. pose proof (positions_light u d D HD word _ _ _ _ Ep) as L. cbn [snd] in *.
      unfold light, plus, oneGet in *. cbn [k_gets k_reads]. pose proof (reads_key word (d_exceptions d)) as R.
      destruct (length word) eqn:El; [destruct word; [congruence|discriminate El]|]. split; [unfold zlen in *; lia|]. lia.
Qed.

(** ** The shipped patterns *)
Definition longest (l : lang) : Z := fold_left (fun a f => Z.max a (zlen f)) (patternRules (scanLines (fileOf l))) 0.
Lemma fold_max {T} (g : T -> Z) l : forall a, a <= fold_left (fun a f => Z.max a (g f)) l a /\ Forall (fun f => g f <= fold_left (fun a f => Z.max a (g f)) l a) l.
Proof.
  induction l as [|x l IH]; intros a; cbn [fold_left]; [split; [lia|constructor]|]. destruct (IH (Z.max a (g x))) as [I1 I2]. split; [lia|]. constructor; [lia|exact I2].
Qed.
Lemma longest_deep u name l : deep (longest l + 1) (d_patterns (loadFile u name (fileOf l))).
Proof.
  destruct (fold_max zlen (patternRules (scanLines (fileOf l))) 0) as [F1 F2]. apply file_deep; [unfold longest; lia|]. eapply Forall_impl; [|exact F2]. intros f Hf. unfold longest. cbv beta in Hf. lia.
Qed.
Lemma longest_all l : longest l <= 17.
Proof. destruct l; vm_compute; discriminate. Qed.
Theorem shipped_work u l name o word r : word <> [] -> breakWord_work u (loadFile u name (fileOf l)) o word = Ret r ->
  k_gets (snd r) <= zlen word * (zlen word + 5) / 2 /\ k_reads (snd r) <= zlen word + 18 * (zlen word * (zlen word + 5) / 2).
Proof.
  intros Hw E. assert (deep 18 (d_patterns (loadFile u name (fileOf l)))) as HD by (apply (deep_le (longest l + 1)); [pose proof (longest_all l); lia|apply longest_deep]).
  assert (1 <= zlen word) as L by (destruct word; [congruence|]; rewrite zlen_cons; pose proof (zlen_nonneg word); lia).
  assert (zlen word * 3 <= zlen word * (zlen word + 5) / 2) as Q by (apply Z.div_le_lower_bound; nia).
  destruct (work_spec u _ o word 18 r HD Hw E) as [[_ ->]|[(_ & G & R)|(G & R)]]; [cbn [none k_gets k_reads]; lia|lia|].
  assert (k_gets (snd r) = zlen word * (zlen word + 5) / 2) as <- by (rewrite <- G, Z.mul_comm; symmetry; apply Z.div_mul; lia). lia.
Qed.
