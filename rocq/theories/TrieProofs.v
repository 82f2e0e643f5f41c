From Verif Require Import Base Trie SpecTrie.
Local Open Scope Z_scope.

Section P.
Context {V : Type}.
Notation T := (trie V).

Lemma keyb_eq k k' : keyb k k' = true <-> k = k'.
Proof. unfold keyb. destruct (list_eq_dec Z.eq_dec k k'); split; congruence. Qed.
Lemma keyb_refl k : keyb k k = true.
Proof. apply keyb_eq. reflexivity. Qed.
Lemma keyb_neq k k' : k <> k' -> keyb k k' = false.
Proof. intros H. destruct (keyb k k') eqn:E; [apply keyb_eq in E; congruence|reflexivity]. Qed.
Lemma keyb_sym k k' : keyb k k' = keyb k' k.
Proof. destruct (keyb k k') eqn:E; [apply keyb_eq in E; subst; symmetry; apply keyb_refl|].
  symmetry. apply keyb_neq. intros ->. rewrite keyb_refl in E. discriminate. Qed.
Lemma keyb_cons r k r' k' : keyb (r :: k) (r' :: k') = (r =? r') && keyb k k'.
Proof.
  destruct (Z.eqb_spec r r') as [->|Hn]; cbn [andb].
  - destruct (keyb k k') eqn:E; [apply keyb_eq in E; subst; apply keyb_refl|].
    apply keyb_neq. intros [= ->]. rewrite keyb_refl in E. discriminate.
  - apply keyb_neq. congruence.
Qed.

Lemma assoc_update r c ch r' : assoc r' (update r c ch) = if r' =? r then Some c else @assoc V r' ch.
Proof.
  induction ch as [|[r0 c0] ch IH]; cbn [update assoc].
  - reflexivity.
  - destruct (Z.eqb_spec r r0) as [->|H0]; cbn [assoc].
    + destruct (r' =? r0); reflexivity.
    + destruct (Z.eqb_spec r' r0) as [->|H1].
      * destruct (Z.eqb_spec r0 r); [congruence|reflexivity].
      * exact IH.
Qed.
Lemma assoc_remove r ch r' : assoc r' (remove r ch) = if r' =? r then None else @assoc V r' ch.
Proof.
  induction ch as [|[r0 c0] ch IH]; cbn [remove filter assoc fst].
  - destruct (r' =? r); reflexivity.
  - destruct (Z.eqb_spec r r0) as [->|H0]; cbn [negb assoc].
    + unfold remove in IH. rewrite IH. destruct (r' =? r0); reflexivity.
    + unfold remove in IH. rewrite IH. destruct (Z.eqb_spec r' r0) as [->|H1]; [|reflexivity].
      destruct (Z.eqb_spec r0 r); [congruence|reflexivity].
Qed.

Lemma get_node (t : T) k : get t k = match nodeAt t k with Some n => t_value n | None => None end.
Proof.
  revert t; induction k as [|r k IH]; intros t; cbn; [reflexivity|].
  destruct (assoc r (t_children t)); [apply IH|reflexivity].
Qed.
Lemma nodeAt_app (t : T) p q : nodeAt t (p ++ q) = match nodeAt t p with Some n => nodeAt n q | None => None end.
Proof.
  revert t; induction p as [|r p IH]; intros t; cbn; [reflexivity|].
  destruct (assoc r (t_children t)); [apply IH|reflexivity].
Qed.

(** no dead branch *)
Definition live (t : T) : Prop := forall p n, nodeAt t p = Some n -> p <> [] -> exists q v, get n q = Some v.
Definition inhabited (t : T) : Prop := exists q v, get t q = Some v.

Lemma live_child t r c : live t -> assoc r (t_children t) = Some c -> live c /\ inhabited c.
Proof.
  intros H E. split.
  - intros p n Hn Hp. apply (H (r :: p) n); [cbn; rewrite E; exact Hn|discriminate].
  - apply (H [r] c); [cbn; rewrite E; reflexivity|discriminate].
Qed.
Lemma live_node v ch : (forall r c, assoc r ch = Some c -> live c /\ inhabited c) -> live (Node v ch).
Proof.
  intros H [|r p] n Hn Hp; [congruence|]. cbn in Hn. destruct (assoc r ch) as [c|] eqn:E; [|discriminate].
  destruct (H _ _ E) as [H1 H2]. destruct p as [|r' p]; [cbn in Hn; injection Hn as <-; exact H2|].
  apply (H1 (r' :: p) n Hn). discriminate.
Qed.
Lemma live_new : live newTrie.
Proof. intros [|r p] n H Hp; [congruence|discriminate]. Qed.

Lemma get_put k : forall (t : T) v k', get (fst (put t k v)) k' = if keyb k' k then v else get t k'.
Proof.
  induction k as [|r k IH]; intros t v k'; cbn [put].
  - destruct k' as [|r' k']; [reflexivity|]. rewrite keyb_neq by discriminate. reflexivity.
  - set (child := match assoc r (t_children t) with None => newTrie | Some c => c end).
    specialize (IH child v). destruct (put child k v) as [c' b]. cbn [fst] in *.
    destruct k' as [|r' k']; [reflexivity|].
    cbn [get t_children]. rewrite keyb_cons, assoc_update.
    destruct (Z.eqb_spec r' r) as [->|Hn]; cbn [andb]; [|reflexivity].
    rewrite IH. destruct (keyb k' k); [reflexivity|].
    unfold child. destruct (assoc r (t_children t)); [reflexivity|]. destruct k'; reflexivity.
Qed.
Lemma put_new k : forall (t : T) v, snd (put t k v) = match get t k with None => true | Some _ => false end.
Proof.
  induction k as [|r k IH]; intros t v; cbn [put get]; [reflexivity|].
  set (child := match assoc r (t_children t) with None => newTrie | Some c => c end).
  specialize (IH child v). destruct (put child k v) as [c' b]. cbn [snd] in *. rewrite IH.
  unfold child. destruct (assoc r (t_children t)); [reflexivity|]. destruct k; reflexivity.
Qed.
Lemma put_inhabited t k v : inhabited (fst (put t k (Some v))).
Proof. exists k, v. rewrite get_put, keyb_refl. reflexivity. Qed.
Lemma put_live k : forall (t : T) v, live t -> live (fst (put t k (Some v))).
Proof.
  induction k as [|r k IH]; intros t v Hl; cbn [put].
  - cbn [fst]. apply live_node. intros r c E. apply (live_child t r c Hl E).
  - set (child := match assoc r (t_children t) with None => newTrie | Some c => c end).
    assert (live child) as Hc.
    { unfold child. destruct (assoc r (t_children t)) eqn:E; [apply (live_child _ _ _ Hl E)|apply live_new]. }
    pose proof (IH child v Hc) as H1. pose proof (put_inhabited child k v) as H2.
    destruct (put child k (Some v)) as [c' b]. cbn [fst] in *.
    apply live_node. intros r' c0. rewrite assoc_update. destruct (Z.eqb_spec r' r) as [->|Hn].
    + intros [= <-]. auto.
    + intros E. apply (live_child _ _ _ Hl E).
Qed.

Lemma children_inhabited v ch : live (Node v ch) -> ch <> [] -> inhabited (Node v ch).
Proof.
  intros Hl Hne. destruct ch as [|[r c] ch]; [congruence|].
  destruct (live_child _ r c Hl) as [_ (q & x & Hq)]; [cbn; rewrite Z.eqb_refl; reflexivity|].
  exists (r :: q), x. cbn. rewrite Z.eqb_refl. exact Hq.
Qed.

Lemma delete_path_spec k : forall (t : T), live t ->
  match delete_path t k with
  | None => nodeAt t k = None
  | Some (t', rm) =>
      nodeAt t k <> None /\
      (forall k', get t' k' = if keyb k' k then None else get t k') /\
      live t' /\
      (if rm then t' = newTrie else inhabited t')
  end.
Proof.
  induction k as [|r k IH]; intros t Hl; cbn [delete_path].
  - split; [discriminate|]. split; [|split].
    + intros [|r' k']; [reflexivity|]. rewrite keyb_neq by discriminate. reflexivity.
    + apply live_node. intros r c E. apply (live_child t r c Hl E).
    + unfold isLeaf. cbn [t_children]. destruct (t_children t) as [|e ch] eqn:E; [reflexivity|].
      apply children_inhabited; [|discriminate]. apply live_node. intros r c E2. rewrite <- E in E2.
      apply (live_child t r c Hl E2).
  - cbn [nodeAt]. destruct (assoc r (t_children t)) as [c|] eqn:E; [|reflexivity].
    destruct (live_child _ _ _ Hl E) as [Hlc Hic].
    specialize (IH c Hlc). destruct (delete_path c k) as [[c' rm]|]; [|exact IH].
    destruct IH as (H1 & H2 & H3 & H4). destruct rm.
    + (* the child goes away *)
      subst c'.
      assert (forall k', get (Node (t_value t) (remove r (t_children t))) k' = if keyb k' (r :: k) then None else get t k') as Hg.
      { intros [|r' k']; [rewrite keyb_neq by discriminate; reflexivity|].
        cbn [get t_children]. rewrite assoc_remove, keyb_cons. destruct (Z.eqb_spec r' r) as [->|Hn]; cbn [andb].
        - rewrite E. specialize (H2 k'). assert (get newTrie k' = @None V) as Hz by (destruct k'; reflexivity).
          rewrite Hz in H2. rewrite <- H2. destruct (keyb k' k); reflexivity.
        - reflexivity. }
      assert (live (Node (t_value t) (remove r (t_children t)))) as Hlv.
      { apply live_node. intros r' c0. rewrite assoc_remove. destruct (r' =? r); [discriminate|].
        intros E'. apply (live_child _ _ _ Hl E'). }
      unfold isLeaf. cbn [t_children].
      destruct (remove r (t_children t)) as [|e ch] eqn:Er; cbn [negb].
      * split; [exact H1|]. split; [exact Hg|]. split; [exact Hlv|].
        destruct (t_value t) as [v|] eqn:Ev; [|reflexivity]. exists [], v. reflexivity.
      * split; [exact H1|]. split; [exact Hg|]. split; [exact Hlv|].
        apply children_inhabited; [exact Hlv|discriminate].
    + split; [exact H1|]. split; [|split].
      * intros [|r' k']; [rewrite keyb_neq by discriminate; reflexivity|].
        cbn [get t_children]. rewrite assoc_update, keyb_cons. destruct (Z.eqb_spec r' r) as [->|Hn]; cbn [andb].
        -- rewrite E. apply H2.
        -- reflexivity.
      * apply live_node. intros r' c0. rewrite assoc_update. destruct (Z.eqb_spec r' r) as [->|Hn].
        -- intros [= <-]. auto.
        -- intros E'. apply (live_child _ _ _ Hl E').
      * destruct H4 as (q & v & Hq). exists (r :: q), v. cbn. rewrite assoc_update, Z.eqb_refl. exact Hq.
Qed.

Lemma nodeAt_live t k : live t -> (nodeAt t k <> None <-> k = [] \/ exists q v, get t (k ++ q) = Some v).
Proof.
  intros Hl. split.
  - intros H. destruct k as [|r k]; [left; reflexivity|right].
    destruct (nodeAt t (r :: k)) as [n|] eqn:E; [|congruence].
    destruct (Hl _ _ E) as (q & v & Hq); [discriminate|]. exists q, v.
    rewrite get_node, nodeAt_app, E, <- get_node. exact Hq.
  - intros [->|(q & v & Hq)]; [discriminate|]. rewrite get_node, nodeAt_app in Hq.
    destruct (nodeAt t k); [discriminate|]. discriminate.
Qed.

(** ** Refinement of the finite map *)
Definition rep (t : T) (m : list (@binding V)) : Prop := live t /\ forall k, get t k = lookup m k.

Lemma lookup_erase (m : list (@binding V)) k k' : lookup (erase m k) k' = if keyb k' k then None else lookup m k'.
Proof.
  unfold lookup, erase. induction m as [|[k0 v0] m IH]; cbn [filter find fst].
  - destruct (keyb k' k); reflexivity.
  - destruct (keyb k0 k) eqn:E0; cbn [negb find fst].
    + rewrite IH. apply keyb_eq in E0. subst k0. destruct (keyb k' k) eqn:E1; [reflexivity|].
      rewrite keyb_sym, E1. reflexivity.
    + destruct (keyb k0 k') eqn:E2.
      * apply keyb_eq in E2. subst k'. rewrite E0. reflexivity.
      * exact IH.
Qed.
Lemma lookup_bind (m : list (@binding V)) k v k' : lookup (bind m k v) k' = if keyb k' k then Some v else lookup m k'.
Proof.
  unfold bind. transitivity (if keyb k k' then Some v else lookup (erase m k) k').
  - unfold lookup. cbn [find fst]. destruct (keyb k k'); reflexivity.
  - rewrite lookup_erase, keyb_sym. destruct (keyb k' k); reflexivity.
Qed.
Lemma lookup_in (m : list (@binding V)) k v : lookup m k = Some v -> In (k, v) m.
Proof.
  unfold lookup. intros H. destruct (find (fun b => keyb (fst b) k) m) as [[k0 v0]|] eqn:E; [|discriminate]. injection H as <-.
  apply find_some in E. destruct E as [E1 E2]. apply keyb_eq in E2. cbn in *. subst. exact E1.
Qed.
Lemma in_lookup (m : list (@binding V)) k v : In (k, v) m -> exists v', lookup m k = Some v'.
Proof.
  intros H. unfold lookup. destruct (find (fun b => keyb (fst b) k) m) as [b|] eqn:E; [eauto|].
  pose proof (find_none _ _ E _ H) as F. cbn in F. rewrite keyb_refl in F. discriminate.
Qed.

Lemma prefixb_iff k k' : prefixb k k' = true <-> exists q, k' = k ++ q.
Proof.
  unfold prefixb. rewrite keyb_eq. split.
  - intros H. exists (skipn (length k) k'). rewrite H at 1. symmetry. apply firstn_skipn.
  - intros [q ->]. rewrite firstn_app, firstn_all, Nat.sub_diag. cbn. symmetry. apply app_nil_r.
Qed.
Lemma someKey_iff (m : list (@binding V)) k : someKey m k = true <-> exists q v, lookup m (k ++ q) = Some v.
Proof.
  unfold someKey. rewrite existsb_exists. split.
  - intros ([k0 v0] & H1 & H2). cbn in H2. apply prefixb_iff in H2. destruct H2 as [q ->].
    apply in_lookup in H1. destruct H1 as [v' H1]. eauto.
  - intros (q & v & H). apply lookup_in in H. exists (k ++ q, v). split; [exact H|]. apply prefixb_iff. exists q. reflexivity.
Qed.

Lemma runOp_spec t m o : rep t m -> rep (fst (runOp t o)) (fst (specOp m o)) /\ snd (runOp t o) = snd (specOp m o).
Proof.
  intros [Hl Hg]. destruct o as [k v|k|k]; cbn [runOp specOp].
  - pose proof (put_live k t v Hl) as H1. pose proof (get_put k t (Some v)) as H2. pose proof (put_new k t (Some v)) as H3.
    destruct (put t k (Some v)) as [t' b]. cbn [fst snd] in *. split.
    + split; [exact H1|]. intros k'. rewrite H2, lookup_bind, Hg. reflexivity.
    + rewrite H3, Hg. reflexivity.
  - split; [split; assumption|]. cbn. rewrite Hg. reflexivity.
  - pose proof (delete_path_spec k t Hl) as H. pose proof (nodeAt_live t k Hl) as N. unfold delete.
    assert (nodeAt t k <> None <-> emptyKey k || someKey m k = true) as N'.
    { rewrite N. rewrite orb_true_iff, someKey_iff. split.
      - intros [->|(q & v & Hq)]; [left; reflexivity|right]. rewrite Hg in Hq. eauto.
      - intros [H0|(q & v & Hq)]; [left; destruct k; [reflexivity|discriminate]|right]. rewrite <- Hg in Hq. eauto. }
    destruct (delete_path t k) as [[t' rm]|]; cbn [fst snd].
    + destruct H as (H1 & H2 & H3 & _). split.
      * split; [exact H3|]. intros k'. rewrite H2, lookup_erase, Hg. reflexivity.
      * f_equal. symmetry. apply N', H1.
    + split.
      * split; [exact Hl|]. intros k'. rewrite lookup_erase, Hg. destruct (keyb k' k) eqn:E; [|reflexivity].
        apply keyb_eq in E. subst k'. rewrite <- Hg, get_node, H. reflexivity.
      * f_equal. destruct (emptyKey k || someKey m k) eqn:E; [|reflexivity].
        exfalso. apply (proj2 N' eq_refl). exact H.
Qed.

Lemma runOps_spec os : forall t m, rep t m ->
  rep (fst (runOps t os)) (fst (specOps m os)) /\ snd (runOps t os) = snd (specOps m os).
Proof.
  induction os as [|o os IH]; intros t m H; cbn [runOps specOps]; [auto|].
  destruct (runOp_spec t m o H) as [H1 H2].
  destruct (runOp t o) as [t' a]. destruct (specOp m o) as [m' a']. cbn [fst snd] in *.
  destruct (IH t' m' H1) as [H3 H4].
  destruct (runOps t' os) as [t'' l]. destruct (specOps m' os) as [m'' l']. cbn [fst snd] in *.
  split; [exact H3|congruence].
Qed.
Lemma rep_new : rep newTrie [].
Proof. split; [apply live_new|]. intros [|r k]; reflexivity. Qed.

Lemma trie_is_map (os : list (op V)) : snd (runOps newTrie os) = snd (specOps [] os).
Proof. apply runOps_spec, rep_new. Qed.

Lemma trie_shape (os : list (op V)) p : hasNode (fst (runOps newTrie os)) p = emptyKey p || someKey (fst (specOps [] os)) p.
Proof.
  destruct (runOps_spec os _ _ rep_new) as [[Hl Hg] _]. set (t := fst (runOps newTrie os)) in *.
  set (m := fst (specOps [] os)) in *. unfold hasNode. pose proof (nodeAt_live t p Hl) as N.
  assert (nodeAt t p <> None <-> emptyKey p || someKey m p = true) as N'.
  { rewrite N. rewrite orb_true_iff, someKey_iff. split.
    - intros [->|(q & v & Hq)]; [left; reflexivity|right]. rewrite Hg in Hq. eauto.
    - intros [H0|(q & v & Hq)]; [left; destruct p; [reflexivity|discriminate]|right]. rewrite <- Hg in Hq. eauto. }
  destruct (nodeAt t p) as [n|].
  - symmetry. apply N'. discriminate.
  - destruct (emptyKey p || someKey m p); [exfalso; apply (proj2 N' eq_refl); reflexivity|reflexivity].
Qed.
End P.
