From Coq Require Permutation.
From Verif Require Import Base Unicode Utf8 SpecTrie Trie TrieProofs Dict Cache.
Local Open Scope Z_scope.

Section Proofs.
Variable u : unicode.
Variable files : fname -> option (list byte).

(** line by line, or all at once *)
Fixpoint loadRest (lines : list str) (exc : bool) (d : dictionary) : dictionary :=
  match lines with [] => d | l :: ls => loadRest ls (snd (loadLine u l exc d)) (fst (loadLine u l exc d)) end.
Lemma loadRest_exc lines : forall d, loadRest lines true d =
  mkDict (fold_left putRule (map (readException u) lines) (d_exceptions d)) (d_patterns d) (d_identifier d).
Proof.
  induction lines as [|l lines IH]; intros d; cbn [loadRest map fold_left]; [destruct d; reflexivity|].
  cbn [loadLine fst snd]. rewrite IH. reflexivity.
Qed.
Lemma loadRest_loop lines : forall d, loadRest lines false d = load_loop u lines d.
Proof.
  induction lines as [|l lines IH]; intros d; [reflexivity|]. cbn [loadRest load_loop]. unfold loadLine.
  destruct (hasPrefix l messageSection); [cbn [fst snd]; apply IH|].
  destruct (hasPrefix l exceptionsSection); [cbn [fst snd]; apply loadRest_exc|].
  destruct (isTeXComment l); cbn [fst snd]; apply IH.
Qed.

Definition full (f : fname) (bs : list byte) : dictionary := loadFile u (defaultName f) bs.

Lemma updT_same f k t : updT f k t k = t.
Proof. unfold updT. rewrite Nat.eqb_refl. reflexivity. Qed.
Lemma updT_other f k t j : j <> k -> updT f k t j = f j.
Proof. unfold updT. intros H. destruct (Nat.eqb_spec j k); congruence. Qed.
Lemma nth_setNth {A} (l : list A) : forall i j x, nth_error (setNth l i x) j =
  if Nat.eqb i j then match nth_error l i with Some _ => Some x | None => None end else nth_error l j.
Proof.
  induction l as [|y l IH]; intros [|i] [|j] x; cbn [setNth nth_error Nat.eqb]; try reflexivity.
  - destruct (Nat.eqb i j); reflexivity.
  - apply IH.
Qed.
Lemma setNth_length {A} (l : list A) : forall i x, length (setNth l i x) = length l.
Proof. induction l as [|y l IH]; intros [|i] x; cbn; [reflexivity..|]. rewrite IH. reflexivity. Qed.

Definition holding (p : pc) : Prop := match p with PIdle | PLock _ | PFail _ => False | _ => True end.
Definition content (s : state) : list (fname * option nat) := match st_map s with Some m => m | None => [] end.
(** [v] is what loading [f] gives, in heap [h] *)
Definition valOk (h : list dictionary) (f : fname) (v : option nat) : Prop :=
  match v, files f with
  | Some p, Some bs => nth_error h p = Some (full f bs)
  | None, None => True
  | _, _ => False
  end.

Definition pcOk (s : state) (p : pc) : Prop :=
  match p with
  | PIdle | PLock _ | PInit _ => True
  | PLookup f => st_map s <> None
  | POpen f => st_map s <> None /\ lookup (content s) f = None /\ ~ In f (st_opened s)
  | PLoad f p ls exc => st_map s <> None /\ lookup (content s) f = None /\ In f (st_opened s) /\
      (forall f', lookup (content s) f' <> Some (Some p)) /\
      exists bs d, files f = Some bs /\ nth_error (st_heap s) p = Some d /\ loadRest ls exc d = full f bs
  | PStore f v => st_map s <> None /\ In f (st_opened s) /\ valOk (st_heap s) f v /\
      (lookup (content s) f = Some v \/ lookup (content s) f = None /\
        (forall p f', v = Some p -> lookup (content s) f' <> Some (Some p)))
  | PUnlock f v => lookup (content s) f = Some v
  | PFail _ => False
  end.

(** The file being loaded, already counted in [st_opened] and not in the map. *)
Definition pending (p : pc) (f : fname) : Prop :=
  match p with PLoad g _ _ _ => g = f | PStore g _ => g = f | _ => False end.

Record Inv (s : state) : Prop := {
  inv_mutex : forall k, holding (t_pc (st_threads s k)) <-> st_mutex s = Some k;
  inv_nodup : NoDup (st_opened s);
  inv_opened : forall f, In f (st_opened s) <->
     lookup (content s) f <> None \/ exists k, pending (t_pc (st_threads s k)) f;
  inv_vals : forall f v, lookup (content s) f = Some v -> valOk (st_heap s) f v;
  inv_inj : forall f g p, lookup (content s) f = Some (Some p) -> lookup (content s) g = Some (Some p) -> f = g;
  inv_pc : forall k, pcOk s (t_pc (st_threads s k));
  inv_res : forall k f v, In (f, v) (t_res (st_threads s k)) -> lookup (content s) f = Some v
}.

Lemma inv_start progs : Inv (start progs).
Proof.
  constructor; cbn.
  - intros k. split; [tauto|discriminate].
  - constructor.
  - intros f. split; [tauto|]. intros [H|[k H]]; [congruence|exact H].
  - discriminate.
  - discriminate.
  - intros _. exact I.
  - intros _ _ _ [].
Qed.

(** Threads other than the holder do not depend on the shared state. *)
Lemma pcOk_free s s' p : ~ holding p -> pcOk s p -> pcOk s' p.
Proof. destruct p; cbn; tauto. Qed.
Lemma pending_holding p f : pending p f -> holding p.
Proof. destruct p; cbn; tauto. Qed.

(** a step of the holder [k] that ends as the holder, with results unchanged *)
Lemma inv_holder s k p' m' h' o' :
  Inv s -> st_mutex s = Some k -> holding p' ->
  let s' := mkState (st_mutex s) m' h' o' (goTo s k p') in
  NoDup o' ->
  (forall f, In f o' <-> lookup (content s') f <> None \/ pending p' f) ->
  (forall f v, lookup (content s') f = Some v -> valOk h' f v) ->
  (forall f g p, lookup (content s') f = Some (Some p) -> lookup (content s') g = Some (Some p) -> f = g) ->
  pcOk s' p' ->
  (forall f v, lookup (content s) f = Some v -> lookup (content s') f = Some v) ->
  Inv s'.
Proof.
  intros [I1 I2 I3 I4 I5 I6 I7] HM Hp s' Hn Ho Hv Hi Hpc Hmono.
  assert (forall j, j <> k -> ~ holding (t_pc (st_threads s j))) as U by (intros j n Hj; apply I1 in Hj; congruence).
  constructor; unfold s', goTo; cbn [st_mutex st_opened st_threads st_heap].
  - intros j. destruct (Nat.eq_dec j k) as [->|n]; [rewrite updT_same|rewrite updT_other by exact n; apply I1].
    cbn [t_pc]. tauto.
  - exact Hn.
  - intros f. rewrite Ho. split; (intros [H|H]; [left; exact H|right]).
    + exists k. rewrite updT_same. exact H.
    + destruct H as [j H]. destruct (Nat.eq_dec j k) as [->|n]; [rewrite updT_same in H; exact H|].
      rewrite updT_other in H by exact n. destruct (U j n). eapply pending_holding, H.
  - exact Hv.
  - exact Hi.
  - intros j. destruct (Nat.eq_dec j k) as [->|n]; [rewrite updT_same; exact Hpc|].
    rewrite updT_other by exact n. eapply pcOk_free; [apply U, n|apply I6].
  - intros j f v. destruct (Nat.eq_dec j k) as [->|n]; [rewrite updT_same|rewrite updT_other by exact n];
      cbn [t_res]; intros H; apply Hmono; eapply I7, H.
Qed.

Lemma valOk_app h d f v : valOk h f v -> valOk (h ++ [d]) f v.
Proof.
  unfold valOk. destruct v as [p|]; [|auto]. destruct (files f); [|auto]. intros H.
  rewrite nth_error_app1; [exact H|]. apply nth_error_Some. congruence.
Qed.
Lemma valOk_set h p d f v : valOk h f v -> v <> Some p -> valOk (setNth h p d) f v.
Proof.
  unfold valOk. destruct v as [q|]; [|auto]. destruct (files f); [|auto]. intros H Hp.
  rewrite nth_setNth. destruct (Nat.eqb_spec p q); [congruence|exact H].
Qed.
Lemma lookup_nil_map (f : fname) : @lookup (option nat) [] f = None.
Proof. reflexivity. Qed.

Lemma inv_step s k s' : Inv s -> step u files s k s' -> Inv s'.
Proof.
  intros H St. pose proof H as [I1 I2 I3 I4 I5 I6 I7]. pose proof (I6 k) as P. pose proof (I1 k) as M.
  assert (st_mutex s = Some k -> forall f, In f (st_opened s) <->
            lookup (content s) f <> None \/ pending (t_pc (st_threads s k)) f) as Own.
  { intros HM f. rewrite I3. split; (intros [X|X]; [left; exact X|right]).
    - destruct X as [j X]. destruct (Nat.eq_dec j k) as [->|n]; [exact X|].
      pose proof (pending_holding _ _ X) as Y. apply I1 in Y. congruence.
    - exists k. exact X. }
  destruct St as [f todo res E|f E D|f E D|f m E D|f m v E D L|f E L|f bs E B|f E B|f p line lines exc d E D|f p exc E
                 |f v m E D|f v E D|f v todo res E].
  - (* call *)
    rewrite E in P, M. cbn [t_pc] in *.
    assert (forall j, holding (t_pc (updT (st_threads s) k (mkThread (PLock f) todo res) j)) <-> holding (t_pc (st_threads s j))) as Hh.
    { intros j. destruct (Nat.eq_dec j k) as [->|n]; [rewrite updT_same, E; reflexivity|rewrite updT_other by exact n; reflexivity]. }
    constructor; cbn [st_mutex st_opened st_threads st_heap]; try assumption.
    + intros j. rewrite Hh. apply I1.
    + intros g. rewrite I3. split; (intros [X|[j X]]; [left; exact X|right; exists j]).
      * destruct (Nat.eq_dec j k) as [->|n]; [rewrite E in X; destruct X|rewrite updT_other by exact n; exact X].
      * destruct (Nat.eq_dec j k) as [->|n]; [rewrite updT_same in X; destruct X|rewrite updT_other in X by exact n; exact X].
    + intros j. destruct (Nat.eq_dec j k) as [->|n]; [rewrite updT_same; exact I|rewrite updT_other by exact n; exact (I6 j)].
    + intros j g v. destruct (Nat.eq_dec j k) as [->|n]; [rewrite updT_same|rewrite updT_other by exact n; apply I7].
      cbn [t_res]. specialize (I7 k g v). rewrite E in I7. exact I7.
  - (* lock *)
    assert (forall j, ~ holding (t_pc (st_threads s j))) as NH by (intros j Hj; apply I1 in Hj; congruence).
    constructor; unfold goTo; cbn [st_mutex st_opened st_threads st_heap]; try assumption.
    + intros j. destruct (Nat.eq_dec j k) as [->|n]; [rewrite updT_same; cbn; tauto|rewrite updT_other by exact n].
      split; [intros X; destruct (NH j X)|congruence].
    + intros g. rewrite I3. split; (intros [X|[j X]]; [left; exact X|right; exists j]).
      * destruct (NH j). eapply pending_holding, X.
      * destruct (Nat.eq_dec j k) as [->|n]; [rewrite updT_same in X; destruct X|rewrite updT_other in X by exact n; exact X].
    + intros j. destruct (Nat.eq_dec j k) as [->|n]; [rewrite updT_same; exact I|rewrite updT_other by exact n; exact (I6 j)].
    + intros j g v. destruct (Nat.eq_dec j k) as [->|n]; [rewrite updT_same|rewrite updT_other by exact n]; apply I7.
  - (* make *)
    rewrite E in M, P. cbn in M, P. assert (st_mutex s = Some k) as HM by tauto. specialize (Own HM). rewrite E in Own.
    assert (content s = []) as Ec by (unfold content; rewrite D; reflexivity).
    apply inv_holder; auto; cbn [holding pcOk content st_map]; try exact I.
    + intros g. rewrite Own, Ec. reflexivity.
    + intros g v. cbn. discriminate.
    + intros g1 g2 q. cbn. discriminate.
    + discriminate.
    + intros g v. rewrite Ec. auto.
  - (* already made *)
    rewrite E in M, P. cbn in M, P. assert (st_mutex s = Some k) as HM by tauto. specialize (Own HM). rewrite E in Own.
    apply (inv_holder s k (PLookup f) (st_map s) (st_heap s) (st_opened s)); auto; cbn [holding pcOk st_map]; try exact I.
    + congruence.
  - (* found *)
    rewrite E in M, P. cbn in M, P. assert (st_mutex s = Some k) as HM by tauto. specialize (Own HM). rewrite E in Own.
    assert (content s = m) as Ec by (unfold content; rewrite D; reflexivity).
    apply (inv_holder s k (PStore f v) (st_map s) (st_heap s) (st_opened s)); auto; cbn [holding pcOk st_map st_opened st_heap]; try exact I.
    + intros g. rewrite Own. cbn [pending]. split; [tauto|]. intros [X|X]; [left; exact X|]. subst g. left.
      change (lookup (content s) f <> None). rewrite Ec, L. discriminate.
    + rewrite <- Ec in L. split; [congruence|]. split; [apply Own; left; rewrite L; discriminate|]. split; [apply I4, L|].
      left. exact L.
  - (* missing *)
    rewrite E in M, P. cbn in M, P. assert (st_mutex s = Some k) as HM by tauto. specialize (Own HM). rewrite E in Own.
    apply (inv_holder s k (POpen f) (st_map s) (st_heap s) (st_opened s)); auto; cbn [holding pcOk st_map st_opened st_heap]; try exact I.
    + assert (lookup (content s) f = None) as Ln.
      { unfold content. destruct (st_map s) as [m|]; [apply L; reflexivity|reflexivity]. }
      split; [exact P|]. split; [exact Ln|]. rewrite Own. cbn [pending]. change (lookup (content s) f) with (lookup (content s) f) in Ln.
      intros [X|[]]. congruence.
  - (* open *)
    rewrite E in M, P. cbn in M, P. assert (st_mutex s = Some k) as HM by tauto. specialize (Own HM). rewrite E in Own.
    destruct P as (P1 & P2 & P3).
    apply (inv_holder s k (PLoad f (length (st_heap s)) (scanLines bs) false) (st_map s) (st_heap s ++ [emptyDict f]) (st_opened s ++ [f]));
      auto; cbn [holding pcOk st_map st_opened st_heap]; try exact I.
    + apply (Coq.Sorting.Permutation.Permutation_NoDup (l := f :: st_opened s)); [apply Coq.Sorting.Permutation.Permutation_cons_append|].
      constructor; assumption.
    + intros g. rewrite in_app_iff, Own. cbn [pending In]. change (content _) with (content s). intuition.
    + intros g v X. apply valOk_app, I4, X.
    + split; [exact P1|]. split; [exact P2|]. split; [apply in_or_app; right; left; reflexivity|]. split.
      * intros g X. apply I4 in X. unfold valOk in X. destruct (files g); [|exact X].
        assert (length (st_heap s) < length (st_heap s))%nat; [|lia]. apply nth_error_Some. congruence.
      * exists bs, (emptyDict f). split; [exact B|]. split.
        -- rewrite nth_error_app2 by lia. rewrite Nat.sub_diag. reflexivity.
        -- rewrite loadRest_loop. reflexivity.
  - (* open fails *)
    rewrite E in M, P. cbn in M, P. assert (st_mutex s = Some k) as HM by tauto. specialize (Own HM). rewrite E in Own.
    destruct P as (P1 & P2 & P3).
    apply (inv_holder s k (PStore f None) (st_map s) (st_heap s) (st_opened s ++ [f]));
      auto; cbn [holding pcOk st_map st_opened st_heap]; try exact I.
    + apply (Coq.Sorting.Permutation.Permutation_NoDup (l := f :: st_opened s)); [apply Coq.Sorting.Permutation.Permutation_cons_append|].
      constructor; assumption.
    + intros g. rewrite in_app_iff, Own. cbn [pending In]. change (content _) with (content s). intuition.
    + split; [exact P1|]. split; [apply in_or_app; right; left; reflexivity|]. split; [unfold valOk; rewrite B; exact I|].
      right. split; [exact P2|discriminate].
  - (* line *)
    rewrite E in M, P. cbn in M. assert (st_mutex s = Some k) as HM by tauto. specialize (Own HM). rewrite E in Own.
    cbn [pcOk] in P. destruct P as (P1 & P2 & P3 & P4 & bs & d' & B & Hd & Hr). rewrite D in Hd. injection Hd as <-.
    apply (inv_holder s k (PLoad f p lines (snd (loadLine u line exc d))) (st_map s) (setNth (st_heap s) p (fst (loadLine u line exc d))) (st_opened s));
      auto; cbn [holding pcOk st_map st_opened st_heap]; try exact I.
    + intros g v X. apply valOk_set; [apply I4, X|]. intros ->. exact (P4 g X).
    + split; [exact P1|]. split; [exact P2|]. split; [exact P3|]. split; [exact P4|].
      exists bs, (fst (loadLine u line exc d)). split; [exact B|]. split; [|exact Hr].
      rewrite nth_setNth, Nat.eqb_refl, D. reflexivity.
  - (* loaded *)
    rewrite E in M, P. cbn in M. assert (st_mutex s = Some k) as HM by tauto. specialize (Own HM). rewrite E in Own.
    cbn [pcOk] in P. destruct P as (P1 & P2 & P3 & P4 & bs & d' & B & Hd & Hr).
    apply (inv_holder s k (PStore f (Some p)) (st_map s) (st_heap s) (st_opened s));
      auto; cbn [holding pcOk st_map st_opened st_heap]; try exact I.
    + split; [exact P1|]. split; [exact P3|]. split; [unfold valOk; rewrite B, Hd; f_equal; exact Hr|].
      right. split; [exact P2|]. intros q g [= <-]. apply P4.
  - (* store *)
    rewrite E in M, P. cbn in M. assert (st_mutex s = Some k) as HM by tauto. specialize (Own HM). rewrite E in Own.
    cbn [pcOk] in P. destruct P as (P1 & P2 & P3 & P4).
    assert (content s = m) as Ec by (unfold content; rewrite D; reflexivity).
    assert (forall g, lookup (bind m f v) g = if keyb g f then Some v else lookup m g) as Lb by (intros; apply lookup_bind).
    apply inv_holder; auto; cbn [holding pcOk content st_map st_opened st_heap]; try exact I.
    + intros g. rewrite Own, Ec, Lb. cbn [pending]. destruct (keyb g f) eqn:Ek.
      * apply keyb_eq in Ek. subst g. split; [left; discriminate|auto].
      * split; [intros [X|X]; [left; exact X|subst g; rewrite keyb_refl in Ek; discriminate]|intros [X|[]]; left; exact X].
    + intros g w. rewrite Lb. destruct (keyb g f) eqn:Ek.
      * apply keyb_eq in Ek. subst g. intros [= <-]. exact P3.
      * rewrite <- Ec. apply I4.
    + intros g1 g2 q. rewrite !Lb, <- Ec. destruct (keyb g1 f) eqn:E1; destruct (keyb g2 f) eqn:E2.
      * apply keyb_eq in E1, E2. congruence.
      * apply keyb_eq in E1. subst g1. intros [= ->] X. destruct P4 as [P4|[_ P4]]; [eapply I5; eauto|].
        destruct (P4 q g2 eq_refl X).
      * apply keyb_eq in E2. subst g2. intros X [= ->]. destruct P4 as [P4|[_ P4]]; [eapply I5; eauto|].
        destruct (P4 q g1 eq_refl X).
      * apply I5.
    + rewrite Lb, keyb_refl. reflexivity.
    + intros g w X. rewrite Lb, <- Ec. destruct (keyb g f) eqn:Ek; [|exact X]. apply keyb_eq in Ek. subst g.
      destruct P4 as [P4|[P4 _]]; congruence.
  - (* store in a nil map *)
    rewrite E in P. cbn [pcOk] in P. destruct P as (P1 & _). congruence.
  - (* unlock *)
    rewrite E in P, M. cbn in P, M. assert (st_mutex s = Some k) as HM by tauto. specialize (Own HM). rewrite E in Own. cbn in Own.
    assert (forall j, j <> k -> ~ holding (t_pc (st_threads s j))) as U by (intros j n Hj; apply I1 in Hj; congruence).
    constructor; cbn [st_mutex st_opened st_threads st_heap]; try assumption.
    + intros j. destruct (Nat.eq_dec j k) as [->|n]; [rewrite updT_same; cbn; split; [tauto|discriminate]|rewrite updT_other by exact n].
      specialize (U j n). split; [tauto|discriminate].
    + intros g. rewrite Own. split; (intros [X|X]; [left; exact X|]); [destruct X|right].
      destruct X as [j X]. destruct (Nat.eq_dec j k) as [->|n]; [rewrite updT_same in X; destruct X|rewrite updT_other in X by exact n].
      destruct (U j n). eapply pending_holding, X.
    + intros j. destruct (Nat.eq_dec j k) as [->|n]; [rewrite updT_same; exact I|rewrite updT_other by exact n; exact (I6 j)].
    + intros j g w. destruct (Nat.eq_dec j k) as [->|n]; [rewrite updT_same|rewrite updT_other by exact n; apply I7].
      cbn [t_res]. rewrite in_app_iff. intros [X|[[= <- <-]|[]]].
      * apply (I7 k). rewrite E. exact X.
      * exact P.
Qed.

Lemma inv_reachable progs s : reachable u files progs s -> Inv s.
Proof. induction 1; [apply inv_start|eapply inv_step; eauto]. Qed.

Lemma cache_safe progs s : reachable u files progs s ->
  NoDup (st_opened s) /\
  (forall k1 k2 f v1 v2, In (f, v1) (t_res (st_threads s k1)) -> In (f, v2) (t_res (st_threads s k2)) -> v1 = v2) /\
  (forall k f v, In (f, v) (t_res (st_threads s k)) ->
     match files f with
     | None => v = None
     | Some bs => exists p, v = Some p /\ nth_error (st_heap s) p = Some (loadFile u (defaultName f) bs)
     end) /\
  (forall k1 k2 f g p, In (f, Some p) (t_res (st_threads s k1)) -> In (g, Some p) (t_res (st_threads s k2)) -> f = g) /\
  (forall k f, t_pc (st_threads s k) <> PFail f).
Proof.
  intros H. apply inv_reachable in H. destruct H as [I1 I2 I3 I4 I5 I6 I7].
  split; [exact I2|]. split; [intros k1 k2 f v1 v2 X Y; apply I7 in X, Y; congruence|]. split; [|split].
  - intros k f v X. apply I7, I4 in X. unfold valOk in X. destruct v as [p|]; destruct (files f); try tauto. exists p. auto.
  - intros k1 k2 f g p X Y. apply I7 in X, Y. eapply I5; eauto.
  - intros k f X. specialize (I6 k). rewrite X in I6. exact I6.
Qed.

Definition current (p : pc) : list fname :=
  match p with
  | PIdle => []
  | PLock f | PInit f | PLookup f | POpen f | PLoad f _ _ _ | PStore f _ | PUnlock f _ | PFail f => [f]
  end.
Lemma cache_order progs s : reachable u files progs s ->
  forall k, map fst (t_res (st_threads s k)) ++ current (t_pc (st_threads s k)) ++ t_todo (st_threads s k) = progs k.
Proof.
  induction 1 as [|s j s' Hs IH St]; [reflexivity|]. intros k. specialize (IH k).
  destruct (Nat.eq_dec k j) as [->|n].
  - destruct St; cbn [st_threads]; unfold goTo; rewrite updT_same; cbn [t_res t_pc t_todo current];
      try (match goal with E : t_pc _ = _ |- _ => rewrite E in IH end; cbn [current] in IH; exact IH);
      match goal with E : st_threads _ _ = _ |- _ => rewrite E in IH end; cbn [t_res t_pc t_todo current app] in *; [exact IH|].
    rewrite map_app, <- app_assoc. exact IH.
  - destruct St; cbn [st_threads]; unfold goTo; rewrite updT_other by exact n; exact IH.
Qed.

Lemma cache_progress progs s : reachable u files progs s -> forall k,
  (t_pc (st_threads s k) = PIdle /\ t_todo (st_threads s k) = []) \/ exists j s', step u files s j s'.
Proof.
  intros H k. apply inv_reachable in H. pose proof H as [I1 I2 I3 I4 I5 I6 I7].
  assert (forall j, holding (t_pc (st_threads s j)) -> exists s', step u files s j s') as Hh.
  { intros j Hj. pose proof (I6 j) as P. destruct (st_threads s j) as [p todo res] eqn:E. cbn [t_pc] in *.
    assert (t_pc (st_threads s j) = p) as Ep by (rewrite E; reflexivity).
    destruct p as [|f|f|f|f|f p ls exc|f v|f v|f]; try contradiction Hj.
    - destruct (st_map s) eqn:Em; eexists; [eapply step_made|eapply step_make]; eauto.
    - destruct (st_map s) as [m|] eqn:Em.
      + destruct (lookup m f) as [v|] eqn:El; eexists; [eapply step_found; eauto|eapply step_missing; eauto].
        intros m' E'. congruence.
      + eexists. eapply step_missing; eauto. congruence.
    - destruct (files f) eqn:Ef; eexists; [eapply step_open; eauto|eapply step_open_err; eauto].
    - cbn [pcOk] in P. destruct P as (_ & _ & _ & _ & bs & d & _ & Hd & _).
      destruct ls; eexists; [eapply step_loaded|eapply step_line]; eauto.
    - destruct (st_map s) eqn:Em; eexists; [eapply step_store|eapply step_store_nil]; eauto.
    - eexists. eapply step_unlock, E. }
  destruct (st_threads s k) as [p todo res] eqn:E. cbn [t_pc t_todo].
  assert (t_pc (st_threads s k) = p) as Ep by (rewrite E; reflexivity).
  destruct (st_mutex s) as [j|] eqn:Em.
  - right. destruct (Hh j) as [s' St]; [apply I1; reflexivity|]. eauto.
  - destruct p as [|f|f|f|f|f p ls exc|f v|f v|f];
      try (exfalso; assert (holding (t_pc (st_threads s k))) as X by (rewrite Ep; exact I); apply I1 in X; congruence).
    + destruct todo as [|f todo]; [left; auto|right]. eexists _, _. eapply step_call, E.
    + right. eexists _, _. eapply step_lock; eauto.
    + specialize (I6 k). rewrite Ep in I6. destruct I6.
Qed.
End Proofs.

(** A run of two goroutines asking for the same (empty) file. *)
Lemma cache_run (u : unicode) : let f := [97] in exists s,
  reachable u (fun _ => Some []) (fun k => match k with 0%nat | 1%nat => [f] | _ => [] end) s /\
  t_res (st_threads s 0%nat) = [(f, Some 0%nat)] /\ t_res (st_threads s 1%nat) = [(f, Some 0%nat)] /\ st_opened s = [f].
Proof.
  intros f. set (progs := fun k => match k with 0%nat | 1%nat => [f] | _ => [] end).
  pose proof (reach_start u (fun _ => Some []) progs) as R.
  eapply reach_step in R; [|eapply (step_call u _ _ 0 f); reflexivity]; lazy in R.
  eapply reach_step in R; [|eapply (step_call u _ _ 1 f); reflexivity]; lazy in R.
  eapply reach_step in R; [|eapply (step_lock u _ _ 0 f); reflexivity]; lazy in R.
  eapply reach_step in R; [|eapply (step_make u _ _ 0 f); reflexivity]; lazy in R.
  eapply reach_step in R; [|eapply (step_missing u _ _ 0 f); [reflexivity|intros m [= <-]; reflexivity]]; lazy in R.
  eapply reach_step in R; [|eapply (step_open u _ _ 0 f); reflexivity]; lazy in R.
  eapply reach_step in R; [|eapply (step_loaded u _ _ 0 f); reflexivity]; lazy in R.
  eapply reach_step in R; [|eapply (step_store u _ _ 0 f); reflexivity]; lazy in R.
  eapply reach_step in R; [|eapply (step_unlock u _ _ 0 f); reflexivity]; lazy in R.
  eapply reach_step in R; [|eapply (step_lock u _ _ 1 f); reflexivity]; lazy in R.
  eapply reach_step in R; [|eapply (step_made u _ _ 1 f); reflexivity]; lazy in R.
  eapply reach_step in R; [|eapply (step_found u _ _ 1 f); reflexivity]; lazy in R.
  eapply reach_step in R; [|eapply (step_store u _ _ 1 f); reflexivity]; lazy in R.
  eapply reach_step in R; [|eapply (step_unlock u _ _ 1 f); reflexivity]; lazy in R.
  eexists. split; [exact R|]. repeat split; reflexivity.
Qed.
