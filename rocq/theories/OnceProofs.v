From Coq Require Import ZifyBool.
From Verif Require Import Base Tables Width SpecWidth WidthProofs Once.
Arguments Z.shiftr : simpl never.

Definition alone (c : call) : go Z :=
  match c with CWidth r => width r [] | CWidths rs => widths rs [] end.

Definition holding (p : pc) : Prop :=
  match p with PCheck _ | PBuild _ _ | PStore _ | PUnlock _ => True | _ => False end.
Definition building (p : pc) : Prop :=
  match p with PBuild _ _ | PStore _ => True | _ => False end.

Definition complete (tb : Z -> go Z) : Prop := forall i, tb i = lookupTable i.

(* what remains to compute in a call gives the answer of the call run alone *)
Definition pcOk (s : state) (p : pc) : Prop :=
  match p with
  | PFast c | PLock c | PCheck c => early c = None
  | PBuild c n => early c = None /\ 0 <= n <= lookupSize
  | PStore c => early c = None /\ complete (st_table s)
  | PUnlock c => early c = None /\ st_done s = true
  | PSum c rs acc => st_done s = true /\ sumWidths cachedWidth rs acc = alone c
  | PFail c => alone c = Panic
  | PIdle => True
  end.

Record Inv (s : state) : Prop := {
  inv_mutex : forall k, holding (t_pc (st_threads s k)) <-> st_mutex s = Some k;
  inv_done : st_done s = true -> complete (st_table s);
  inv_builds : (st_builds s <= 1)%nat;
  inv_builds1 : st_builds s = 1%nat -> st_done s = true \/ exists k, building (t_pc (st_threads s k));
  inv_done_builds : (st_done s = true \/ exists k, building (t_pc (st_threads s k))) -> st_builds s = 1%nat;
  inv_pc : forall k, pcOk s (t_pc (st_threads s k));
  inv_res : forall k, Forall (fun cw => alone (fst cw) = Ret (snd cw)) (t_res (st_threads s k))
}.

Lemma updT_same f k t : updT f k t k = t.
Proof. unfold updT. rewrite Nat.eqb_refl. reflexivity. Qed.
Lemma updT_other f k t j : j <> k -> updT f k t j = f j.
Proof. unfold updT. intros H. destruct (Nat.eqb_spec j k); congruence. Qed.

Lemma alone_sum c : early c = None -> sumWidths cachedWidth (callRunes c) 0 = alone c.
Proof.
  destruct c as [r|rs]; cbn [early callRunes alone]; intros H.
  - unfold width. destruct (_ || _); [discriminate|]. destruct (r =? 0x2e3b); [discriminate|].
    cbn. destruct (cachedWidth r); reflexivity.
  - reflexivity.
Qed.

Lemma alone_early c w : early c = Some w -> alone c = Ret w.
Proof.
  destruct c as [r|rs]; cbn [early alone]; [|discriminate].
  unfold width. destruct (_ || _); [congruence|]. destruct (r =? 0x2e3b); congruence.
Qed.

Lemma partial_complete n : lookupSize <= n -> complete (partialTable n).
Proof.
  intros H i. unfold partialTable, lookupTable.
  destruct ((0 <=? i) && (i <? lookupSize)) eqn:E; [|reflexivity].
  destruct (Z.ltb_spec i n); [reflexivity|lia].
Qed.

Lemma holding_building p : building p -> holding p.
Proof. destruct p; cbn; auto. Qed.

(* a step that changes neither the shared variables nor the holding status of the thread *)
Lemma inv_local s k t' :
  Inv s ->
  (holding (t_pc t') <-> holding (t_pc (st_threads s k))) ->
  (building (t_pc t') <-> building (t_pc (st_threads s k))) ->
  pcOk s (t_pc t') ->
  Forall (fun cw => alone (fst cw) = Ret (snd cw)) (t_res t') ->
  Inv (setT s k t').
Proof.
  intros H Hh Hb Hp Hr. destruct H as [I1 I2 I3 I4 I5 I6 I7].
  assert (B : forall j, building (t_pc (updT (st_threads s) k t' j)) <-> building (t_pc (st_threads s j))).
  { intros j. destruct (Nat.eq_dec j k) as [->|n]; [rewrite updT_same; exact Hb|rewrite updT_other by assumption; reflexivity]. }
  constructor; cbn [setT st_done st_mutex st_table st_builds st_threads]; auto.
  - intros j. destruct (Nat.eq_dec j k) as [->|n].
    + rewrite updT_same, Hh. apply I1.
    + rewrite updT_other by assumption. apply I1.
  - intros E. destruct (I4 E) as [?|[j Hj]]; [left; assumption|right; exists j; now apply B].
  - intros [E|[j Hj]]; apply I5; [left; assumption|right; exists j; now apply B].
  - intros j. destruct (Nat.eq_dec j k) as [->|n].
    + rewrite updT_same. exact Hp.
    + rewrite updT_other by assumption. exact (I6 j).
  - intros j. destruct (Nat.eq_dec j k) as [->|n].
    + rewrite updT_same. exact Hr.
    + rewrite updT_other by assumption. apply I7.
Qed.

Lemma inv_step s k s' : Inv s -> step s k s' -> Inv s'.
Proof.
  intros H St. pose proof H as H0. destruct H as [I1 I2 I3 I4 I5 I6 I7].
  pose proof (I6 k) as P. pose proof (I7 k) as R. pose proof (I1 k) as M.
  destruct St as [c todo res w E W|c todo res E W|c E D|c E D|c E D|c E D|c E D|c n E L|c n E L|c E|c E
                 |c r rs acc b w E T U|c r rs acc E T|c acc todo res E].
  - apply inv_local; auto; rewrite E in *; cbn in *; try tauto.
    apply Forall_app. split; [exact R|]. constructor; [|constructor]. now apply alone_early.
  - apply inv_local; auto; rewrite E in *; cbn in *; tauto.
  - apply inv_local; auto; unfold withPc; cbn [t_pc t_res]; rewrite E in *; cbn in *; try tauto.
    split; [exact D|]. now apply alone_sum.
  - apply inv_local; auto; unfold withPc; cbn [t_pc t_res]; rewrite E in *; cbn in *; tauto.
  - (* lock *)
    assert (NH : forall j, ~ holding (t_pc (st_threads s j))) by (intros j Hj; apply I1 in Hj; congruence).
    assert (B : forall j, building (t_pc (updT (st_threads s) k (withPc (st_threads s k) (PCheck c)) j))
                  <-> building (t_pc (st_threads s j))).
    { intros j. destruct (Nat.eq_dec j k) as [->|n];
        [rewrite updT_same; cbn; rewrite E; cbn; reflexivity|rewrite updT_other by assumption; reflexivity]. }
    constructor; cbn [st_done st_mutex st_table st_builds st_threads]; auto.
    + intros j. destruct (Nat.eq_dec j k) as [->|n].
      * rewrite updT_same. cbn. tauto.
      * rewrite updT_other by assumption. split; [intros X; destruct (NH j X)|congruence].
    + intros F. destruct (I4 F) as [?|[j Hj]]; [left; assumption|right; exists j; now apply B].
    + intros [F|[j Hj]]; apply I5; [left; assumption|right; exists j; now apply B].
    + intros j. destruct (Nat.eq_dec j k) as [->|n].
      * rewrite updT_same. cbn. rewrite E in P. exact P.
      * rewrite updT_other by assumption. exact (I6 j).
    + intros j. destruct (Nat.eq_dec j k) as [->|n]; [rewrite updT_same|rewrite updT_other by assumption]; auto.
  - apply inv_local; auto; unfold withPc; cbn [t_pc t_res]; rewrite E in *; cbn in *; tauto.
  - (* check: miss *)
    rewrite E in M. cbn in M. assert (HM : st_mutex s = Some k) by tauto.
    assert (U : forall j, j <> k -> ~ holding (t_pc (st_threads s j)))
      by (intros j n Hj; apply I1 in Hj; congruence).
    assert (B0 : st_builds s = 0%nat).
    { destruct (st_builds s) as [|[|m]] eqn:Eb; [reflexivity| |lia].
      destruct (I4 eq_refl) as [?|[j Hj]]; [congruence|].
      destruct (Nat.eq_dec j k) as [->|n]; [rewrite E in Hj; destruct Hj|].
      destruct (U j n). now apply holding_building. }
    constructor; cbn [st_done st_mutex st_table st_builds st_threads]; auto.
    + intros j. destruct (Nat.eq_dec j k) as [->|n].
      * rewrite updT_same. cbn. tauto.
      * rewrite updT_other by assumption. apply I1.
    + lia.
    + intros _. right. exists k. rewrite updT_same. exact I.
    + intros j. destruct (Nat.eq_dec j k) as [->|n].
      * rewrite updT_same. cbn. rewrite E in P. split; [exact P|]. change lookupSize with 278528. lia.
      * rewrite updT_other by assumption. exact (I6 j).
    + intros j. destruct (Nat.eq_dec j k) as [->|n]; [rewrite updT_same|rewrite updT_other by assumption]; auto.
  - apply inv_local; auto; unfold withPc; cbn [t_pc t_res]; rewrite E in *; cbn in *; try tauto. split; [tauto|lia].
  - (* publish *)
    rewrite E in P, M. cbn in P, M. assert (HM : st_mutex s = Some k) by tauto.
    assert (U : forall j, j <> k -> ~ holding (t_pc (st_threads s j)))
      by (intros j n0 Hj; apply I1 in Hj; congruence).
    assert (CT : complete (partialTable n)) by (now apply partial_complete).
    assert (B : forall j, building (t_pc (updT (st_threads s) k (withPc (st_threads s k) (PStore c)) j))
                  <-> building (t_pc (st_threads s j))).
    { intros j. destruct (Nat.eq_dec j k) as [->|n0];
        [rewrite updT_same; cbn; rewrite E; cbn; tauto|rewrite updT_other by assumption; reflexivity]. }
    constructor; cbn [st_done st_mutex st_table st_builds st_threads]; auto.
    + intros j. destruct (Nat.eq_dec j k) as [->|n0].
      * rewrite updT_same. cbn. tauto.
      * rewrite updT_other by assumption. apply I1.
    + intros F. destruct (I4 F) as [?|[j Hj]]; [left; assumption|right; exists j; now apply B].
    + intros [F|[j Hj]]; apply I5; [left; assumption|right; exists j; now apply B].
    + intros j. destruct (Nat.eq_dec j k) as [->|n0].
      * rewrite updT_same. cbn. tauto.
      * rewrite updT_other by assumption. specialize (I6 j). specialize (U j n0).
        destruct (t_pc (st_threads s j)); cbn in *; tauto.
    + intros j. destruct (Nat.eq_dec j k) as [->|n0]; [rewrite updT_same|rewrite updT_other by assumption]; auto.
  - (* store *)
    rewrite E in P, M. cbn in P, M. assert (HM : st_mutex s = Some k) by tauto.
    assert (U : forall j, j <> k -> ~ holding (t_pc (st_threads s j)))
      by (intros j n0 Hj; apply I1 in Hj; congruence).
    constructor; cbn [st_done st_mutex st_table st_builds st_threads]; auto.
    + intros j. destruct (Nat.eq_dec j k) as [->|n0].
      * rewrite updT_same. cbn. tauto.
      * rewrite updT_other by assumption. apply I1.
    + intros _. tauto.
    + intros _. apply I5. right. exists k. rewrite E. exact I.
    + intros j. destruct (Nat.eq_dec j k) as [->|n0].
      * rewrite updT_same. cbn. tauto.
      * rewrite updT_other by assumption. specialize (I6 j). destruct (t_pc (st_threads s j)); cbn in *; tauto.
    + intros j. destruct (Nat.eq_dec j k) as [->|n0]; [rewrite updT_same|rewrite updT_other by assumption]; auto.
  - (* unlock *)
    rewrite E in P, M. cbn in P, M. assert (HM : st_mutex s = Some k) by tauto.
    assert (U : forall j, j <> k -> ~ holding (t_pc (st_threads s j)))
      by (intros j n0 Hj; apply I1 in Hj; congruence).
    constructor; cbn [st_done st_mutex st_table st_builds st_threads]; auto.
    + intros j. destruct (Nat.eq_dec j k) as [->|n0].
      * rewrite updT_same. cbn. split; [tauto|discriminate].
      * rewrite updT_other by assumption. specialize (U j n0). split; [tauto|discriminate].
    + intros _. left. tauto.
    + intros _. apply I5. left. tauto.
    + intros j. destruct (Nat.eq_dec j k) as [->|n0].
      * rewrite updT_same. cbn. split; [tauto|]. apply alone_sum. tauto.
      * rewrite updT_other by assumption. exact (I6 j).
    + intros j. destruct (Nat.eq_dec j k) as [->|n0]; [rewrite updT_same|rewrite updT_other by assumption]; auto.
  - (* read *)
    apply inv_local; auto; unfold withPc; cbn [t_pc t_res]; rewrite E in *; cbn in *; try tauto.
    destruct P as [D P]. split; [exact D|]. rewrite <- P.
    specialize (I2 D (Z.shiftr r 2)). unfold cachedWidth. rewrite <- I2, T. cbn [gbind]. rewrite U. reflexivity.
  - apply inv_local; auto; unfold withPc; cbn [t_pc t_res]; rewrite E in *; cbn in *; try tauto.
    destruct P as [D P]. rewrite <- P. specialize (I2 D (Z.shiftr r 2)).
    unfold cachedWidth at 1. rewrite <- I2. rewrite T. reflexivity.
  - apply inv_local; auto; rewrite E in *; cbn in *; try tauto.
    apply Forall_app. split; [exact R|]. constructor; [|constructor]. cbn. symmetry. tauto.
Qed.

Lemma inv_start progs : Inv (start progs).
Proof.
  constructor; cbn; auto.
  - intros k. split; [tauto|discriminate].
  - discriminate.
  - discriminate.
  - intros [H|[k H]]; [discriminate|destruct H].
Qed.

Lemma inv_reachable progs s : reachable progs s -> Inv s.
Proof. induction 1; [apply inv_start|eapply inv_step; eauto]. Qed.

Lemma once_safe progs s : reachable progs s ->
  (st_builds s <= 1)%nat /\
  (forall k c rs acc, t_pc (st_threads s k) = PSum c rs acc -> forall i, st_table s i = lookupTable i) /\
  (forall k c w, In (c, w) (t_res (st_threads s k)) -> alone c = Ret w) /\
  (forall k c, t_pc (st_threads s k) = PFail c -> alone c = Panic).
Proof.
  intros H. apply inv_reachable in H. destruct H as [I1 I2 I3 I4 I5 I6 I7].
  repeat split.
  - exact I3.
  - intros k c rs acc E. pose proof (I6 k) as P. rewrite E in P. cbn in P. apply I2. tauto.
  - intros k c w Hin. specialize (I7 k). rewrite Forall_forall in I7. exact (I7 _ Hin).
  - intros k c E. pose proof (I6 k) as P. rewrite E in P. exact P.
Qed.

(* a program order is kept: results so far, current call and remaining calls are the program *)
Definition current (p : pc) : list call :=
  match p with
  | PIdle => []
  | PFast c | PLock c | PCheck c | PBuild c _ | PStore c | PUnlock c | PSum c _ _ | PFail c => [c]
  end.

Lemma once_order progs s : reachable progs s -> forall k,
  map fst (t_res (st_threads s k)) ++ current (t_pc (st_threads s k)) ++ t_todo (st_threads s k) = progs k.
Proof.
  induction 1 as [|s k s' Hr IH St]; intros j; [reflexivity|].
  assert (L : forall t', map fst (t_res t') ++ current (t_pc t') ++ t_todo t' = progs k ->
     map fst (t_res (updT (st_threads s) k t' j)) ++ current (t_pc (updT (st_threads s) k t' j))
       ++ t_todo (updT (st_threads s) k t' j) = progs j).
  { intros t' E. destruct (Nat.eq_dec j k) as [->|n]; [rewrite updT_same; exact E|].
    rewrite updT_other by assumption. apply IH. }
  specialize (IH k).
  destruct St as [c todo res w E W|c todo res E W|c E D|c E D|c E D|c E D|c E D|c n E L0|c n E L0|c E|c E
                 |c r rs acc b w E T U|c r rs acc E T|c acc todo res E];
  cbn [setT st_threads]; apply L; unfold withPc; cbn [t_pc t_res t_todo]; rewrite E in IH; cbn in IH |- *;
  try exact IH; rewrite map_app, <- app_assoc; exact IH.
Qed.

(* no deadlock: as long as a goroutine has work left, some goroutine can step *)
Lemma once_progress progs s : reachable progs s -> forall k,
  (exists c, t_pc (st_threads s k) = PFail c) \/
  (t_pc (st_threads s k) = PIdle /\ t_todo (st_threads s k) = []) \/
  (exists j s', step s j s').
Proof.
  intros H k. apply inv_reachable in H. destruct H as [I1 I2 I3 I4 I5 I6 I7].
  assert (HS : forall j, holding (t_pc (st_threads s j)) -> exists s', step s j s').
  { intros j Hj. destruct (t_pc (st_threads s j)) eqn:E; cbn in Hj; try contradiction.
    - destruct (st_done s) eqn:D; eexists; [eapply step_check_done|eapply step_check_miss]; eauto.
    - destruct (Z_lt_dec n lookupSize); eexists; [eapply step_build|eapply step_publish]; eauto; lia.
    - eexists; eapply step_store; eauto.
    - eexists; eapply step_unlock; eauto. }
  destruct (st_threads s k) as [p todo res] eqn:Et.
  destruct p; cbn [t_pc t_todo].
  - destruct todo as [|c todo]; [right; left; auto|]. right; right. exists k.
    destruct (early c) eqn:Ee; eexists; [eapply step_early|eapply step_call]; eauto.
  - right; right. exists k. destruct (st_done s) eqn:D; eexists; [eapply step_fast_done|eapply step_fast_miss]; eauto; now rewrite Et.
  - right; right. destruct (st_mutex s) as [j|] eqn:M.
    + exists j. apply HS. now apply I1.
    + exists k. eexists. eapply step_lock; eauto. now rewrite Et.
  - right; right. exists k. apply HS. rewrite Et. exact I.
  - right; right. exists k. apply HS. rewrite Et. exact I.
  - right; right. exists k. apply HS. rewrite Et. exact I.
  - right; right. exists k. apply HS. rewrite Et. exact I.
  - right; right. exists k. destruct rs as [|r rs].
    + eexists. eapply step_return; eauto.
    + destruct (let! b := st_table s (Z.shiftr r 2) in unpack b r) as [w|] eqn:Er.
      * destruct (st_table s (Z.shiftr r 2)) as [b|] eqn:Eb; [|discriminate]. cbn in Er.
        eexists. eapply step_read; eauto. now rewrite Et.
      * eexists. eapply step_read_panic; eauto. now rewrite Et.
  - left. eauto.
Qed.

(* ---------- a run that does everything (non-vacuity) ---------- *)

Lemma build_run progs k c todo res f n : 0 <= n <= lookupSize ->
  reachable progs (mkState false (Some k) nilTable 1 (updT f k (mkThread (PBuild c 0) todo res))) ->
  exists f', (forall j, f' j = updT f k (mkThread (PBuild c n) todo res) j) /\
             reachable progs (mkState false (Some k) nilTable 1 f').
Proof.
  intros Hn H0. destruct Hn as [Hn Hle]. revert Hle. pattern n. apply natlike_ind; [| |exact Hn].
  - intros _. eexists. split; [reflexivity|exact H0].
  - intros m Hm IH Hle. destruct IH as [f' [Ef R]]; [lia|].
    exists (updT f' k (withPc (f' k) (PBuild c (m + 1)))). split.
    + intros j. unfold withPc. rewrite Ef, updT_same. cbn [t_todo t_res].
      replace (Z.succ m) with (m + 1) by lia.
      destruct (Nat.eq_dec j k) as [->|d]; [rewrite !updT_same; reflexivity|].
      rewrite !updT_other by assumption. rewrite Ef. now rewrite updT_other.
    + eapply reach_step; [exact R|].
      apply (step_build (mkState false (Some k) nilTable 1 f') k c m).
      * cbn [st_threads]. rewrite Ef, updT_same. reflexivity.
      * lia.
Qed.

(* goroutine 0 builds the table and measures 'a'; goroutine 1 was waiting for the mutex meanwhile *)
Lemma once_run : exists s,
  reachable (fun k => match k with 0%nat => [CWidth 97] | 1%nat => [CWidths [97; 0x4e2d]] | _ => [] end) s /\
  t_res (st_threads s 0%nat) = [(CWidth 97, 1)] /\ t_pc (st_threads s 1%nat) = PLock (CWidths [97; 0x4e2d]) /\
  st_builds s = 1%nat.
Proof.
  set (progs := fun k => match k with 0%nat => [CWidth 97] | 1%nat => [CWidths [97; 0x4e2d]] | _ => [] end).
  pose proof (reach_start progs) as R.
  eapply reach_step in R; [|eapply (step_call _ 0 (CWidth 97)); reflexivity].
  eapply reach_step in R; [|eapply (step_call _ 1 (CWidths [97; 0x4e2d])); reflexivity].
  eapply reach_step in R; [|eapply (step_fast_miss _ 0 (CWidth 97)); reflexivity].
  eapply reach_step in R; [|eapply (step_fast_miss _ 1 (CWidths [97; 0x4e2d])); reflexivity].
  eapply reach_step in R; [|eapply (step_lock _ 0 (CWidth 97)); reflexivity].
  eapply reach_step in R; [|eapply (step_check_miss _ 0 (CWidth 97)); reflexivity].
  unfold setT, withPc in R. cbn [st_done st_mutex st_table st_builds st_threads start] in R.
  unfold t_todo at 1, t_res at 1 in R. 
  match type of R with reachable _ (mkState _ _ _ _ (updT ?f 0 (mkThread _ ?a ?b))) =>
    destruct (build_run progs 0 (CWidth 97) a b f lookupSize) as [f' [Ef R']]; [vm_compute; split; discriminate|exact R|] end.
  clear R.
  eapply reach_step in R'; [|eapply (step_publish _ 0 (CWidth 97) lookupSize);
     [cbn [st_threads]; rewrite Ef, updT_same; reflexivity|apply Z.le_refl]].
  eapply reach_step in R'; [|eapply (step_store _ 0 (CWidth 97)); reflexivity].
  eapply reach_step in R'; [|eapply (step_unlock _ 0 (CWidth 97)); reflexivity].
  eapply reach_step in R'; [|eapply (step_read _ 0 (CWidth 97) 97 [] 0); [reflexivity|vm_compute; reflexivity|vm_compute; reflexivity]].
  eapply reach_step in R'; [|eapply (step_return _ 0 (CWidth 97) 1);
     unfold setT, withPc; cbn [st_threads]; rewrite updT_same; reflexivity].
  eexists. split; [exact R'|].
  cbn [st_threads st_builds setT withPc]. split; [|split; [|reflexivity]].
  - rewrite updT_same. unfold withPc. cbn [st_threads t_res]. rewrite ?updT_same. cbn [t_res]. rewrite Ef. rewrite ?updT_same. reflexivity.
  - cbn. rewrite Ef. reflexivity.
Qed.
