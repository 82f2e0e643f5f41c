(** Renderers shared by several States. *)
From Verif Require Import Base Attr SpecAttr AttrProofs Heap SpecHeap.

Lemma setAt_len {T} (l : list T) i x : length (setAt l i x) = length l.
Proof. revert i. induction l as [|y l IH]; intros [|i]; cbn [setAt length]; [reflexivity..|]. now rewrite IH. Qed.
Lemma setAt_same {T} (l : list T) i x : (i < length l)%nat -> nth_error (setAt l i x) i = Some x.
Proof. revert i. induction l as [|y l IH]; intros [|i] H; cbn in *; [lia|lia|reflexivity|]. apply IH. lia. Qed.
Lemma setAt_other {T} (l : list T) i j x : i <> j -> nth_error (setAt l i x) j = nth_error l j.
Proof.
  revert i j. induction l as [|y l IH]; intros [|i] [|j] H; cbn [setAt nth_error]; try reflexivity; try congruence. apply IH. congruence.
Qed.
Lemma nth_setAt {T} (l : list T) i j x d : (i < length l)%nat -> nth j (setAt l i x) d = if (i =? j)%nat then x else nth j l d.
Proof.
  revert i j. induction l as [|y l IH]; intros [|i] [|j] H; cbn in *; try lia; try reflexivity. apply IH. lia.
Qed.

Definition vw (h : list attr) (l : list addr) : state := flat_map (fun a => match nth_error h a with Some x => [x] | None => [] end) l.
Lemma vw_app h a b : vw h (a ++ b) = vw h a ++ vw h b. Proof. apply flat_map_app. Qed.
Lemma vw_ext h h' l : (forall a, In a l -> nth_error h a = nth_error h' a) -> vw h l = vw h' l.
Proof.
  unfold vw. induction l as [|a l IH]; intros H; [reflexivity|]. cbn [flat_map]. rewrite (H a (or_introl eq_refl)). f_equal. apply IH. intros b Hb. apply H. now right.
Qed.
Lemma vw_setAt h a x l : ~ In a l -> vw (setAt h a x) l = vw h l.
Proof. intros H. apply vw_ext. intros b Hb. apply setAt_other. intros ->. contradiction. Qed.

Definition now (v : state) : Prop := v = stateOf (map wordNow v).
Lemma stateOf_snoc ws w : stateOf (ws ++ [w]) = push (stateOf ws) (Some (ofWord w)).
Proof. unfold stateOf, pushAll. now rewrite map_app, fold_left_app. Qed.
Lemma word_now x l : ofWord (wordNow (setLevel x l)) = setLevel x 0. Proof. destruct x. reflexivity. Qed.
Lemma now_push v x : now v -> now (push v (Some x)).
Proof.
  unfold now. intros H. cbn [push]. rewrite map_app. cbn [map]. rewrite stateOf_snoc, word_now, <- H. cbn [push]. destruct x. reflexivity.
Qed.
Lemma now_init v x : now (v ++ [x]) -> now v.
Proof. unfold now. rewrite map_app. cbn [map]. rewrite stateOf_snoc. cbn [push]. intros H. apply app_inj_tail in H. apply H. Qed.
Lemma now_stop v x e : now (v ++ [x]) -> now (v ++ [setStop x e]).
Proof.
  intros H. pose proof (now_init v x H) as Hv. unfold now in *. rewrite map_app in *. cbn [map] in *. rewrite stateOf_snoc in *. rewrite <- Hv in *. cbn [push] in *.
  apply app_inj_tail in H. destruct H as [_ H]. f_equal. f_equal. destruct x as [t s p l]. cbn in *. injection H as H. rewrite H. reflexivity.
Qed.

Lemma runAll_app a b w : runAll w (a ++ b) = let! w' := runAll w a in runAll w' b.
Proof. revert w. induction a as [|c a IH]; intros w; cbn [app runAll gbind]; [reflexivity|]. destruct (run1 w c); cbn [gbind]; [apply IH|reflexivity]. Qed.
Lemma pushesTo_in s cs a : In a (pushesTo s cs) -> exists c1 c2, cs = c1 ++ CPush s (Some (Some a)) :: c2.
Proof.
  unfold pushesTo. rewrite in_flat_map. intros (c & Hc & Ha). apply in_split in Hc. destruct Hc as (c1 & c2 & ->).
  destruct c as [| |s' [[b|]|]| |]; try destruct Ha. destruct (Nat.eqb_spec s' s) as [->|]; [|destruct Ha]. destruct Ha as [->|[]]. eauto.
Qed.
Lemma pushesTo_incl s cs a : In a (pushesTo s cs) -> In a (pushes cs).
Proof.
  intros H. destruct (pushesTo_in s cs a H) as (c1 & c2 & ->). unfold pushes. rewrite flat_map_app. apply in_or_app. right. now left.
Qed.
Lemma pushesTo_one s s' cs a : NoDup (pushes cs) -> In a (pushesTo s cs) -> In a (pushesTo s' cs) -> s = s'.
Proof.
  intros N H1 H2. destruct (pushesTo_in s cs a H1) as (c1 & c2 & ->). unfold pushesTo in H2. rewrite flat_map_app in H2. cbn [flat_map] in H2.
  unfold pushes in N. rewrite flat_map_app in N. cbn [flat_map app] in N. apply NoDup_remove_2 in N.
  apply in_app_or in H2. destruct H2 as [H2|H2].
  - exfalso. apply N. apply in_or_app. left. exact (pushesTo_incl s' c1 a H2).
  - apply in_app_or in H2. destruct H2 as [H2|H2]; [destruct (Nat.eqb_spec s s') as [|]; [assumption|destruct H2]|].
    exfalso. apply N. apply in_or_app. right. exact (pushesTo_incl s' c2 a H2).
Qed.
Lemma pushesTo_split s cs : forall l a l2, pushesTo s cs = l ++ a :: l2 -> exists c1 c2, cs = c1 ++ CPush s (Some (Some a)) :: c2 /\ pushesTo s c1 = l /\ pushesTo s c2 = l2.
Proof.
  induction cs as [|c cs IH]; intros l a l2 E; [destruct l; discriminate E|].
  assert (forall l', pushesTo s cs = l' ++ a :: l2 -> pushesTo s [c] ++ l' = l -> exists c1 c2, c :: cs = c1 ++ CPush s (Some (Some a)) :: c2 /\ pushesTo s c1 = l /\ pushesTo s c2 = l2) as K.
  { intros l' E' El. destruct (IH l' a l2 E') as (c1 & c2 & -> & E1 & E2). exists (c :: c1), c2. split; [reflexivity|]. split; [|exact E2].
    rewrite <- El, <- E1. unfold pushesTo. cbn [flat_map]. now rewrite app_nil_r. }
  assert (pushesTo s (c :: cs) = pushesTo s [c] ++ pushesTo s cs) as Ec by (unfold pushesTo; cbn [flat_map]; now rewrite app_nil_r).
  rewrite Ec in E. destruct (pushesTo s [c]) as [|b bs] eqn:Eb; [now apply (K l)|].
  assert (c = CPush s (Some (Some b)) /\ bs = []) as [-> ->].
  { unfold pushesTo in Eb. cbn [flat_map] in Eb. destruct c as [| |s' [[d|]|]| |]; try discriminate Eb. destruct (Nat.eqb_spec s' s) as [->|]; [|discriminate Eb]. now injection Eb as -> <-. }
  cbn [app] in *. destruct l as [|d l].
  - injection E as -> E. exists [], cs. split; [reflexivity|]. split; [reflexivity|exact E].
  - injection E as -> E. now apply (K l).
Qed.
Lemma disciplined_prefix cs c : disciplined (cs ++ [c]) -> disciplined cs.
Proof.
  intros (H1 & H2 & H3). split; [|split].
  - unfold once, pushes in *. rewrite flat_map_app in H1. revert H1. generalize (flat_map (fun c0 => match c0 with CPush _ (Some (Some a)) => [a] | _ => [] end) [c]).
    intros l. induction l as [|x l IH] using rev_ind; intros N; [now rewrite app_nil_r in N|]. apply IH. rewrite app_assoc in N. apply NoDup_remove_1 in N. now rewrite app_nil_r in N.
  - intros a l H. apply (H2 a l). apply in_or_app. now left.
  - intros c1 s a c2 b c3 e c4 ->. apply (H3 c1 s a c2 b c3 e (c4 ++ [c])). rewrite <- app_assoc. cbn [app]. rewrite <- app_assoc. cbn [app]. rewrite <- app_assoc. reflexivity.
Qed.

Definition inv (cs : list call) (w : world) : Prop := forall s,
  nth s (w_states w) [] = pushesTo s cs /\ now (view w s) /\ Forall (fun a => (a < length (w_heap w))%nat) (pushesTo s cs).
Lemma view_vw w s : view w s = vw (w_heap w) (nth s (w_states w) []). Proof. reflexivity. Qed.
Lemma valid_vw h l : Forall (fun a => (a < length h)%nat) l -> length (vw h l) = length l /\ (forall b, last (map Some l) None = Some b -> exists c, nth_error h b = Some c /\ last (map Some (vw h l)) None = Some c).
Proof.
  intros H. split.
  - induction H as [|a l Ha _ IH]; [reflexivity|]. unfold vw in *. cbn [flat_map]. destruct (nth_error h a) eqn:E; [|apply nth_error_None in E; lia]. cbn [app length]. now rewrite IH.
  - intros b Hb. destruct l as [|a l _] using rev_ind; [discriminate Hb|]. rewrite map_app in Hb. cbn [map] in Hb. rewrite last_last in Hb. injection Hb as ->.
    apply Forall_app in H. destruct H as [_ H]. inversion H as [|? ? Hb _]; subst. destruct (nth_error h b) as [c|] eqn:E; [|apply nth_error_None in E; lia].
    exists c. split; [reflexivity|]. rewrite vw_app. unfold vw at 2. cbn [flat_map]. rewrite E. cbn [app]. rewrite map_app. cbn [map]. now rewrite last_last.
Qed.
Lemma run_inv cs : forall w, disciplined cs -> runAll noWorld cs = Ret w -> inv cs w.
Proof.
  induction cs as [|c cs IH] using rev_ind; intros w D E.
  - injection E as <-. intros s. cbn. destruct s; repeat split; constructor.
  - rewrite runAll_app in E. destruct (runAll noWorld cs) as [w0|]; [|discriminate E]. cbn [gbind runAll] in E.
    specialize (IH w0 (disciplined_prefix cs c D) eq_refl). destruct D as (N & NL & ST).
    assert (forall s, pushesTo s (cs ++ [c]) = pushesTo s cs ++ pushesTo s [c]) as Ep by (intros s; apply flat_map_app).
    destruct (run1 w0 c) as [w1|] eqn:E1; [|discriminate E]. cbn [gbind] in E. injection E as <-.
    destruct c as [t st e| |s0 r|a e|a l]; cbn [run1] in E1.
    + injection E1 as <-. intros s. destruct (IH s) as (I1 & I2 & I3). rewrite Ep. cbn [pushesTo flat_map]. rewrite app_nil_r. split; [exact I1|].
      rewrite view_vw in *. cbn [w_heap w_states]. split.
      * rewrite (vw_ext _ (w_heap w0)); [exact I2|]. intros a Ha. rewrite I1 in Ha. rewrite Forall_forall in I3. apply nth_error_app1. now apply I3.
      * rewrite app_length. eapply Forall_impl; [|exact I3]. cbn [length]. lia.
    + injection E1 as <-. intros s. destruct (IH s) as (I1 & I2 & I3). rewrite Ep. cbn [pushesTo flat_map]. rewrite app_nil_r.
      assert (nth s (w_states w0 ++ [[]]) [] = nth s (w_states w0) []) as En.
      { destruct (Nat.lt_ge_cases s (length (w_states w0))) as [H|H]; [now apply app_nth1|]. rewrite (nth_overflow (w_states w0)) by exact H.
        rewrite app_nth2 by exact H. destruct (s - length (w_states w0))%nat as [|[|k]]; reflexivity. }
      rewrite view_vw in *. cbn [w_heap w_states]. rewrite En. auto.
    + unfold hpush in E1. destruct r as [p|]; [|injection E1 as <-; intros s; rewrite Ep; cbn [pushesTo flat_map]; rewrite app_nil_r; apply IH].
      destruct (nth_error (w_states w0) s0) as [l|] eqn:El; [|discriminate E1].
      assert (nth s0 (w_states w0) [] = l) as En by now apply nth_error_nth.
      assert (s0 < length (w_states w0))%nat as Hs0 by (apply nth_error_Some; congruence).
      destruct (IH s0) as (J1 & J2 & J3). rewrite view_vw, En in J2. rewrite <- J1, En in J3.
      destruct (match last (map Some l) None with None => _ | Some b => _ end) as [l0|] eqn:E0; [|discriminate E1]. cbn [gbind] in E1.
      destruct p as [a|]; [|discriminate E1]. destruct (nth_error (w_heap w0) a) as [x|] eqn:Ea; [|discriminate E1]. injection E1 as <-.
      assert (~ In a (pushes cs)) as Hn.
      { unfold once, pushes in N. rewrite flat_map_app in N. cbn [flat_map] in N. apply NoDup_remove_2 in N. now rewrite app_nil_r in N. }
      assert (a < length (w_heap w0))%nat as Ha by (apply nth_error_Some; congruence).
      intros s. destruct (IH s) as (I1 & I2 & I3). rewrite Ep. rewrite view_vw in *. cbn [w_heap w_states]. rewrite nth_setAt by exact Hs0. rewrite setAt_len.
      assert (~ In a (pushesTo s cs)) as Hns by (intros H; apply Hn; now apply pushesTo_incl in H).
      unfold pushesTo at 2 4. cbn [flat_map]. destruct (Nat.eqb_spec s0 s) as [->|Hd].
      * rewrite <- J1, En. split; [reflexivity|]. split; [|apply Forall_app; split; [exact J3|]; constructor; [exact Ha|constructor]].
        assert (~ In a l) as Hnl by (rewrite <- En, J1; exact Hns). rewrite vw_app, vw_setAt by exact Hnl.
        unfold vw at 2. cbn [flat_map]. rewrite setAt_same by exact Ha. cbn [app].
        assert (vw (w_heap w0) l ++ [setLevel x (if hasStart x then l0 + 1 else l0)] = push (vw (w_heap w0) l) (Some x)) as ->; [|now apply now_push].
        cbn [push]. f_equal. f_equal. assert (match last (map Some (vw (w_heap w0) l)) None with Some c => if hasStop c then a_level c - 1 else a_level c | None => 0 end = l0) as ->; [|reflexivity].
        destruct (last (map Some l) None) as [b|] eqn:Eb.
        -- destruct (valid_vw _ _ J3) as [_ K]. destruct (K b Eb) as (c & Ec & ->). rewrite Ec in E0. injection E0 as <-. reflexivity.
        -- injection E0 as <-. destruct l as [|y l _] using rev_ind; [reflexivity|]. rewrite map_app in Eb. cbn [map] in Eb. rewrite last_last in Eb. discriminate Eb.
      * cbn [app]. rewrite app_nil_r. split; [exact I1|]. split; [|exact I3]. rewrite I1 in *. now rewrite vw_setAt.
    + unfold onAttr in E1. destruct (nth_error (w_heap w0) a) as [x|] eqn:Ea; [|discriminate E1]. injection E1 as <-.
      assert (a < length (w_heap w0))%nat as Ha by (apply nth_error_Some; congruence).
      intros s. destruct (IH s) as (I1 & I2 & I3). rewrite Ep. rewrite view_vw in *. cbn [w_heap w_states pushesTo flat_map]. rewrite app_nil_r, setAt_len.
      split; [exact I1|]. split; [|exact I3]. rewrite I1 in *. destruct (in_dec Nat.eq_dec a (pushesTo s cs)) as [Hin|Hn]; [|now rewrite vw_setAt].
      apply in_split in Hin. destruct Hin as (l & l2 & El). destruct (pushesTo_split s cs l a l2 El) as (c1 & c2 & Ec & E1 & E2).
      destruct l2 as [|b l2].
      * assert (~ In a l) as Hnl.
        { intros H. assert (NoDup (pushes cs)) as N' by (unfold once, pushes in N; rewrite flat_map_app in N; cbn [flat_map] in N; rewrite app_nil_r in N; exact N).
          rewrite Ec in N'. unfold pushes in N'. rewrite flat_map_app in N'. cbn [flat_map app] in N'. apply NoDup_remove_2 in N'. apply N'. apply in_or_app. left.
          rewrite <- E1 in H. exact (pushesTo_incl s c1 a H). }
        rewrite El in I2 |- *. rewrite !vw_app in *. rewrite vw_setAt by exact Hnl. unfold vw at 2. unfold vw at 2 in I2. cbn [flat_map] in *.
        rewrite Ea in I2. rewrite setAt_same by exact Ha. cbn [app] in *. exact (now_stop _ _ e I2).
      * exfalso. destruct (pushesTo_split s c2 [] b l2 E2) as (c3 & c4 & Ec2 & _ & _). apply (ST c1 s a c3 b c4 e []).
        rewrite Ec, Ec2, <- app_assoc. cbn [app]. rewrite <- app_assoc. reflexivity.
    + exfalso. apply (NL a l). apply in_or_app. right. now left.
Qed.
Theorem heap_view cs w : disciplined cs -> runAll noWorld cs = Ret w -> forall s,
  nth s (w_states w) [] = pushesTo s cs /\ length (view w s) = length (pushesTo s cs) /\ view w s = stateOf (map wordNow (view w s)).
Proof.
  intros D E s. destruct (run_inv cs w D E s) as (I1 & I2 & I3). split; [exact I1|]. split; [|exact I2]. rewrite view_vw, I1. now apply valid_vw.
Qed.

(** ** Iterators used while their State grows *)
Lemma push_grow s r : push s r = s ++ match r with None => [] | Some _ => skipn (length s) (push s r) end.
Proof. destruct r as [a|]; cbn [push]; [|now rewrite app_nil_r]. rewrite skipn_app, skipn_all, Nat.sub_diag. reflexivity. Qed.
Lemma push_len s r : length (push s r) = (length s + count1 r)%nat.
Proof. destruct r as [a|]; cbn [push count1]; [rewrite app_length; cbn [length]; lia|lia]. Qed.
Lemma pushAll_cons s r rs : pushAll s (r :: rs) = pushAll (push s r) rs. Proof. reflexivity. Qed.
Lemma pushAll_grow rs : forall s, exists more, pushAll s rs = s ++ more.
Proof.
  induction rs as [|r rs IH]; intros s; [exists []; now rewrite app_nil_r|]. rewrite pushAll_cons. destruct (IH (push s r)) as [more ->].
  rewrite (push_grow s r), <- app_assoc. eexists. reflexivity.
Qed.
Lemma nth_firstn_snoc {T} (l : list T) n x : nth_error l n = Some x -> firstn (S n) l = firstn n l ++ [x].
Proof. revert n. induction l as [|y l IH]; intros [|n] H; cbn in *; try discriminate; [now injection H as ->|]. f_equal. now apply IH. Qed.

(** the iterator after [k] items were seen *)
Definition at_ (k : nat) (i : iter) : Prop := i = mkIter true (Some O) /\ k = O \/ exists n, i = mkIter false (Some n) /\ k = S n.
Definition dead (i : iter) : Prop := i_cur i = None.
Lemma next_dead s i : dead i -> dead (fst (next s i)) /\ snd (next s i) = false.
Proof. destruct i as [b c]. unfold dead. cbn [i_cur]. intros ->. unfold next. cbn [i_start i_cur]. destruct b; split; reflexivity. Qed.
Lemma next_at s i k : at_ k i -> s <> [] -> (k <= length s)%nat ->
  (k < length s)%nat /\ at_ (S k) (fst (next s i)) /\ snd (next s i) = true /\ item s (fst (next s i)) = nth_error s k
  \/ k = length s /\ dead (fst (next s i)) /\ snd (next s i) = false.
Proof.
  intros [[-> ->]|(n & -> & ->)] Hs Hk; unfold next; cbn [i_start i_cur fst snd].
  - left. split; [destruct s; [congruence|cbn [length]; lia]|]. split; [right; exists O; split; reflexivity|]. split; reflexivity.
  - unfold eltNext. destruct (Nat.ltb_spec (S n) (length s)) as [H|H].
    + left. split; [exact H|]. split; [right; exists (S n); split; reflexivity|]. split; reflexivity.
    + right. split; [lia|]. split; reflexivity.
Qed.
Lemma watch_dead es : forall s i, dead i -> fst (watch s i es) = ([], nexts es, pushAll s (pushesIn es)).
Proof.
  induction es as [|[|r] es IH]; intros s i D; cbn [watch nexts pushesIn]; [reflexivity| |].
  - destruct (next_dead s i D) as [D' E]. destruct (next s i) as [i' b]. cbn [fst snd] in *. subst b. specialize (IH s i' D').
    destruct (watch s i' es) as [[[seen no] s'] i'']. cbn [fst] in *. injection IH as -> -> ->. reflexivity.
  - rewrite (IH (push s r) i D). reflexivity.
Qed.
Definition shows (s' : state) (k : nat) (seen : list (option attr)) : Prop := seen = map Some (firstn (length seen) (skipn k s')).
Lemma watch_at es : forall s i k, at_ k i -> s <> [] -> (k <= length s)%nat ->
  let '(seen, no, s', _) := watch s i es in s' = pushAll s (pushesIn es) /\ shows s' k seen /\ (length seen + no = nexts es)%nat
  /\ (timely (length s - k) es -> no = O).
Proof.
  induction es as [|[|r] es IH]; intros s i k A Hs Hk; cbn [watch nexts pushesIn].
  - repeat split.
  - destruct (next_at s i k A Hs Hk) as [(K1 & K2 & K3 & K4)|(K1 & K2 & K3)]; destruct (next s i) as [i' b]; cbn [fst snd] in *; subst b.
    + specialize (IH s i' (S k) K2 Hs ltac:(lia)). destruct (watch s i' es) as [[[seen no] s'] i'']. destruct IH as (I1 & I2 & I3 & I4).
      split; [exact I1|]. split; [|split; [cbn [length]; lia|]].
      * destruct (nth_error s k) as [x|] eqn:Ex; [|apply nth_error_None in Ex; lia]. rewrite K4. unfold shows in *. cbn [length].
        assert (nth_error s' k = Some x) as Ex' by (destruct (pushAll_grow (pushesIn es) s) as [more E]; rewrite I1, E, nth_error_app1 by lia; exact Ex).
        assert (skipn k s' = x :: skipn (S k) s') as ->.
        { clear -Ex'. revert k Ex'. induction s' as [|y s' IHs]; intros [|k] E; cbn in *; try discriminate; [now injection E as ->|]. now apply IHs. }
        cbn [firstn map]. f_equal. exact I2.
      * intros T. cbn [timely] in T. destruct T as [T1 T2]. apply I4. replace (length s - S k)%nat with (length s - k - 1)%nat by lia. exact T2.
    + pose proof (watch_dead es s i' K2) as W. destruct (watch s i' es) as [[[seen no] s'] i'']. cbn [fst] in W. injection W as -> -> ->.
      split; [reflexivity|]. split; [reflexivity|]. split; [reflexivity|]. intros T. cbn [timely] in T. destruct T as [T1 _]. lia.
  - assert (push s r <> []) as Hs' by (rewrite push_grow; destruct s; [congruence|discriminate]).
    pose proof (push_len s r) as HL. specialize (IH (push s r) i k A Hs' ltac:(lia)). destruct (watch (push s r) i es) as [[[seen no] s'] i''].
    destruct IH as (I1 & I2 & I3 & I4). split; [exact I1|]. split; [exact I2|]. split; [exact I3|]. cbn [timely]. intros T. apply I4.
    replace (length (push s r) - k)%nat with (length s - k + count1 r)%nat by lia. exact T.
Qed.
Theorem watch_prefix s es : let '(seen, no, s', _) := watch s (iterator s) es in
  s' = pushAll s (pushesIn es) /\ seen = map Some (firstn (length seen) s') /\ (length seen + no = nexts es)%nat.
Proof.
  destruct s as [|x s].
  - pose proof (watch_dead es [] (iterator []) eq_refl) as W. destruct (watch [] (iterator []) es) as [[[seen no] s'] i]. cbn [fst] in W. injection W as -> -> ->. repeat split.
  - pose proof (watch_at es (x :: s) (iterator (x :: s)) O) as W. destruct (watch (x :: s) (iterator (x :: s)) es) as [[[seen no] s'] i].
    destruct W as (W1 & W2 & W3 & _); [left; split; reflexivity|discriminate|lia|]. split; [exact W1|]. split; [exact W2|exact W3].
Qed.
Theorem watch_timely s es : s <> [] -> timely (length s) es ->
  let '(seen, no, s', _) := watch s (iterator s) es in no = O /\ seen = map Some (firstn (nexts es) s').
Proof.
  intros Hs T. pose proof (watch_at es s (iterator s) O) as W. destruct (watch s (iterator s) es) as [[[seen no] s'] i].
  destruct W as (W1 & W2 & W3 & W4); [left; destruct s; [congruence|split; reflexivity]|exact Hs|lia|]. rewrite Nat.sub_0_r in W4. specialize (W4 T). subst no. split; [reflexivity|].
  rewrite Nat.add_0_r in W3. rewrite <- W3. exact W2.
Qed.
(** after a false Next, every Next is false *)
Theorem watch_stuck s i es : snd (next s i) = false -> forall es1 i1, i1 = fst (next s i) ->
  let '(seen, no, _, _) := watch (pushAll s es1) i1 es in seen = [] /\ no = nexts es.
Proof.
  intros E es1 i1 ->. assert (dead (fst (next s i))) as D.
  { destruct i as [b c]. unfold next in *. cbn [i_start i_cur] in *. destruct b.
    - destruct c; [discriminate E|reflexivity].
    - destruct c as [n|]; [|reflexivity]. cbn [fst snd] in *. unfold dead. cbn [i_cur]. destruct (eltNext s n); [discriminate E|reflexivity]. }
  pose proof (watch_dead es (pushAll s es1) _ D) as W. destruct (watch _ _ es) as [[[seen no] s'] i']. cbn [fst] in W. injection W as -> -> ->. split; reflexivity.
Qed.

(** ** Programs that do not panic *)
Definition sane (w : world) : Prop := Forall (Forall (fun a => (a < length (w_heap w))%nat)) (w_states w).
Lemma Forall_setAt {T} (P : T -> Prop) l : forall i x, Forall P l -> P x -> Forall P (setAt l i x).
Proof. induction l as [|y l IH]; intros [|i] x H Hx; cbn [setAt]; [exact H..| |]; inversion H; subst; constructor; auto. Qed.
Lemma scoped_run cs : forall w, sane w -> scoped (length (w_heap w)) (length (w_states w)) cs -> exists w', runAll w cs = Ret w'.
Proof.
  induction cs as [|c cs IH]; intros w S H; [eexists; reflexivity|]. cbn [runAll].
  destruct c as [t st e| |s [[a|]|]|a e|a l]; cbn [scoped run1 gbind] in *.
  - apply IH; cbn [w_heap w_states]; [|rewrite app_length; cbn [length]; now rewrite Nat.add_1_r].
    eapply Forall_impl; [|exact S]. intros l. apply Forall_impl. cbn [w_heap]. intros b. rewrite app_length. lia.
  - apply IH; cbn [w_heap w_states]; [|rewrite app_length; cbn [length]; now rewrite Nat.add_1_r].
    apply Forall_app. split; [exact S|]. constructor; constructor.
  - destruct H as (H1 & H2 & H3). unfold hpush. destruct (nth_error (w_states w) s) as [l|] eqn:El; [|apply nth_error_None in El; lia].
    assert (Forall (fun b => (b < length (w_heap w))%nat) l) as Fl by (unfold sane in S; rewrite Forall_forall in S; apply S; now apply nth_error_In in El).
    destruct (nth_error (w_heap w) a) as [x|] eqn:Ea; [|apply nth_error_None in Ea; lia].
    assert (exists l0, match last (map Some l) None with None => Ret 0 | Some b => match nth_error (w_heap w) b with None => Panic | Some c => Ret (lineLevel c) end end = Ret l0) as [l0 ->].
    { destruct (last (map Some l) None) as [b|] eqn:Eb; [|eexists; reflexivity]. destruct (valid_vw _ _ Fl) as [_ K]. destruct (K b Eb) as (c & -> & _). eexists. reflexivity. }
    cbn [gbind]. apply IH; [|cbn [w_heap w_states]; rewrite !setAt_len; exact H3]. unfold sane. cbn [w_heap w_states]. rewrite setAt_len. apply Forall_setAt; [exact S|]. apply Forall_app. split; [exact Fl|]. constructor; [exact H2|constructor].
  - destruct H.
  - cbn [hpush gbind]. now apply IH.
  - destruct H as [H1 H2]. unfold onAttr. destruct (nth_error (w_heap w) a) as [x|] eqn:Ea; [|apply nth_error_None in Ea; lia]. cbn [gbind].
    apply IH; unfold sane; cbn [w_heap w_states]; rewrite !setAt_len; assumption.
  - destruct H as [H1 H2]. unfold onAttr. destruct (nth_error (w_heap w) a) as [x|] eqn:Ea; [|apply nth_error_None in Ea; lia]. cbn [gbind].
    apply IH; unfold sane; cbn [w_heap w_states]; rewrite !setAt_len; assumption.
Qed.
Theorem heap_total cs : scoped 0 0 cs -> exists w, runAll noWorld cs = Ret w.
Proof. intros H. apply scoped_run; [constructor|exact H]. Qed.

(** ** A check for concrete programs *)
Definition noStop (a : addr) (cs : list call) : bool := forallb (fun c => match c with CSetStop b _ => negb (b =? a)%nat | _ => true end) cs.
Fixpoint quietAfter (s a : nat) (cs : list call) : bool :=
  match cs with
  | [] => true
  | c :: cs' => match c with CPush s' (Some (Some _)) => if (s' =? s)%nat then noStop a cs' else quietAfter s a cs' | _ => quietAfter s a cs' end
  end.
Fixpoint stopsCheck (cs : list call) : bool :=
  match cs with
  | [] => true
  | c :: cs' => match c with CPush s (Some (Some a)) => quietAfter s a cs' | _ => true end && stopsCheck cs'
  end.
Lemma noStop_spec a cs : noStop a cs = true -> forall c3 e c4, cs <> c3 ++ CSetStop a e :: c4.
Proof.
  unfold noStop. rewrite forallb_forall. intros H c3 e c4 ->. assert (In (CSetStop a e) (c3 ++ CSetStop a e :: c4)) as K by (apply in_or_app; right; now left).
  specialize (H _ K). cbv beta iota in H. rewrite Nat.eqb_refl in H. discriminate H.
Qed.
Lemma quietAfter_spec s a cs : quietAfter s a cs = true -> forall c2 b c3 e c4, cs <> c2 ++ CPush s (Some (Some b)) :: c3 ++ CSetStop a e :: c4.
Proof.
  induction cs as [|c cs IH]; intros H c2 b c3 e c4 E; [destruct c2; discriminate E|]. destruct c2 as [|c' c2]; cbn [app] in E; injection E as -> E.
  - cbn [quietAfter] in H. rewrite Nat.eqb_refl in H. exact (noStop_spec a cs H c3 e c4 E).
  - assert (quietAfter s a cs = true \/ noStop a cs = true) as [K|K].
    { cbn [quietAfter] in H. destruct c' as [| |s' [[d|]|]| |]; auto. destruct (s' =? s)%nat; auto. }
    + exact (IH K c2 b c3 e c4 E).
    + apply (noStop_spec a cs K (c2 ++ CPush s (Some (Some b)) :: c3) e c4). rewrite E, <- app_assoc. reflexivity.
Qed.
Lemma stopsCheck_spec cs : stopsCheck cs = true -> stopsInTime cs.
Proof.
  intros H c1 s a c2 b c3 e c4 ->. revert H. induction c1 as [|c c1 IH]; cbn [app stopsCheck]; intros H; apply andb_true_iff in H; destruct H as [H1 H2].
  - exact (quietAfter_spec s a _ H1 c2 b c3 e c4 eq_refl).
  - exact (IH H2).
Qed.

(** ** Lists of renderers *)
Lemma given_len (x : list rune) : (0 <? zlen x) = given x. Proof. destruct x as [|c x]; [reflexivity|]. cbn [given]. apply Z.ltb_lt. unfold zlen. cbn [length]. lia. Qed.
Lemma renderers_order rs : renderersStart rs = starts rs /\ renderersStop rs = stops rs.
Proof.
  induction rs as [|[a|] rs [IH1 IH2]]; [split; reflexivity| |split; assumption]. unfold starts, stops in *. cbn [renderersStart renderersStop flat_map app map filter].
  unfold attrStart, attrStop, hasStart, hasStop. rewrite !given_len, IH1, IH2. split; [destruct (given (a_start a))|destruct (given (a_stop a))]; reflexivity.
Qed.
Lemma renderers_iff rs : renderersStop rs = rev (stops rs) <-> stops rs = rev (stops rs).
Proof. rewrite (proj2 (renderers_order rs)). reflexivity. Qed.
Lemma renderers_one rs : (length (stops rs) <= 1)%nat -> renderersStop rs = rev (stops rs).
Proof. intros H. apply renderers_iff. destruct (stops rs) as [|x [|y l]]; [reflexivity..|cbn [length] in H; lia]. Qed.
