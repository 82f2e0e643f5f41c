From Verif Require Import Base Attr SpecAttr.
Local Open Scope Z_scope.

Definition startsOf (l : list attr) : Z := count hasStart l.
Definition stopsOf (l : list attr) : Z := count hasStop l.

Lemma count_app {A} (p : A -> bool) l1 l2 : count p (l1 ++ l2) = count p l1 + count p l2.
Proof. unfold count. rewrite filter_app. apply zlen_app. Qed.
Lemma count_one {A} (p : A -> bool) a : count p [a] = if p a then 1 else 0.
Proof. unfold count. cbn. destruct (p a); reflexivity. Qed.

(** Invariant: the state is the pushed list with the specified levels. *)
Definition leveled (s : state) (l : list attr) : Prop :=
  length s = length l /\
  forall k a, nth_error l k = Some a ->
    nth_error s k = Some (setLevel a (startsOf (firstn (S k) l) - stopsOf (firstn k l))).

Lemma last_map_some (s : state) : last (map Some s) None = match s with [] => None | _ => nth_error s (length s - 1) end.
Proof.
  induction s as [|a [|b s'] IH]; try reflexivity.
  replace (last (map Some (a :: b :: s')) None) with (last (map Some (b :: s')) (@None attr)) by reflexivity.
  rewrite IH. cbn [length]. replace (S (S (length s')) - 1)%nat with (S (S (length s') - 1)) by lia.
  reflexivity.
Qed.

Lemma push_leveled s l a : leveled s l -> leveled (push s (Some a)) (l ++ [a]).
Proof.
  intros [Hl Hn]. unfold push. split; [rewrite !app_length; cbn; lia|].
  intros k b Hk.
  destruct (Nat.lt_ge_cases k (length l)) as [Hlt|Hge].
  - rewrite nth_error_app1 in Hk by lia. rewrite nth_error_app1 by lia.
    rewrite (Hn _ _ Hk). rewrite !firstn_app.
    replace (S k - length l)%nat with 0%nat by lia. replace (k - length l)%nat with 0%nat by lia.
    cbn [firstn]. rewrite !app_nil_r. reflexivity.
  - assert (k = length l) as ->.
    { assert (k < length (l ++ [a]))%nat by (apply nth_error_Some; congruence).
      rewrite app_length in H; cbn in H; lia. }
    rewrite nth_error_app2 in Hk by lia. rewrite Nat.sub_diag in Hk. cbn in Hk. injection Hk as <-.
    rewrite nth_error_app2 by lia. rewrite Hl, Nat.sub_diag. cbn [nth_error]. do 2 f_equal.
    rewrite firstn_all2 by (rewrite app_length; cbn; lia).
    rewrite firstn_app, Nat.sub_diag, firstn_all. cbn [firstn]. rewrite app_nil_r.
    unfold startsOf, stopsOf. rewrite count_app, count_one.
    enough (match last (map Some s) None with
            | None => 0
            | Some c => if hasStop c then a_level c - 1 else a_level c end = count hasStart l - count hasStop l) as ->
      by (destruct (hasStart a); lia).
    rewrite last_map_some.
    destruct s as [|s0 s']; [destruct l; [reflexivity|discriminate]|].
    set (s := s0 :: s') in *.
    destruct (@exists_last _ l) as [l' [c Hc]]; [intros ->; discriminate|].
    assert (Hlen : length l = S (length l')) by (subst l; rewrite app_length; cbn; lia).
    assert (nth_error l (length l') = Some c) as Hc' by (subst l; rewrite nth_error_app2, Nat.sub_diag by lia; reflexivity).
    apply Hn in Hc'. replace (length s - 1)%nat with (length l') by lia. rewrite Hc'.
    change (hasStop (setLevel c _)) with (hasStop c). cbn [a_level setLevel].
    rewrite (firstn_all2 l) by lia. subst l. rewrite firstn_app_exact by reflexivity. unfold startsOf, stopsOf.
    rewrite !count_app, !count_one. destruct (hasStop c); lia.
Qed.

Lemma pushAll_leveled_gen rs : forall s l, leveled s l -> leveled (pushAll s rs) (l ++ pushed rs).
Proof.
  induction rs as [|[a|] rs IH]; intros s l H; cbn [pushAll fold_left pushed flat_map].
  - rewrite app_nil_r. exact H.
  - change (leveled (pushAll (push s (Some a)) rs) (l ++ ([a] ++ pushed rs))).
    rewrite app_assoc. apply IH, push_leveled, H.
  - apply IH, H.
Qed.
Lemma pushAll_leveled rs : leveled (pushAll newState rs) (pushed rs).
Proof. apply (pushAll_leveled_gen rs [] []). split; [reflexivity|]. intros [|k] a H; discriminate. Qed.

Lemma levels_spec rs k a :
  nth_error (pushed rs) k = Some a ->
  exists b, nth_error (pushAll newState rs) k = Some b /\
    a_text b = a_text a /\ a_start b = a_start a /\ a_stop b = a_stop a /\
    a_level b = count hasStart (firstn (S k) (pushed rs)) - count hasStop (firstn k (pushed rs)).
Proof. intros H. eexists; split; [apply (proj2 (pushAll_leveled rs)), H|]. repeat split. Qed.
Lemma pushAll_length rs : length (pushAll newState rs) = length (pushed rs).
Proof. apply pushAll_leveled. Qed.

(** ** Iterator *)
Lemma skipn_nth {A} (l : list A) : forall n a, nth_error l n = Some a -> skipn n l = a :: skipn (S n) l.
Proof.
  induction l as [|x l IH]; intros [|n] a H; try discriminate.
  - cbn in *. congruence.
  - cbn [nth_error] in H. cbn [skipn]. rewrite (IH _ _ H). reflexivity.
Qed.

Lemma visit_from s : forall m n fuel, (m = length s - n)%nat -> (n < length s)%nat -> (m <= fuel)%nat ->
  visit fuel s (mkIter false (Some n)) = (map Some (skipn (S n) s), mkIter false None).
Proof.
  induction m as [|m IH]; intros n fuel Hm Hn Hf; [lia|].
  destruct fuel as [|fuel]; [lia|]. cbn [visit next i_start i_cur]. unfold eltNext.
  destruct (Nat.ltb_spec (S n) (length s)) as [Hlt|Hge].
  - rewrite (IH (S n) fuel) by lia. unfold item at 1. cbn [i_cur].
    destruct (nth_error s (S n)) as [a|] eqn:E; [|apply nth_error_None in E; lia].
    rewrite (skipn_nth _ _ _ E). reflexivity.
  - rewrite skipn_all2 by lia. reflexivity.
Qed.

Lemma visit_all s fuel : (length s < fuel)%nat ->
  visit fuel s (iterator s) = (map Some s, mkIter false None).
Proof.
  intros Hf. destruct s as [|a s'].
  - destruct fuel; [cbn in Hf; lia|reflexivity].
  - destruct fuel as [|fuel]; [lia|].
    cbn [visit]. unfold next. cbn [iterator i_start i_cur front].
    rewrite (visit_from (a :: s') (length s' + 1)) by (cbn [length] in *; lia). reflexivity.
Qed.
Lemma next_done s : next s (mkIter false None) = (mkIter false None, false).
Proof. reflexivity. Qed.
Lemma visit_first s fuel : (length s < fuel)%nat ->
  item s (first s) = match s with [] => None | a :: _ => Some a end /\
  fst (visit fuel s (first s)) = map Some (tl s).
Proof.
  intros Hf. destruct s as [|a s'].
  - destruct fuel; [cbn in Hf; lia|split; reflexivity].
  - split; [reflexivity|]. unfold first, front.
    rewrite (visit_from (a :: s') (length s' + 1)) by (cbn [length] in *; lia). reflexivity.
Qed.

(** ** Plain renderers *)
Lemma pushed_plain rs : Forall (fun a => hasStart a = false /\ hasStop a = false) (pushed rs) ->
  Forall (fun a => hasStop a = false /\ a_level a = 0) (pushAll newState rs).
Proof.
  intros H. destruct (pushAll_leveled rs) as [Hl Hn]. apply Forall_forall. intros b Hb.
  apply In_nth_error in Hb. destruct Hb as [k Hk].
  destruct (nth_error (pushed rs) k) as [a|] eqn:E.
  - pose proof (Hn _ _ E) as Hk'. rewrite Hk in Hk'. injection Hk' as ->.
    rewrite Forall_forall in H. split; [apply (H a), (nth_error_In _ _ E)|]. cbn [a_level setLevel].
    assert (forall (p : attr -> bool) n, (forall x, In x (pushed rs) -> p x = false) -> count p (firstn n (pushed rs)) = 0) as Hz.
    { intros p n Hp. unfold count. replace (filter p (firstn n (pushed rs))) with (@nil attr); [reflexivity|].
      symmetry. assert (forall x, In x (firstn n (pushed rs)) -> p x = false) as Hp'.
      { intros x Hx. apply Hp. rewrite <- (firstn_skipn n). apply in_or_app. auto. }
      clear -Hp'. induction (firstn n (pushed rs)) as [|x l IH]; [reflexivity|]. cbn.
      rewrite (Hp' x) by (left; reflexivity). apply IH. intros y Hy. apply Hp'. right; exact Hy. }
    pose proof (Hz hasStart (S k) (fun x Hx => proj1 (H x Hx))) as H1.
    pose proof (Hz hasStop k (fun x Hx => proj2 (H x Hx))) as H2.
    unfold startsOf, stopsOf. cbn [firstn] in H1. lia.
  - apply nth_error_None in E. assert (k < length (pushAll newState rs))%nat by (apply nth_error_Some; congruence). lia.
Qed.

Lemma plain_nothing rs i : Forall (fun a => hasStart a = false /\ hasStop a = false) (pushed rs) ->
  startOfLine (pushAll newState rs) i = [] /\ endOfLine (pushAll newState rs) i = [].
Proof.
  intros H. apply pushed_plain in H. rewrite Forall_forall in H.
  unfold startOfLine, endOfLine. destruct (i_cur i) as [n|]; [|auto].
  destruct (nth_error (pushAll newState rs) n) as [a|] eqn:E; [|auto].
  apply nth_error_In in E. destruct (H _ E) as [H1 H2].
  unfold lineLevel. rewrite H1, H2. auto.
Qed.

(** ** Flat documents *)

Definition docState (gs : list seg) : state := stateOf (docWords gs).
Definition lv (l : Z) (w : word) : attr := setLevel (ofWord w) l.
Definition segLv (g : seg) : list attr := map (lv (if isCtx g then 1 else 0)) (segWords g).
Definition docLv (gs : list seg) : list attr := flat_map segLv gs.

Lemma zlen_pos {A} (l : list A) : l <> [] -> 0 <? zlen l = true.
Proof. destruct l; [congruence|]. rewrite zlen_cons. pose proof (zlen_nonneg l). intros _. apply Z.ltb_lt. lia. Qed.
Lemma hasStart_of t s e l : hasStart (lv l (t, s, e)) = (0 <? zlen s).
Proof. reflexivity. Qed.

(** the level after the last element: 0 between segments *)
Definition endLevel (s : state) : Z :=
  match last (map Some s) None with None => 0 | Some c => if hasStop c then a_level c - 1 else a_level c end.
Lemma endLevel_snoc s a : endLevel (s ++ [a]) = if hasStop a then a_level a - 1 else a_level a.
Proof. unfold endLevel. rewrite map_app. cbn [map]. rewrite last_last. reflexivity. Qed.
Lemma push_endLevel s a : push s (Some a) = s ++ [setLevel a (if hasStart a then endLevel s + 1 else endLevel s)].
Proof. reflexivity. Qed.

Lemma push_tail e : e <> [] -> forall ws w st s,
  endLevel s = (if 0 <? zlen st then 0 else 1) ->
  pushAll s (map (fun w => Some (ofWord w)) (tailWords w ws st e)) = s ++ map (lv 1) (tailWords w ws st e) /\
  endLevel (s ++ map (lv 1) (tailWords w ws st e)) = 0.
Proof.
  intros He. induction ws as [|w' ws IH]; intros w st s Hs; cbn [tailWords map pushAll fold_left].
  - rewrite push_endLevel. cbn [ofWord]. change (hasStart (newAttr w st e)) with (0 <? zlen st). rewrite Hs.
    replace (if 0 <? zlen st then (if 0 <? zlen st then 0 else 1) + 1 else if 0 <? zlen st then 0 else 1) with 1
      by (destruct (0 <? zlen st); reflexivity).
    split; [reflexivity|]. rewrite endLevel_snoc. change (hasStop (lv 1 (w, st, e))) with (0 <? zlen e).
    rewrite (zlen_pos _ He). reflexivity.
  - rewrite push_endLevel. cbn [ofWord]. change (hasStart (newAttr w st [])) with (0 <? zlen st). rewrite Hs.
    replace (if 0 <? zlen st then (if 0 <? zlen st then 0 else 1) + 1 else if 0 <? zlen st then 0 else 1) with 1
      by (destruct (0 <? zlen st); reflexivity).
    change (setLevel (newAttr w st []) 1) with (lv 1 (w, st, [])).
    destruct (IH w' [] (s ++ [lv 1 (w, st, [])])) as [H1 H2].
    { rewrite endLevel_snoc. reflexivity. }
    unfold pushAll in H1. rewrite H1. rewrite <- app_assoc in *. split; [reflexivity|exact H2].
Qed.

Lemma push_seg g s : okSeg g -> endLevel s = 0 ->
  pushAll s (map (fun w => Some (ofWord w)) (segWords g)) = s ++ segLv g /\ endLevel (s ++ segLv g) = 0.
Proof.
  intros Hg Hs. destruct g as [t|st w ws e]; cbn [segWords].
  - cbn. change (match last (map Some s) None with Some c => if hasStop c then a_level c - 1 else a_level c | None => 0 end)
      with (endLevel s). rewrite Hs. split; [reflexivity|].
    unfold segLv. cbn. rewrite endLevel_snoc. reflexivity.
  - destruct Hg as [Hst He]. apply (push_tail e He ws w st s). rewrite (zlen_pos _ Hst). exact Hs.
Qed.

Lemma push_doc gs : forall s, Forall okSeg gs -> endLevel s = 0 ->
  pushAll s (map (fun w => Some (ofWord w)) (docWords gs)) = s ++ docLv gs.
Proof.
  induction gs as [|g gs IH]; intros s Hok Hs.
  - cbn. symmetry. apply app_nil_r.
  - inversion Hok; subst. unfold docWords. cbn [flat_map]. rewrite map_app. unfold pushAll. rewrite fold_left_app.
    destruct (push_seg g s H1 Hs) as [Ha Hb]. unfold pushAll in Ha. rewrite Ha.
    change (fold_left push (map (fun w => Some (ofWord w)) (flat_map segWords gs)) (s ++ segLv g))
      with (pushAll (s ++ segLv g) (map (fun w => Some (ofWord w)) (docWords gs))).
    rewrite (IH _ H2 Hb). rewrite <- app_assoc. reflexivity.
Qed.
Lemma docState_eq gs : Forall okSeg gs -> docState gs = docLv gs.
Proof. intros H. apply (push_doc gs [] H). reflexivity. Qed.

Lemma tail_nth_last : forall ws w st e, length (tailWords w ws st e) = S (length ws).
Proof. induction ws; intros; cbn; [reflexivity|]. rewrite IHws. reflexivity. Qed.

Lemma backtrack_stop s l b : forall m, (forall k, (b <= k < b + m)%nat -> ~ (levelAt s k < l)) ->
  (b = 0%nat \/ levelAt s (b - 1) < l) -> backtrack s l (b + m) = b.
Proof.
  induction m as [|m IH]; intros Hin Hb.
  - rewrite Nat.add_0_r. destruct b as [|b]; [reflexivity|].
    cbn [backtrack]. destruct Hb as [Hb|Hb]; [discriminate|]. cbn in Hb. rewrite Nat.sub_0_r in Hb.
    apply Z.ltb_lt in Hb. rewrite Hb. reflexivity.
  - rewrite Nat.add_succ_r. cbn [backtrack].
    destruct (Z.ltb_spec (levelAt s (b + m)) l) as [H|H]; [exfalso; apply (Hin (b + m)%nat); [lia|exact H]|].
    apply IH; [|exact Hb]. intros k Hk. apply Hin. lia.
Qed.

(** starts and stops written over a context *)
Lemma starts_tail : forall ws w st e n, st <> [] ->
  flat_map attrStart (firstn (S n) (map (lv 1) (tailWords w ws st e))) = [st].
Proof.
  intros ws w st e n Hst.
  assert (forall ws w e n, flat_map attrStart (firstn n (map (lv 1) (tailWords w ws [] e))) = []) as Hnil.
  { clear. induction ws as [|w' ws IH]; intros w e n; destruct n; try reflexivity; cbn [tailWords map firstn flat_map].
    - cbn. destruct n; reflexivity.
    - rewrite IH. reflexivity. }
  assert (attrStart (lv 1 (w, st, e)) = [st] /\ attrStart (lv 1 (w, st, [])) = [st]) as [E1 E2].
  { unfold attrStart. rewrite !hasStart_of, (zlen_pos _ Hst). auto. }
  destruct ws as [|w' ws]; cbn [tailWords map firstn flat_map].
  - rewrite E1. destruct n; reflexivity.
  - rewrite E2, Hnil. reflexivity.
Qed.

Lemma stops_tail : forall ws w st e rest, e <> [] ->
  match rest with [] => True | a :: _ => a_level a = 0 end ->
  stops_while 1 (map (lv 1) (tailWords w ws st e) ++ rest) = [e].
Proof.
  intros ws w st e rest He Hr. revert w st.
  assert (stops_while 1 rest = []) as Hrest by (destruct rest as [|a r]; [reflexivity|cbn; rewrite Hr; reflexivity]).
  induction ws as [|w' ws IH]; intros w st; cbn [tailWords map app stops_while].
  - cbn [lv setLevel a_level ofWord]. change (1 <? 1) with false. cbv iota. rewrite Hrest.
    unfold attrStop. change (hasStop (lv 1 (w, st, e))) with (0 <? zlen e). rewrite (zlen_pos _ He). reflexivity.
  - cbn [lv setLevel a_level ofWord]. change (1 <? 1) with false. cbv iota. rewrite IH. reflexivity.
Qed.

Lemma docLv_app a b : docLv (a ++ b) = docLv a ++ docLv b.
Proof. apply flat_map_app. Qed.

Lemma levelAt_app2 a b k : levelAt (a ++ b) (length a + k) = levelAt b k.
Proof. unfold levelAt. rewrite nth_error_app2 by lia. replace (length a + k - length a)%nat with k by lia. reflexivity. Qed.
Lemma levelAt_app1 a b k : (k < length a)%nat -> levelAt (a ++ b) k = levelAt a k.
Proof. intros H. unfold levelAt. rewrite nth_error_app1 by lia. reflexivity. Qed.

Lemma sep_app pre g : separated (pre ++ [g]) -> isCtx g = true ->
  match pre with [] => True | _ => exists pre' t, pre = pre' ++ [Plain t] end.
Proof.
  intros H Hg. destruct pre as [|p0 pre0]; [exact I|].
  set (pre := p0 :: pre0) in *. destruct (@exists_last _ pre) as [pre' [g' E]]; [discriminate|].
  exists pre'. rewrite E in *. clear E pre p0 pre0.
  assert (isCtx g' = false) as Hg'.
  { induction pre' as [|x pre' IH].
    - cbn in H. destruct H as [H _]. rewrite Hg, andb_true_r in H. exact H.
    - apply IH. destruct H as [_ H]. exact H. }
  destruct g'; [eauto|discriminate].
Qed.
Lemma sep_prefix a b : separated (a ++ b) -> separated a.
Proof.
  induction a as [|x a IH]; [intros; exact I|]. cbn [app separated]. intros [H1 H2]. split; [|apply IH, H2].
  destruct a as [|y a]; [exact I|exact H1].
Qed.
Lemma sep_suffix a b : separated (a ++ b) -> separated b.
Proof. induction a as [|x a IH]; [auto|]. intros [_ H]. apply IH, H. Qed.

Lemma nth_lv ws0 k l : nth_error (map (lv l) ws0) k = option_map (lv l) (nth_error ws0 k).
Proof. revert k; induction ws0; intros [|k]; cbn; auto. Qed.

Lemma levelAt_lv l ws0 k : (k < length ws0)%nat -> levelAt (map (lv l) ws0) k = l.
Proof.
  intros H. unfold levelAt. rewrite nth_lv. destruct (nth_error ws0 k) as [[[? ?] ?]|] eqn:E; [reflexivity|].
  apply nth_error_None in E. lia.
Qed.

Lemma nth_tail_stop : forall ws w st e k a, nth_error (tailWords w ws st e) k = Some a ->
  snd a = if (k <? length ws)%nat then [] else e.
Proof.
  induction ws as [|w' ws IH]; intros w st e [|k] a H; cbn in *; try (injection H as <-; reflexivity).
  - destruct k; discriminate.
  - rewrite (IH _ _ _ _ _ H). reflexivity.
Qed.

(** The word [k] of segment [g]. *)
Lemma break_spec pre g post k :
  let gs := pre ++ g :: post in
  Forall okSeg gs -> separated gs -> (k < length (segWords g))%nat ->
  forall i, i_cur i = Some (length (docWords pre) + k)%nat ->
  endOfLine (docState gs) i = match openAfter g k with Some (_, e) => [e] | None => [] end /\
  startOfLine (docState gs) i = match openAfter g k with Some (s, _) => [s] | None => [] end.
Proof.
  intros gs Hok Hsep Hk i Hi. rewrite (docState_eq gs Hok). subst gs.
  rewrite docLv_app. cbn [docLv flat_map]. change (flat_map segLv post) with (docLv post).
  assert (Hlen : forall l, length (docLv l) = length (docWords l)).
  { clear. induction l as [|x l IH]; [reflexivity|]. unfold docLv, docWords. cbn [flat_map]. rewrite !app_length.
    unfold docLv, docWords in IH. rewrite IH. unfold segLv. rewrite map_length. reflexivity. }
  unfold endOfLine, startOfLine. rewrite Hi.
  rewrite nth_error_app2 by (rewrite Hlen; lia). rewrite Hlen.
  replace (length (docWords pre) + k - length (docWords pre))%nat with k by lia.
  assert (length (segLv g) = length (segWords g)) as Hsl by (unfold segLv; apply map_length).
  rewrite nth_error_app1 by lia.
  assert (okSeg g) as Hg by (rewrite Forall_app in Hok; destruct Hok as [_ Hok]; inversion Hok; auto).
  destruct g as [t|st w ws e].
  - cbn in Hk. destruct k; [|lia]. cbn. auto.
  - destruct Hg as [Hst He]. cbn [segWords] in Hk. rewrite tail_nth_last in Hk.
    cbn [openAfter]. unfold segLv. cbn [isCtx segWords]. rewrite nth_lv.
    destruct (nth_error (tailWords w ws st e) k) as [a|] eqn:E;
      [|apply nth_error_None in E; rewrite tail_nth_last in E; lia].
    cbn [option_map]. pose proof (nth_tail_stop _ _ _ _ _ _ E) as Hstop.
    unfold lineLevel. replace (hasStop (lv 1 a)) with (0 <? zlen (snd a)) by (destruct a as [[? ?] ?]; reflexivity).
    replace (a_level (lv 1 a)) with 1 by (destruct a as [[? ?] ?]; reflexivity).
    destruct (Nat.ltb_spec k (length ws)) as [Hlt|Hge].
    + rewrite Hstop. change (0 <? zlen (@nil rune)) with false. cbv iota. change (1 =? 0) with false. cbv iota.
      set (C := map (lv 1) (tailWords w ws st e)) in *.
      assert (backtrack (docLv pre ++ C ++ docLv post) 1 (length (docWords pre) + k) = length (docWords pre)) as ->.
      { apply backtrack_stop.
        - intros j Hj. rewrite <- Hlen in *.
          replace j with (length (docLv pre) + (j - length (docLv pre)))%nat by lia.
          rewrite levelAt_app2. unfold C. rewrite levelAt_app1 by (rewrite map_length, tail_nth_last; lia).
          rewrite levelAt_lv by (rewrite tail_nth_last; lia). lia.
        - pose proof (sep_app pre (Ctx st w ws e)) as Hp.
          assert (separated (pre ++ [Ctx st w ws e])) as Hs2.
          { apply (sep_prefix _ post). rewrite <- app_assoc. exact Hsep. }
          specialize (Hp Hs2 eq_refl). destruct pre as [|p0 pre0]; [left; reflexivity|].
          right. destruct Hp as (pre' & t & ->).
          unfold docWords. rewrite flat_map_app, app_length. cbn [flat_map segWords app length].
          change (flat_map segWords pre') with (docWords pre').
          replace (length (docWords pre') + 1 - 1)%nat with (length (docLv pre') + 0)%nat by (rewrite Hlen; lia).
          rewrite docLv_app, <- app_assoc, levelAt_app2. reflexivity. }
      replace (length (docWords pre)) with (length (docLv pre)) by apply Hlen.
      rewrite skipn_app, skipn_all, Nat.sub_diag. cbn [skipn app].
      split.
      * unfold C. apply (stops_tail ws w st e _ He).
        apply sep_suffix in Hsep. cbn [separated] in Hsep. destruct Hsep as [Hs _].
        destruct post as [|[t|? ? ? ?] post']; [exact I|reflexivity|discriminate].
      * replace (length (docLv pre) + k + 1 - length (docLv pre))%nat with (S k) by lia.
        rewrite firstn_app. unfold C. rewrite map_length, tail_nth_last.
        replace (S k - S (length ws))%nat with 0%nat by lia. cbn [firstn]. rewrite app_nil_r.
        apply starts_tail, Hst.
    + rewrite Hstop, (zlen_pos _ He). change (1 - 1 =? 0) with true. auto.
Qed.

(** ** Whole documents, broken anywhere *)
Section Lines.
Variable cls : list rune -> kind.

Lemma turnOn_one act s : act = [] \/ act = [s] -> turnOn act s = [s].
Proof.
  intros [->| ->]; unfold turnOn; destruct (in_dec _ _ _) as [H|H]; cbn in *; auto; tauto.
Qed.

Lemma display_app a : forall act b,
  display cls act (a ++ b) =
  (fst (display cls act a) ++ fst (display cls (snd (display cls act a)) b),
   snd (display cls (snd (display cls act a)) b)).
Proof.
  induction a as [|w a IH]; intros act b; cbn [app display fst snd].
  - destruct (display cls act b); reflexivity.
  - destruct (cls w); rewrite ?IH; try reflexivity.
    destruct (display cls act a) as [d x]. cbn [fst snd]. reflexivity.
Qed.

Definition entry := (word * list (list rune * formats) * formats)%type.
Definition entW (x : entry) : word := fst (fst x).
Definition entS (x : entry) : list (list rune * formats) := snd (fst x).
Fixpoint tailItems (w : list rune) (ws : list (list rune)) (st s e : list rune) : list entry :=
  match ws with
  | [] => [((w, st, e), shown [s] w, [])]
  | w' :: ws' => ((w, st, []), shown [s] w, [s]) :: tailItems w' ws' [] s e
  end.
Definition segItems (g : seg) : list entry :=
  match g with
  | Plain t => [((t, [], []), shown [] t, [])]
  | Ctx s w ws e => tailItems w ws s s e
  end.
Definition docItems (gs : list seg) : list entry := flat_map segItems gs.

Lemma tailItems_words ws : forall w st s e, map entW (tailItems w ws st s e) = tailWords w ws st e.
Proof. induction ws; intros; cbn; [reflexivity|]. rewrite IHws. reflexivity. Qed.
Lemma docItems_words gs : map entW (docItems gs) = docWords gs.
Proof.
  induction gs as [|g gs IH]; [reflexivity|]. unfold docItems, docWords in *. cbn [flat_map]. rewrite map_app, IH.
  f_equal. destruct g; [reflexivity|]. apply tailItems_words.
Qed.
Lemma tailItems_shown ws : forall w st s e,
  flat_map entS (tailItems w ws st s e) = flat_map (shown [s]) (w :: ws).
Proof.
  induction ws as [|w' ws IH]; intros; cbn [tailItems flat_map entS fst snd]; [reflexivity|].
  rewrite IH. reflexivity.
Qed.
Lemma docItems_shown gs : flat_map entS (docItems gs) = flat_map expectSeg gs.
Proof.
  induction gs as [|g gs IH]; [reflexivity|]. unfold docItems in *. cbn [flat_map]. rewrite flat_map_app, IH.
  f_equal. destruct g; [cbn; apply app_nil_r|]. apply tailItems_shown.
Qed.

Fixpoint okItems (act : formats) (l : list entry) : Prop :=
  match l with
  | [] => True
  | (w, sh, aft) :: l' => display cls act (attrRender (ofWord w)) = (sh, aft) /\ okItems aft l'
  end.

Lemma display_text act t : cls t = KText ->
  display cls act (if 0 <? zlen t then [t] else []) = (shown act t, act).
Proof.
  intros H. destruct t as [|r t]; [reflexivity|]. rewrite zlen_pos by discriminate. cbn. rewrite H. reflexivity.
Qed.

Lemma okItems_tail l' ws : forall w st s e, 
  cls e = KStop -> e <> [] -> Forall (fun t => cls t = KText) (w :: ws) ->
  (st = [] \/ (st <> [] /\ st = s /\ cls s = KStart)) -> okItems [] l' ->
  forall act, (st = [] -> act = [s]) -> (act = [] \/ act = [s]) -> okItems act (tailItems w ws st s e ++ l').
Proof.
  induction ws as [|w' ws IH]; intros w st s e He He' Hw Hst Hl act Hact Hact2; cbn [tailItems app okItems].
  - split; [|exact Hl]. inversion Hw; subst. unfold attrRender, attrStart, attrStop, hasStart, hasStop, writes.
    cbn [ofWord newAttr a_start a_stop a_text]. rewrite (zlen_pos e He').
    assert (display cls act (if 0 <? zlen st then [st] else []) = ([], [s])) as E.
    { destruct Hst as [->|(H3 & -> & H4)]; [cbn; rewrite Hact by reflexivity; reflexivity|].
      rewrite zlen_pos by assumption. cbn. rewrite H4, turnOn_one by assumption. reflexivity. }
    rewrite display_app, E. cbn [fst snd]. rewrite display_app, display_text by assumption. cbn [fst snd display].
    rewrite He. cbn. rewrite app_nil_r. reflexivity.
  - inversion Hw; subst. split.
    + unfold attrRender, attrStart, attrStop, hasStart, hasStop, writes. cbn [ofWord newAttr a_start a_stop a_text].
      assert (display cls act (if 0 <? zlen st then [st] else []) = ([], [s])) as E.
      { destruct Hst as [->|(H3 & -> & H4)]; [cbn; rewrite Hact by reflexivity; reflexivity|].
        rewrite zlen_pos by assumption. cbn. rewrite H4, turnOn_one by assumption. reflexivity. }
      rewrite display_app, E. cbn [fst snd]. rewrite display_app, display_text by assumption. cbn.
      rewrite app_nil_r. reflexivity.
    + apply IH; auto.
Qed.

Lemma okItems_doc gs : Forall okSeg gs -> Forall (segOk cls) gs -> okItems [] (docItems gs).
Proof.
  induction gs as [|g gs IH]; intros H1 H2; [exact I|]. inversion H1; subst. inversion H2; subst.
  unfold docItems. cbn [flat_map]. destruct g as [t|s w ws e]; cbn [segItems].
  - split; [|apply IH; assumption]. unfold attrRender, writes. cbn. cbn in H5.
    rewrite app_nil_r. apply display_text, H5.
  - destruct H3 as [Hs He]. destruct H5 as (Cs & Ce & Cw).
    apply okItems_tail; auto. intros ->. congruence.
Qed.

(** formatting left open after [n] words *)
Definition aft (l : list entry) (n : nat) : formats :=
  match n with O => [] | S m => match nth_error l m with Some x => snd x | None => [] end end.

Lemma okItems_nth l : forall act, okItems act l -> forall n w sh a,
  nth_error l n = Some (w, sh, a) ->
  display cls (match n with O => act | _ => aft l n end) (attrRender (ofWord w)) = (sh, a).
Proof.
  induction l as [|x l IH]; intros act H [|n] w sh a Hn; try discriminate.
  - cbn in Hn. injection Hn as ->. apply H.
  - cbn [nth_error] in Hn. destruct x as [[xw xs] xa]. destruct H as [_ H].
    specialize (IH _ H _ _ _ _ Hn). destruct n as [|n]; exact IH.
Qed.

Lemma tailItems_after ws : forall w st s e k x, nth_error (tailItems w ws st s e) k = Some x ->
  snd x = if (k <? length ws)%nat then [s] else [].
Proof.
  induction ws as [|w' ws IH]; intros w st s e [|k] x H; cbn in *; try (injection H as <-; reflexivity).
  - destruct k; discriminate.
  - rewrite (IH _ _ _ _ _ _ H). reflexivity.
Qed.
Lemma segItems_after g k x : nth_error (segItems g) k = Some x -> snd x = match openAfter g k with Some (s, _) => [s] | None => [] end.
Proof.
  destruct g as [t|s w ws e]; cbn [segItems openAfter].
  - destruct k as [|[|k]]; intros H; try discriminate. injection H as <-. reflexivity.
  - intros H. rewrite (tailItems_after _ _ _ _ _ _ _ H). destruct (k <? length ws)%nat; reflexivity.
Qed.

Lemma docItems_split gs : forall n x, nth_error (docItems gs) n = Some x ->
  exists pre g post k, gs = pre ++ g :: post /\ n = (length (docWords pre) + k)%nat /\
    (k < length (segWords g))%nat /\ nth_error (segItems g) k = Some x.
Proof.
  induction gs as [|g gs IH]; intros n x H; [destruct n; discriminate|].
  unfold docItems in H. cbn [flat_map] in H.
  assert (length (segItems g) = length (segWords g)) as Hl.
  { destruct g; [reflexivity|]. cbn [segItems segWords]. rewrite <- (tailItems_words ws w start start stop), map_length.
    reflexivity. }
  destruct (Nat.lt_ge_cases n (length (segItems g))) as [Hlt|Hge].
  - rewrite nth_error_app1 in H by lia. exists [], g, gs, n. repeat split; [lia|exact H].
  - rewrite nth_error_app2 in H by lia. destruct (IH _ _ H) as (pre & g' & post & k & -> & Hn & Hk & Hx).
    exists (g :: pre), g', post, k. repeat split; auto. unfold docWords. cbn [flat_map]. rewrite app_length.
    unfold docWords in Hn. lia.
Qed.

Lemma first_item gs x f : nth_error (docItems gs) 0 = Some x -> snd x = [f] ->
  Forall okSeg gs -> Forall (segOk cls) gs -> exists t, fst (fst x) = (t, f, []) /\ f <> [] /\ cls f = KStart.
Proof.
  intros E Ef Hok Hcls. destruct gs as [|g gs']; [discriminate|].
  inversion Hok; subst. inversion Hcls; subst.
  destruct g as [t|st w0 ws e]; [cbn in E; injection E as <-; discriminate|].
  destruct ws as [|w1 ws]; [cbn in E; injection E as <-; discriminate|].
  cbn in E. injection E as <-. cbn in Ef. injection Ef as <-. destruct H1, H3. eexists. repeat split; assumption.
Qed.

Section Doc.
Variable gs : list seg.
Hypothesis Hok : Forall okSeg gs.
Hypothesis Hsep : separated gs.
Hypothesis Hcls : Forall (segOk cls) gs.
Let s := docState gs.
Let items := docItems gs.

Lemma items_length : length items = length s.
Proof.
  unfold s, items. rewrite docState_eq by assumption. rewrite <- (map_length entW), docItems_words.
  clear. induction gs as [|g l IH]; [reflexivity|]. unfold docWords, docLv in *. cbn [flat_map]. rewrite !app_length, IH.
  unfold segLv. rewrite map_length. reflexivity.
Qed.
Lemma items_state n x : nth_error items n = Some x ->
  exists a, nth_error s n = Some a /\ attrRender a = attrRender (ofWord (fst (fst x))).
Proof.
  intros H. unfold s. 
  assert (nth_error (docWords gs) n = Some (fst (fst x))) as Hw.
  { rewrite <- docItems_words. apply (map_nth_error entW _ _ H). }
  destruct (pushAll_leveled (map (fun w => Some (ofWord w)) (docWords gs))) as [_ Hn].
  assert (pushed (map (fun w => Some (ofWord w)) (docWords gs)) = map ofWord (docWords gs)) as E.
  { clear. induction (docWords gs) as [|w l IH]; [reflexivity|]. cbn. f_equal. exact IH. }
  rewrite E in Hn. eexists. split; [apply Hn, map_nth_error, Hw|]. reflexivity.
Qed.

Lemma break_display n x i : nth_error items n = Some x -> i_cur i = Some n ->
  display cls [] (startOfLine s i) = ([], snd x) /\ display cls (snd x) (endOfLine s i) = ([], []) /\
  (snd x = [] /\ startOfLine s i = [] \/ exists f, snd x = [f] /\ startOfLine s i = [f]).
Proof.
  intros H Hi. destruct (docItems_split _ _ _ H) as (pre & g & post & k & E & Hn & Hk & Hx).
  rewrite Hn in Hi. unfold s.
  assert (segOk cls g) as Hc by (rewrite E, Forall_app in Hcls; destruct Hcls as [_ H2]; inversion H2; auto).
  pose proof (break_spec pre g post k) as B. cbv zeta in B. rewrite <- E in B.
  destruct (B Hok Hsep Hk i Hi) as [B1 B2]. rewrite B1, B2, (segItems_after _ _ _ Hx). clear B1 B2.
  destruct g as [t|st w ws e]; cbn [openAfter option_map]; [auto|].
  destruct Hc as (C1 & C2 & _).
  destruct (k <? length ws)%nat; cbn [display]; rewrite ?C1, ?C2, ?turnOn_one by auto; eauto 6.
Qed.

Definition itAt (n : nat) : iter := match n with O => iterator s | S m => mkIter false (Some m) end.

Lemma next_itAt n : (n < length s)%nat -> fst (next s (itAt n)) = itAt (S n).
Proof.
  intros H. destruct n as [|n].
  - cbn. unfold front. destruct s; [cbn in H; lia|reflexivity].
  - cbn. unfold eltNext. destruct (Nat.ltb_spec (S n) (length s)); [reflexivity|lia].
Qed.

Lemma drive_spec k : forall n, (n + k <= length s)%nat ->
  exists w, drive s (itAt n) (firstn k (skipn n s)) = (w, itAt (n + k)) /\
    display cls (aft items n) w = (flat_map entS (firstn k (skipn n items)), aft items (n + k)).
Proof.
  induction k as [|k IH]; intros n Hn.
  - exists []. cbn [firstn drive flat_map display]. rewrite Nat.add_0_r. auto.
  - destruct (nth_error items n) as [x|] eqn:E; [|apply nth_error_None in E; rewrite items_length in E; lia].
    destruct (items_state n x E) as (a & Ea & Er).
    destruct (IH (S n)) as (w & Hw & Hd); [lia|].
    rewrite (skipn_nth _ _ _ Ea), (skipn_nth _ _ _ E). cbn [firstn drive flat_map].
    rewrite next_itAt by lia. rewrite Hw.
    exists (attrRender a ++ w). split; [rewrite Nat.add_succ_r; reflexivity|].
    rewrite display_app, Er. destruct x as [[xw xs] xa].
    pose proof (okItems_nth items [] (okItems_doc gs Hok Hcls) _ _ _ _ E) as D.
    assert (display cls (aft items n) (attrRender (ofWord xw)) = (xs, xa)) as D' by (destruct n; exact D). clear D.
    cbn [fst snd]. rewrite D'. cbn [fst snd].
    replace xa with (aft items (S n)) by (cbn [aft]; rewrite E; reflexivity).
    rewrite Hd. cbn [fst snd]. rewrite Nat.add_succ_r. reflexivity.
Qed.

Lemma line_spec n k : (n + k <= length s)%nat ->
  exists w, drive s (itAt n) (firstn k (skipn n s)) = (w, itAt (n + k)) /\
    display cls [] (startOfLine s (itAt n) ++ w ++ endOfLine s (itAt (n + k))) =
      (flat_map entS (firstn k (skipn n items)), []).
Proof.
  intros Hn. destruct (drive_spec k n Hn) as (w & Hw & Hd). exists w. split; [exact Hw|].
  assert (forall m, (m < length s)%nat -> exists x, nth_error items m = Some x) as Hx.
  { intros m Hm. destruct (nth_error items m) eqn:E; [eauto|]. apply nth_error_None in E. rewrite items_length in E. lia. }
  assert (forall m, (0 < m <= length s)%nat ->
            display cls [] (startOfLine s (itAt m)) = ([], aft items m) /\
            display cls (aft items m) (endOfLine s (itAt m)) = ([], [])) as Hb.
  { intros m Hm. destruct m as [|m]; [lia|]. destruct (Hx m) as [x E]; [lia|].
    destruct (break_display m x (itAt (S m)) E eq_refl) as (B1 & B2 & _).
    cbn [aft]. rewrite E. auto. }
  destruct n as [|n].
  - destruct (length s) as [|N] eqn:EN.
    { assert (k = 0)%nat as -> by lia. assert (s = []) as Es by (apply length_zero_iff_nil, EN).
      cbn in Hw. injection Hw as <-. cbn [Nat.add itAt app firstn flat_map].
      assert (i_cur (iterator s) = None) as Hc by (rewrite Es; reflexivity).
      unfold startOfLine, endOfLine. rewrite Hc. reflexivity. }
    destruct (Hx 0%nat) as [x E]; [lia|].
    assert (i_cur (iterator s) = Some 0%nat) as Hc.
    { unfold iterator, front. destruct s; [discriminate|reflexivity]. }
    destruct (break_display 0 x (iterator s) E Hc) as (B1 & B2 & B3).
    cbn [Nat.add itAt]. destruct k as [|k].
    + cbn in Hw. injection Hw as <-. cbn [app firstn flat_map itAt].
      rewrite display_app, B1. cbn [fst snd]. rewrite B2. reflexivity.
    + destruct (Hb (S k)) as [_ Hb2]; [lia|].
      assert (display cls [] (startOfLine s (iterator s) ++ w) = display cls [] w) as Hsame.
      { destruct B3 as [[_ ->]|(f & Ef & ->)]; [reflexivity|].
        (* the first word starts with the same sequence *)
        destruct (first_item gs x f E Ef Hok Hcls) as (t & Hxt & Hf & Hfc).
        destruct (items_state 0 x E) as (a & Ea & Er).
        rewrite (skipn_nth _ _ _ Ea) in Hw. cbn [firstn drive] in Hw. rewrite Er in Hw. rewrite Hxt in Hw.
        cbn [fst ofWord] in Hw. unfold attrRender at 1, attrStart at 1, hasStart at 1 in Hw.
        cbn [newAttr a_start] in Hw. rewrite (zlen_pos f Hf) in Hw.
        destruct (drive _ _ _) as [w' i'] in Hw. injection Hw as <- _. cbn [app display]. rewrite Hfc, !turnOn_one by (rewrite ?turnOn_one; auto). reflexivity. }
      rewrite app_assoc, display_app, Hsame. cbn [aft] in Hd. rewrite Hd. cbn [fst snd Nat.add].
      change (itAt (S k)) with (itAt (0 + S k)) in *. cbn [Nat.add] in *. rewrite Hb2. cbn [fst snd].
      rewrite app_nil_r. reflexivity.
  - destruct (Hb (S n)) as [Hb1 _]; [lia|]. destruct (Hb (S n + k)%nat) as [_ Hb2]; [lia|].
    rewrite display_app, Hb1. cbn [fst snd app]. rewrite display_app, Hd. cbn [fst snd]. rewrite Hb2.
    cbn [fst snd]. rewrite app_nil_r. reflexivity.
Qed.

Lemma lines_spec lines : forall n, (n + list_sum lines <= length s)%nat ->
  let out := driveLines s (itAt n) lines (skipn n s) in
  length out = length lines /\
  Forall (fun l => snd (display cls [] l) = []) out /\
  flat_map (fun l => fst (display cls [] l)) out =
    flat_map entS (firstn (list_sum lines) (skipn n items)).
Proof.
  induction lines as [|k lines IH]; intros n Hn; cbv zeta; cbn [driveLines].
  - repeat split. constructor.
  - cbn [list_sum fold_right] in Hn. change (fold_right Nat.add 0%nat lines) with (list_sum lines) in Hn.
    destruct (line_spec n k) as (w & Hw & Hd); [lia|]. rewrite Hw.
    destruct (IH (n + k)%nat) as (I1 & I2 & I3); [lia|].
    assert (forall (A : Type) (l : list A), skipn k (skipn n l) = skipn (n + k) l) as Hss.
    { clear. intros A l. revert l. induction n as [|n IHn]; intros l; [reflexivity|].
      destruct l; [destruct k; reflexivity|]. cbn. apply IHn. }
    rewrite !Hss. cbn [length flat_map]. rewrite I1. split; [reflexivity|]. split.
    + constructor; [rewrite Hd; reflexivity|exact I2].
    + rewrite Hd, I3. cbn [fst]. rewrite <- flat_map_app. f_equal.
      cbn [list_sum fold_right]. change (fold_right Nat.add 0%nat lines) with (list_sum lines).
      rewrite <- Hss. rewrite <- (firstn_skipn k (skipn n items)) at 3.
      rewrite firstn_app, firstn_firstn.
      replace (Nat.min (k + list_sum lines) k) with k by lia. f_equal.
      rewrite firstn_length, skipn_length, items_length.
      replace (k + list_sum lines - Nat.min k (length s - n))%nat with (list_sum lines) by lia. reflexivity.
Qed.

Lemma doc_lines lines : list_sum lines = length (docWords gs) ->
  let out := driveLines s (iterator s) lines s in
  length out = length lines /\
  Forall (fun l => snd (display cls [] l) = []) out /\
  flat_map (fun l => fst (display cls [] l)) out = flat_map expectSeg gs.
Proof.
  intros H. assert (length items = length (docWords gs)) as E.
  { unfold items. rewrite <- (docItems_words gs), map_length. reflexivity. }
  pose proof (lines_spec lines 0) as L. cbn [skipn itAt Nat.add] in L. rewrite <- items_length in L.
  destruct L as (L1 & L2 & L3); [lia|]. cbv zeta. split; [exact L1|]. split; [exact L2|].
  rewrite L3, H, <- E, firstn_all. apply docItems_shown.
Qed.
End Doc.
End Lines.
