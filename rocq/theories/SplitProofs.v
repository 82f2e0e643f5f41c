From Verif Require Import Base Unicode Split SpecSplit.

(* ---------- FieldsFunc ---------- *)

Lemma lnot_neg s : 0 <= s -> Z.lnot s < 0.
Proof. unfold Z.lnot; lia. Qed.

Lemma forall_snoc {A} (P : A -> Prop) l x : Forall P l -> P x -> Forall P (l ++ [x]).
Proof. intros; apply Forall_app; auto. Qed.

(* open token [t] since [start]; or no open token *)
Lemma fields_loop_spec f : forall rest inp pre e start tokens,
  inp = pre ++ rest -> e = zlen pre ->
  (start < 0 ->
     exists ts, fields_loop f inp rest e start tokens = Ret (tokens ++ ts) /\ fields f rest ts) /\
  (forall s t, pre = s ++ t -> start = zlen s -> t <> [] -> Forall (fun r => f r = false) t ->
     exists ts, fields_loop f inp rest e start tokens = Ret (tokens ++ ts) /\ fields f (t ++ rest) ts).
Proof.
  induction rest as [|r rest IH]; intros inp pre e start tokens Hinp He; split.
  - intros Hs. cbn. destruct (Z.leb_spec 0 start); [lia|].
    exists []. rewrite app_nil_r. split; [reflexivity|]. apply fields_none. constructor.
  - intros s t Hpre Hst Ht Hall. cbn.
    pose proof (zlen_nonneg s). destruct (Z.leb_spec 0 start); [|lia].
    rewrite app_nil_r in Hinp. subst inp pre start.
    rewrite slice_tail; [|reflexivity|now rewrite zlen_app]. cbn.
    exists [t]. split; [reflexivity|].
    rewrite app_nil_r. rewrite <- (app_nil_r t) at 1. apply (fields_one f [] t []); auto.
    apply fields_none; constructor.
  - intros Hs. cbn.
    assert (Hinp' : inp = (pre ++ [r]) ++ rest) by (rewrite <- app_assoc; exact Hinp).
    assert (He' : e + 1 = zlen (pre ++ [r])) by (rewrite zlen_app, zlen_cons, zlen_nil; lia).
    destruct (f r) eqn:Hf.
    + destruct (Z.leb_spec 0 start); [lia|].
      destruct (IH inp (pre ++ [r]) (e+1) start tokens Hinp' He') as [H1 _].
      destruct (H1 Hs) as [ts [E F]]. exists ts; split; [exact E|].
      inversion F as [s0 Hs0|s0 t0 rest0 ts0 Hs0 Ht0 Ha0 Hr0 F0]; subst.
      * apply fields_none. constructor; assumption.
      * apply (fields_one f (r :: s0) t0 rest0 ts0); auto.
    + destruct (Z.ltb_spec start 0); [|lia].
      destruct (IH inp (pre ++ [r]) (e+1) e tokens Hinp' He') as [_ H2].
      destruct (H2 pre [r]) as [ts [E F]]; auto; [congruence|].
      exists ts; split; [exact E|exact F].
  - intros s t Hpre Hst Ht Hall. cbn.
    pose proof (zlen_nonneg s).
    assert (Hinp' : inp = (pre ++ [r]) ++ rest) by (rewrite <- app_assoc; exact Hinp).
    assert (He' : e + 1 = zlen (pre ++ [r])) by (rewrite zlen_app, zlen_cons, zlen_nil; lia).
    destruct (f r) eqn:Hf.
    + destruct (Z.leb_spec 0 start); [|lia].
      assert (Hsl : slice inp start e = Ret t).
      { rewrite Hinp, Hpre, <- app_assoc. apply slice_mid; [exact Hst|].
        rewrite He, Hpre, zlen_app; lia. }
      rewrite Hsl. cbn.
      destruct (IH inp (pre ++ [r]) (e+1) (Z.lnot start) (tokens ++ [t]) Hinp' He') as [H1 _].
      destruct (H1 (lnot_neg start ltac:(lia))) as [ts [E F]].
      exists (t :: ts). split; [rewrite E, <- app_assoc; reflexivity|].
      change (t ++ r :: rest) with ([] ++ t ++ r :: rest). apply fields_one; auto.
      * right; eauto.
      * inversion F as [s0 Hs0|s0 t0 rest0 ts0 Hs0 Ht0 Ha0 Hr0 F0]; subst.
        -- apply fields_none. constructor; assumption.
        -- apply (fields_one f (r :: s0) t0 rest0 ts0); auto.
    + destruct (Z.ltb_spec start 0); [lia|].
      destruct (IH inp (pre ++ [r]) (e+1) start tokens Hinp' He') as [_ H2].
      destruct (H2 s (t ++ [r])) as [ts [E F]]; auto.
      * rewrite Hpre, <- app_assoc; reflexivity.
      * destruct t; discriminate.
      * apply forall_snoc; assumption.
      * exists ts; split; [exact E|]. rewrite <- app_assoc in F. exact F.
Qed.

Lemma fieldsFunc_fields inp f : exists ts, fieldsFunc inp f = Ret ts /\ fields f inp ts.
Proof.
  unfold fieldsFunc.
  destruct (fields_loop_spec f inp inp [] 0 (-1) [] eq_refl eq_refl) as [H _].
  destruct (H ltac:(lia)) as [ts [E F]]. exists ts; auto.
Qed.

(* a list cannot both continue a run and start a separator *)
Lemma split_run_unique (f : rune -> bool) : forall t1 r1 t2 r2,
  Forall (fun r => f r = false) t1 -> Forall (fun r => f r = false) t2 ->
  (r1 = [] \/ exists c r, r1 = c :: r /\ f c = true) ->
  (r2 = [] \/ exists c r, r2 = c :: r /\ f c = true) ->
  t1 ++ r1 = t2 ++ r2 -> t1 = t2 /\ r1 = r2.
Proof.
  induction t1 as [|a t1 IH]; intros r1 t2 r2 H1 H2 M1 M2 E.
  - destruct t2 as [|b t2]; [auto|]. cbn in E. exfalso.
    destruct M1 as [->|[c [r [-> Hc]]]]; [discriminate|].
    injection E as -> E. inversion H2; congruence.
  - destruct t2 as [|b t2].
    + exfalso. cbn in E. destruct M2 as [->|[c [r [-> Hc]]]]; [discriminate|].
      injection E as -> E. inversion H1; congruence.
    + injection E as -> E. inversion H1; inversion H2; subst.
      destruct (IH r1 t2 r2) as [-> ->]; auto.
Qed.

Lemma split_sep_unique (f : rune -> bool) : forall s1 x1 s2 x2,
  Forall (fun r => f r = true) s1 -> Forall (fun r => f r = true) s2 ->
  (x1 = [] \/ exists c r, x1 = c :: r /\ f c = false) ->
  (x2 = [] \/ exists c r, x2 = c :: r /\ f c = false) ->
  s1 ++ x1 = s2 ++ x2 -> s1 = s2 /\ x1 = x2.
Proof.
  intros s1 x1 s2 x2 H1 H2 M1 M2 E.
  apply (split_run_unique (fun r => negb (f r)) s1 x1 s2 x2); auto.
  - eapply Forall_impl; [|exact H1]. cbn; intros a Ha; now rewrite Ha.
  - eapply Forall_impl; [|exact H2]. cbn; intros a Ha; now rewrite Ha.
  - destruct M1 as [->|[c [r [-> Hc]]]]; [auto|right; exists c, r; rewrite Hc; auto].
  - destruct M2 as [->|[c [r [-> Hc]]]]; [auto|right; exists c, r; rewrite Hc; auto].
Qed.

Lemma tok_head (f : rune -> bool) t (rest : list rune) : t <> [] -> Forall (fun r => f r = false) t ->
  t ++ rest = [] \/ exists c r, t ++ rest = c :: r /\ f c = false.
Proof.
  intros Ht Ha. destruct t as [|a t]; [congruence|].
  right. exists a, (t ++ rest). split; [reflexivity|]. inversion Ha; auto.
Qed.

Lemma fields_unique f inp t1 t2 : fields f inp t1 -> fields f inp t2 -> t1 = t2.
Proof.
  intros H; revert t2.
  induction H as [s Hs|s t rest ts Hs Ht Ha Hr H IH]; intros t2 H2.
  - inversion H2 as [|s' t' rest' ts' Hs' Ht' Ha' Hr' H']; subst; [reflexivity|].
    exfalso.
    assert (E : s' = s' ++ t' ++ rest' /\ t' ++ rest' = []).
    { apply (split_sep_unique f s' (t' ++ rest') (s' ++ t' ++ rest') []); auto.
      - now apply tok_head.
      - rewrite app_nil_r; reflexivity. }
    destruct E as [_ E]. destruct t'; [congruence|discriminate].
  - inversion H2 as [s' Hs' E|s' t' rest' ts' Hs' Ht' Ha' Hr' H' E]; subst.
    + exfalso.
      assert (E : s = s ++ t ++ rest /\ t ++ rest = []).
      { apply (split_sep_unique f s (t ++ rest) (s ++ t ++ rest) []); auto.
        - now apply tok_head.
        - rewrite app_nil_r; reflexivity. }
      destruct E as [_ E]. destruct t; [congruence|discriminate].
    + destruct (split_sep_unique f s' (t' ++ rest') s (t ++ rest)) as [-> E2]; auto using tok_head.
      destruct (split_run_unique f t' rest' t rest) as [-> ->]; auto.
      f_equal. now apply IH.
Qed.

Lemma fields_concat f inp ts : fields f inp ts -> concat ts = filter (fun r => negb (f r)) inp.
Proof.
  induction 1 as [s Hs|s t rest ts Hs Ht Ha Hr H IH].
  - induction Hs as [|x s Hx Hs IHs]; cbn; [reflexivity|]. rewrite Hx; cbn. exact IHs.
  - rewrite !filter_app.
    assert (E1 : filter (fun r => negb (f r)) s = []).
    { clear -Hs. induction Hs as [|x s Hx Hs IHs]; cbn; [reflexivity|]. rewrite Hx; cbn. exact IHs. }
    assert (E2 : filter (fun r => negb (f r)) t = t).
    { clear -Ha. induction Ha as [|x s Hx Hs IHs]; cbn; [reflexivity|]. rewrite Hx; cbn. now rewrite IHs. }
    rewrite E1, E2. cbn. now rewrite IH.
Qed.

Lemma fields_tokens f inp ts : fields f inp ts ->
  Forall (fun t => t <> [] /\ Forall (fun r => f r = false) t) ts.
Proof. induction 1; constructor; auto. Qed.

Lemma fields_join f sep ws : f sep = true ->
  Forall (fun t => t <> [] /\ Forall (fun r => f r = false) t) ws ->
  fields f (joinWith sep ws) ws.
Proof.
  intros Hsep. induction ws as [|w ws IH]; intros H.
  - cbn. apply fields_none. constructor.
  - inversion H as [|? ? [Hne Hw] Hws]; subst. specialize (IH Hws).
    destruct ws as [|w2 ws].
    + cbn. rewrite <- (app_nil_r w) at 1. change (w ++ []) with ([] ++ w ++ []).
      apply fields_one; auto.
    + cbn [joinWith].
      match goal with |- fields f (w ++ sep :: ?x) _ => change (w ++ sep :: x) with ([] ++ w ++ sep :: x) end.
      apply fields_one; auto.
      * right. eauto.
      * inversion IH as [s Hs|s t rest ts Hs Ht Ha Hr F]; subst.
        change (sep :: s ++ w2 ++ rest) with ((sep :: s) ++ w2 ++ rest).
        apply (fields_one f (sep :: s)); auto.
Qed.

(* ---------- breakAtFunc / SplitWord ---------- *)

Lemma break_loop_spec f : forall rest word pre t i prev result,
  word = (pre ++ t) ++ rest -> i = zlen (pre ++ t) -> prev = zlen pre ->
  Forall (fun r => f r = false) t ->
  exists ps, break_loop f word rest i prev result = Ret (result ++ ps) /\ pieces f (t ++ rest) ps.
Proof.
  induction rest as [|r rest IH]; intros word pre t i prev result Hw Hi Hp Ha.
  - cbn. rewrite app_nil_r in Hw. subst word. rewrite zlen_app, app_nil_r in *.
    pose proof (zlen_nonneg pre); pose proof (zlen_nonneg t).
    destruct (Z.ltb_spec prev (zlen pre + zlen t)) as [Hlt|Hge].
    + rewrite slice_tail by (auto). cbn.
      exists [t]. split; [reflexivity|].
      rewrite <- (app_nil_r t) at 1. apply pieces_txt; auto.
      * intros ->. rewrite zlen_nil in Hlt; lia.
      * constructor.
    + assert (t = []) as -> by (destruct t; [reflexivity|rewrite zlen_cons in Hge; pose proof (zlen_nonneg t); lia]).
      exists []. rewrite app_nil_r. split; [reflexivity|constructor].
  - cbn.
    pose proof (zlen_nonneg pre); pose proof (zlen_nonneg t); pose proof (zlen_nonneg rest).
    assert (Hlw : zlen word = zlen pre + zlen t + 1 + zlen rest)
      by (rewrite Hw, !zlen_app, zlen_cons; lia).
    assert (Hi' : i = zlen pre + zlen t) by (rewrite Hi, zlen_app; reflexivity).
    destruct (f r) eqn:Hf.
    + assert (Hnext : forall res, exists ps,
        break_loop f word rest (i+1) (i+1) res = Ret (res ++ ps) /\ pieces f rest ps).
      { intros res.
        apply (IH word ((pre ++ t) ++ [r]) [] (i+1) (i+1) res).
        - rewrite app_nil_r, <- app_assoc. exact Hw.
        - rewrite app_nil_r, !zlen_app, zlen_cons, zlen_nil; lia.
        - rewrite !zlen_app, zlen_cons, zlen_nil; lia.
        - constructor. }
      destruct t as [|a t0] eqn:Et.
      * rewrite zlen_nil in *.
        destruct (Z.ltb_spec prev i); [lia|]. rewrite andb_false_r. cbn.
        destruct (Hnext (result ++ [[r]])) as [ps [E P]].
        exists ([r] :: ps). rewrite E, <- app_assoc. split; [reflexivity|].
        apply pieces_sep; assumption.
      * rewrite <- Et in *. assert (0 < zlen t) by (rewrite Et, zlen_cons; pose proof (zlen_nonneg t0); lia).
        destruct (Z.ltb_spec 0 i); [|lia].
        destruct (Z.ltb_spec prev (zlen word)); [|lia].
        destruct (Z.ltb_spec prev i); [|lia]. cbn.
        assert (Hs : slice word prev i = Ret t).
        { rewrite Hw, <- app_assoc. apply slice_mid; lia. }
        rewrite Hs. cbn.
        destruct (Hnext ((result ++ [t]) ++ [[r]])) as [ps [E P]].
        exists (t :: [r] :: ps). rewrite E, <- !app_assoc. split; [reflexivity|].
        apply pieces_txt; auto.
        -- rewrite Et; discriminate.
        -- right; eauto.
        -- apply pieces_sep; assumption.
    + destruct (IH word pre (t ++ [r]) (i+1) prev result) as [ps [E P]]; auto.
      * rewrite app_assoc, <- app_assoc. exact Hw.
      * rewrite !zlen_app, zlen_cons, zlen_nil; lia.
      * apply Forall_app; split; auto.
      * exists ps. split; [exact E|]. rewrite <- app_assoc in P. exact P.
Qed.

Lemma break_loop_pieces f w : exists ps, break_loop f w w 0 0 [] = Ret ps /\ pieces f w ps.
Proof. apply (break_loop_spec f w w [] [] 0 0 []); auto. Qed.

Lemma pieces_unique f w p1 p2 : pieces f w p1 -> pieces f w p2 -> p1 = p2.
Proof.
  intros H; revert p2.
  induction H as [|c w ps Hc H IH|t w ps Ht Ha Hw H IH]; intros p2 H2.
  - inversion H2 as [|c w ps|t w ps Ht Ha Hw H E]; subst; auto.
    destruct t; [congruence|discriminate].
  - inversion H2 as [|c' w' ps' Hc' H'|t' w' ps' Ht' Ha' Hw' H' E]; subst.
    + f_equal; now apply IH.
    + destruct t' as [|a t']; [congruence|]. injection E as -> E. inversion Ha'; congruence.
  - inversion H2 as [E|c' w' ps' Hc' H' E|t' w' ps' Ht' Ha' Hw' H' E]; subst.
    + destruct t; [congruence|discriminate].
    + destruct t as [|a t]; [congruence|]. injection E as -> E. inversion Ha; congruence.
    + destruct (split_run_unique f t' w' t w) as [-> ->]; auto. f_equal; now apply IH.
Qed.

Lemma pieces_concat f w ps : pieces f w ps -> concat ps = w.
Proof. induction 1; cbn; congruence. Qed.

Lemma pieces_parts f w ps : pieces f w ps ->
  Forall (fun p => (exists c, p = [c] /\ f c = true) \/ (p <> [] /\ Forall (fun r => f r = false) p)) ps.
Proof. induction 1; constructor; eauto. Qed.

(* existence in the spec does not depend on the program *)
Lemma punctuator_pieces u w : exists ps, punctuatorBreakWord u w = Ret ps /\ pieces (punctSplitFunc u) w ps.
Proof. apply break_loop_pieces. Qed.

Lemma splitWord_pieces w : exists ps, splitWord w = Ret ps /\ pieces isHyphenRune w ps.
Proof. apply break_loop_pieces. Qed.

Lemma punct_not_hyphen u p : isPunctuation u p = true -> isHyphen p = false.
Proof.
  destruct p as [|r [|? ?]]; cbn [isPunctuation isHyphen]; try discriminate.
  unfold punctSplitFunc. destruct (isHyphenRune r) eqn:E; [|reflexivity].
  rewrite andb_false_r, orb_false_r. intros H. apply Z.eqb_eq in H. subst r. discriminate E.
Qed.

(* a separator is isolated wherever it stands *)
Lemma pieces_isolated f r : f r = true -> forall w ps, pieces f w ps -> forall a b, w = a ++ r :: b ->
  exists p1 p2, ps = p1 ++ [r] :: p2 /\ concat p1 = a /\ concat p2 = b.
Proof.
  intros Hr w ps H. induction H as [|c w ps Hc H IH|t w ps Ht Ha Hw H IH]; intros a b E.
  - destruct a; discriminate.
  - destruct a as [|x a]; cbn in E; injection E as -> E.
    + exists [], ps. rewrite E in H. apply pieces_concat in H. auto.
    + destruct (IH a b E) as [p1 [p2 [-> [E1 E2]]]].
      exists ([x] :: p1), p2. cbn. rewrite E1. auto.
  - (* r is not in t *)
    assert (exists a', a = t ++ a' /\ w = a' ++ r :: b) as [a' [-> E']].
    { clear -Ha E Hr Ht. revert a E. clear Ht. induction Ha as [|x t Hx Ha IH]; intros a E.
      - exists a. auto.
      - destruct a as [|y a]; cbn in E; injection E as -> E; [congruence|].
        destruct (IH a E) as [a' [-> ->]]. exists a'. auto. }
    destruct (IH a' b E') as [p1 [p2 [-> [E1 E2]]]].
    exists (t :: p1), p2. cbn. rewrite E1. auto.
Qed.

Lemma isolated_iff f x (Hx : f x = false) r :
  f r = true <->
  (forall a b ps, break_loop f (a ++ r :: b) (a ++ r :: b) 0 0 [] = Ret ps ->
     exists p1 p2, ps = p1 ++ [r] :: p2 /\ concat p1 = a /\ concat p2 = b).
Proof.
  split.
  - intros Hr a b ps E. destruct (break_loop_pieces f (a ++ r :: b)) as [ps' [E' P]].
    rewrite E' in E. injection E as ->. eapply pieces_isolated; eauto.
  - intros H. destruct (f r) eqn:Hr; [reflexivity|]. exfalso.
    assert (P : pieces f ([x] ++ r :: []) [[x; r]]).
    { replace ([x] ++ r :: []) with ([x; r] ++ []) by reflexivity.
      apply pieces_txt; [discriminate|auto|auto|constructor]. }
    destruct (break_loop_pieces f ([x] ++ r :: [])) as [ps' [E' P']].
    pose proof (pieces_unique _ _ _ _ P P'); subst ps'.
    destruct (H [x] [] _ E') as [p1 [p2 [E1 [E2 E3]]]].
    destruct p1 as [|q p1]; [cbn in E1; congruence|].
    cbn in E1. injection E1 as _ E1. destruct p1; discriminate.
Qed.

Lemma isPunctuation_iff u r :
  isPunctuation u [r] = true <->
  (forall a b ps, punctuatorBreakWord u (a ++ r :: b) = Ret ps ->
     exists p1 p2, ps = p1 ++ [r] :: p2 /\ concat p1 = a /\ concat p2 = b).
Proof. apply (isolated_iff (punctSplitFunc u) 97). reflexivity. Qed.

Lemma isHyphen_iff r :
  isHyphen [r] = true <->
  (forall a b ps, splitWord (a ++ r :: b) = Ret ps ->
     exists p1 p2, ps = p1 ++ [r] :: p2 /\ concat p1 = a /\ concat p2 = b).
Proof. apply (isolated_iff isHyphenRune 97). reflexivity. Qed.

(* ---------- statements gathered for the property file ---------- *)

Lemma fieldsFunc_iff inp f ts : fieldsFunc inp f = Ret ts <-> fields f inp ts.
Proof.
  destruct (fieldsFunc_fields inp f) as [ts' [E F]]. split.
  - intros E2. rewrite E in E2. injection E2 as <-. exact F.
  - intros F2. rewrite E. f_equal. eapply fields_unique; eauto.
Qed.

Lemma fieldsFunc_full inp f :
  exists ts, fieldsFunc inp f = Ret ts /\ fields f inp ts /\ (forall ts', fields f inp ts' -> ts' = ts).
Proof.
  destruct (fieldsFunc_fields inp f) as [ts [E F]]. exists ts. repeat split; auto.
  intros ts' F'. eapply fields_unique; eauto.
Qed.

Lemma tokenizer_keeps w :
  exists ts, tokenizerBreakWord w = Ret ts /\
    Forall (fun t => t <> [] /\ Forall (fun r => isSpace r = false) t) ts /\
    concat ts = filter (fun r => negb (isSpace r)) w.
Proof.
  destruct (fieldsFunc_fields w isSpace) as [ts [E F]]. exists ts. repeat split; auto.
  - eapply fields_tokens; eauto.
  - eapply fields_concat; eauto.
Qed.

Lemma tokenizer_join blank ws : isSpace blank = true ->
  Forall (fun t => t <> [] /\ Forall (fun r => isSpace r = false) t) ws ->
  tokenizerBreakWord (joinWith blank ws) = Ret ws.
Proof. intros Hb Hw. apply fieldsFunc_iff. now apply fields_join. Qed.

Lemma punctuator_full u w :
  let mark := fun r => (r =? 124) || (isPunct u r && negb (isHyphenRune r)) in
  exists ps, punctuatorBreakWord u w = Ret ps /\ concat ps = w /\ pieces mark w ps /\
    (forall ps', pieces mark w ps' -> ps' = ps).
Proof.
  destruct (punctuator_pieces u w) as [ps [E P]]. exists ps. repeat split; auto.
  - eapply pieces_concat; eauto.
  - intros ps' P'. eapply pieces_unique; eauto.
Qed.

Lemma splitWord_full w :
  exists ps, splitWord w = Ret ps /\ concat ps = w /\ pieces isHyphenRune w ps /\
    (forall ps', pieces isHyphenRune w ps' -> ps' = ps).
Proof.
  destruct (splitWord_pieces w) as [ps [E P]]. exists ps. repeat split; auto.
  - eapply pieces_concat; eauto.
  - intros ps' P'. eapply pieces_unique; eauto.
Qed.

Lemma classes_disjoint u p :
  ~ (isPunctuation u p = true /\ isHyphen p = true) /\
  (length p <> 1%nat -> isPunctuation u p = false /\ isHyphen p = false).
Proof.
  split.
  - intros [H1 H2]. apply punct_not_hyphen in H1. congruence.
  - destruct p as [|a [|b p]]; cbn [length]; [auto|lia|auto].
Qed.
