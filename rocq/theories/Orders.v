(** Word breakers one after the other, in any order. *)
From Verif Require Import Base Unicode Split SpecSplit SplitProofs Tokens.

(** A breaker applied to each part; and to the parts made by another one. *)
Definition breaker := list rune -> go (list (list rune)).
Fixpoint eachOf (g : breaker) (ps : list (list rune)) : go (list (list rune)) :=
  match ps with
  | [] => Ret []
  | p :: ps' => let! a := g p in let! b := eachOf g ps' in Ret (a ++ b)
  end.
Definition andThen (f g : breaker) : breaker := fun w => let! ps := f w in eachOf g ps.
(** Parts are not broken any more. *)
Definition stable (f : breaker) : Prop := forall w, exists ps, f w = Ret ps /\ Forall (fun p => f p = Ret [p]) ps.
Definition sameParts (f g : breaker) : Prop := forall w, exists ps, f w = Ret ps /\ g w = Ret ps.

Lemma eachOf_pure g h ps : (forall p, g p = Ret (h p)) -> eachOf g ps = Ret (flat_map h ps).
Proof. intros H. induction ps as [|p ps IH]; [reflexivity|]. cbn [eachOf flat_map]. rewrite H, IH. reflexivity. Qed.

Lemma split_none g t : t <> [] -> Forall (fun r => g r = false) t -> splitAt g t = [t].
Proof.
  intros N H. eapply pieces_unique; [apply splitAt_pieces|]. rewrite <- (app_nil_r t) at 1. apply pieces_txt; auto. constructor.
Qed.
Lemma split_one g c : splitAt g [c] = [[c]].
Proof. cbn. now destruct (g c). Qed.

Section Two.
Variables f g : rune -> bool.
Definition either (r : rune) : bool := f r || g r.

Lemma split_txt t : forall w, Forall (fun r => f r = false) t -> (w = [] \/ exists c r, w = c :: r /\ f c = true) ->
  splitAt either (t ++ w) = splitAt g t ++ splitAt either w.
Proof.
  induction t as [|c t IH]; intros w H Hw; [reflexivity|]. inversion H as [|? ? Hc Ht]; subst. cbn [app splitAt].
  rewrite (IH w Ht Hw). assert (Ec : either c = g c) by (unfold either; now rewrite Hc). rewrite Ec. destruct (g c) eqn:Eg; [reflexivity|].
  destruct t as [|d t].
  - cbn [splitAt app]. destruct Hw as [->|(e & r & -> & He)]; [reflexivity|].
    assert (Ee : either e = true) by (unfold either; now rewrite He). cbn [splitAt]. rewrite Ee, Ee. reflexivity.
  - pose proof (splitAt_head g (d :: t)) as Hh. destruct (splitAt g (d :: t)) as [|p ps]; [discriminate|].
    destruct Hh as (e & r & -> & w' & E). injection E as <- <-. cbn [app]. inversion Ht as [|? ? Hd _]; subst.
    assert (Ed : either d = g d) by (unfold either; now rewrite Hd). rewrite Ed. now destruct (g d).
Qed.

Lemma split_twice w : flat_map (splitAt g) (splitAt f w) = splitAt either w.
Proof.
  pose proof (splitAt_pieces f w) as P. induction P as [|c w ps Hc P IH|t w ps Ht Hf Hw P IH]; [reflexivity| |].
  - cbn [flat_map]. rewrite IH, split_one. cbn [splitAt app]. assert (Ec : either c = true) by (unfold either; now rewrite Hc). now rewrite Ec.
  - cbn [flat_map]. now rewrite IH, split_txt.
Qed.
End Two.

Lemma split_ext f g w : (forall r, f r = g r) -> splitAt f w = splitAt g w.
Proof.
  intros H. induction w as [|c w IH]; [reflexivity|]. cbn [splitAt]. rewrite IH, H. destruct (g c); [reflexivity|].
  destruct (splitAt g w) as [|[|d p] ps]; auto. now rewrite H.
Qed.
Lemma split_swap f g w : flat_map (splitAt g) (splitAt f w) = flat_map (splitAt f) (splitAt g w).
Proof. rewrite !split_twice. apply split_ext. intros r. unfold either. apply orb_comm. Qed.

(** Fields are the pieces without the separators. *)
Definition solid (f : rune -> bool) (p : list rune) : bool := negb (single f p).
Lemma single_none f t : Forall (fun r => f r = false) t -> single f t = false.
Proof. destruct 1 as [|c t Hc Ht]; [reflexivity|]. cbn. now destruct t. Qed.
Lemma fields_sep f c w ts : f c = true -> fields f w ts -> fields f (c :: w) ts.
Proof.
  intros Hc H. destruct H as [s Hs|s t rest ts Hs N Ht Hr H]; [apply fields_none; now constructor|].
  apply (fields_one f (c :: s)); auto.
Qed.
Lemma fields_split f w : fields f w (filter (solid f) (splitAt f w)).
Proof.
  pose proof (splitAt_pieces f w) as P. induction P as [|c w ps Hc P IH|t w ps Ht Hf Hw P IH].
  - apply fields_none. constructor.
  - cbn [filter]. unfold solid at 1. cbn [single]. rewrite Hc. cbn [negb]. now apply fields_sep.
  - cbn [filter]. unfold solid at 1. rewrite (single_none f t Hf). cbn [negb]. apply (fields_one f [] t w); auto.
Qed.
Lemma fieldsFunc_is w f : fieldsFunc w f = Ret (filter (solid f) (splitAt f w)).
Proof. apply fieldsFunc_iff, fields_split. Qed.

Lemma filter_flat {A B} (p : B -> bool) (h : A -> list B) l : filter p (flat_map h l) = flat_map (fun x => filter p (h x)) l.
Proof. induction l as [|x l IH]; [reflexivity|]. cbn [flat_map]. now rewrite filter_app, IH. Qed.

Lemma filter_keep f g t : Forall (fun r => f r = false) t -> filter (solid f) (splitAt g t) = splitAt g t.
Proof.
  intros H. rewrite <- (splitAt_concat g t) in H. revert H. generalize (splitAt g t). intros ps.
  induction ps as [|p ps IH]; intros H; [reflexivity|]. cbn [concat] in H. apply Forall_app in H. destruct H as [H1 H2].
  cbn [filter]. unfold solid at 1. rewrite (single_none f p H1). cbn [negb]. now rewrite IH.
Qed.

(** Fields then pieces, pieces then fields. *)
Lemma fields_swap f g w : flat_map (splitAt g) (filter (solid f) (splitAt f w)) = flat_map (fun p => filter (solid f) (splitAt f p)) (splitAt g w).
Proof.
  rewrite <- filter_flat, split_swap, filter_flat.
  pose proof (splitAt_pieces f w) as P. induction P as [|c w ps Hc P IH|t w ps Ht Hf Hw P IH]; [reflexivity| |].
  - cbn [filter flat_map]. rewrite split_one. cbn [filter]. assert (Es : solid f [c] = false) by (unfold solid; cbn [single]; now rewrite Hc). rewrite Es. cbn [app]. exact IH.
  - cbn [filter flat_map]. assert (Es : solid f t = true) by (unfold solid; now rewrite (single_none f t Hf)). rewrite Es. cbn [flat_map]. now rewrite IH, (filter_keep f g t Hf).
Qed.

Lemma split_stable f w : Forall (fun p => splitAt f p = [p]) (splitAt f w).
Proof.
  pose proof (splitAt_pieces f w) as P. induction P as [|c w ps Hc P IH|t w ps Ht Hf Hw P IH]; constructor; auto; [apply split_one|].
  now apply split_none.
Qed.
Lemma fields_stable f w : Forall (fun p => filter (solid f) (splitAt f p) = [p]) (filter (solid f) (splitAt f w)).
Proof.
  pose proof (splitAt_pieces f w) as P. induction P as [|c w ps Hc P IH|t w ps Ht Hf Hw P IH]; cbn [filter]; [constructor| |].
  - assert (Es : solid f [c] = false) by (unfold solid; cbn [single]; now rewrite Hc). now rewrite Es.
  - assert (Es : solid f t = true) by (unfold solid; now rewrite (single_none f t Hf)). rewrite Es. constructor; [|exact IH]. rewrite split_none by auto. cbn [filter].
    now rewrite Es.
Qed.

Section Breakers.
Variable u : unicode.

Theorem breakers_stable : stable tokenizerBreakWord /\ stable (punctuatorBreakWord u) /\ stable splitWord.
Proof.
  split; [|split]; intros w.
  - unfold tokenizerBreakWord. rewrite fieldsFunc_is. eexists. split; [reflexivity|].
    eapply Forall_impl; [|apply fields_stable]. intros p H. cbv beta. now rewrite fieldsFunc_is, H.
  - rewrite punctuator_is. eexists. split; [reflexivity|]. eapply Forall_impl; [|apply split_stable]. intros p H. cbv beta. now rewrite punctuator_is, H.
  - rewrite splitWord_is. eexists. split; [reflexivity|]. eapply Forall_impl; [|apply split_stable]. intros p H. cbv beta. now rewrite splitWord_is, H.
Qed.

Theorem breakers_swap : sameParts (andThen (punctuatorBreakWord u) splitWord) (andThen splitWord (punctuatorBreakWord u)) /\
  sameParts (andThen tokenizerBreakWord (punctuatorBreakWord u)) (andThen (punctuatorBreakWord u) tokenizerBreakWord) /\
  sameParts (andThen tokenizerBreakWord splitWord) (andThen splitWord tokenizerBreakWord).
Proof.
  assert (T : forall w, tokenizerBreakWord w = Ret (filter (solid isSpace) (splitAt isSpace w))) by (intros w; apply fieldsFunc_is).
  split; [|split]; intros w; unfold andThen; rewrite ?punctuator_is, ?splitWord_is, ?T; cbn [gbind];
    rewrite ?(eachOf_pure splitWord _ _ splitWord_is), ?(eachOf_pure (punctuatorBreakWord u) _ _ (punctuator_is u)), ?(eachOf_pure tokenizerBreakWord _ _ T);
    eexists; (split; [reflexivity|]).
  - f_equal. apply split_swap.
  - f_equal. symmetry. apply fields_swap.
  - f_equal. symmetry. apply fields_swap.
Qed.
End Breakers.
