(** What was set before, and formatting, have no effect on the layout: two calls on the same texts, whatever the earlier calls. *)
From Verif Require Import Base Arith Unicode Split SpecSplit SplitProofs Hyph HyphProofs Dict Cache Lang PatUs Ansi SpecAnsi AnsiProofs Attr KP Nodes Render Tokens Align
  SpecFormat Format SpecAny AnyNodes AnyCall Options.
Open Scope Z_scope.

(** [partTexts items]: the texts of the parts of a token, each between sequences *)
Definition partTexts (items : list SpecAnsi.item) : list (list rune) := map keptText (groups items).
Definition some {T} (l : list T) : bool := match l with [] => false | _ => true end.
(** those that are not empty *)
Definition someTexts (items : list SpecAnsi.item) : list (list rune) := filter some (partTexts items).

Definition grel {S T} (R : S -> T -> Prop) (x : go S) (y : go T) : Prop :=
  match x, y with Ret a, Ret b => R a b | Panic, Panic => True | _, _ => False end.
Lemma grel_bind {S T S' T'} (R : S -> T -> Prop) (R' : S' -> T' -> Prop) x y f g :
  grel R x y -> (forall a b, R a b -> grel R' (f a) (g b)) -> grel R' (gbind x f) (gbind y g).
Proof. destruct x, y; cbn [grel gbind]; intros H K; try contradiction; auto. Qed.
Lemma grel_same {S S' T'} (R' : S' -> T' -> Prop) (x : go S) f g : (forall a, grel R' (f a) (g a)) -> grel R' (gbind x f) (gbind x g).
Proof. destruct x; cbn [grel gbind]; auto. Qed.

Section History.
Variable A : arith.
Variable u : unicode.
Variable o : lopts A.
Variable sp hy : F A.
Variable s1 s2 : state.
Notation lb1 := (mkBreaker o sp hy s1).
Notation lb2 := (mkBreaker o sp hy s2).
Notation node := (node A).

Definition arel (a b : attr) : Prop := a_text a = a_text b.
Definition brel (b1 b2 : state) : Prop := exists m1 m2, b1 = s1 ++ m1 /\ b2 = s2 ++ m2 /\ Forall2 arel m1 m2.
Definition irel (i1 i2 : option nat) : Prop :=
  match i1, i2 with
  | None, None => True
  | Some i, Some j => exists k, i = (length s1 + k)%nat /\ j = (length s2 + k)%nat
  | _, _ => False
  end.
Definition nrel (n1 n2 : node) : Prop :=
  n_type n1 = n_type n2 /\ n_penalty n1 = n_penalty n2 /\ n_flagged n1 = n_flagged n2 /\ n_value n1 = n_value n2 /\ n_sums n1 = n_sums n2 /\ irel (n_attr n1) (n_attr n2).
Definition trel (t1 t2 : tstate) : Prop := brel (ts_attrs t1) (ts_attrs t2) /\ irel (ts_current t1) (ts_current t2) /\ ts_started t1 = ts_started t2.

Lemma Forall2_len {S T} (R : S -> T -> Prop) l k : Forall2 R l k -> length l = length k.
Proof. induction 1; cbn [length]; congruence. Qed.
Lemma nrel_plain n : n_attr n = None -> nrel n n.
Proof. intros H. unfold nrel. rewrite H. repeat (split; [reflexivity|]). exact I. Qed.

Definition prel (x y : list node * tstate) : Prop := Forall2 nrel (fst x) (fst y) /\ trel (snd x) (snd y).
Definition qrel (x y : list node * state) : Prop := Forall2 nrel (fst x) (fst y) /\ brel (snd x) (snd y).

Lemma push_rel b1 b2 t x y : brel b1 b2 -> brel (push b1 (Some (newAttr t x []))) (push b2 (Some (newAttr t y []))).
Proof.
  intros (m1 & m2 & -> & -> & H). unfold push. eexists (m1 ++ [_]), (m2 ++ [_]). rewrite !app_assoc. split; [reflexivity|]. split; [reflexivity|].
  apply Forall2_app; [exact H|]. constructor; [|constructor]. reflexivity.
Qed.
Lemma start_rel st1 st2 t1 t2 v : trel t1 t2 ->
  grel (fun x y => nrel (fst x) (fst y) /\ trel (snd x) (snd y)) (startBox A lb1 st1 t1 v) (startBox A lb2 st2 t2 v).
Proof.
  intros (Hb & Hi & Hs). unfold startBox. cbn [lb_opts]. apply grel_same. intros w. cbn [grel fst snd].
  assert (irel (ts_current (tsStart st1 t1 v)) (ts_current (tsStart st2 t2 v))) as Hc.
  { unfold tsStart. cbn [ts_current irel]. destruct Hb as (m1 & m2 & -> & -> & H). exists (length m1). rewrite !app_length, (Forall2_len _ _ _ H). auto. }
  split.
  - unfold nrel, newBox. cbn [n_type n_penalty n_flagged n_value n_attr n_sums]. repeat (split; [reflexivity|]). exact Hc.
  - split; [|split; [exact Hc|reflexivity]]. unfold tsStart. cbn [ts_attrs]. now apply push_rel.
Qed.
Lemma one_rel n1 n2 : nrel n1 n2 -> Forall2 nrel [n1] [n2].
Proof. intros H. constructor; [exact H|constructor]. Qed.
Lemma mark_rel b1 b2 p : nrel b1 b2 -> Forall2 nrel (markNodes A lb1 b1 p) (markNodes A lb2 b2 p).
Proof. intros H. unfold markNodes. repeat (apply Forall2_cons; [now (apply nrel_plain; reflexivity) || exact H|]). constructor. Qed.
Lemma plain_list l : Forall (fun n : node => n_attr n = None) l -> Forall2 nrel l l.
Proof. induction 1; constructor; auto using nrel_plain. Qed.
Lemma hyphen_rel : Forall2 nrel (pushHyphen A lb1) (pushHyphen A lb2).
Proof. unfold pushHyphen. cbn [lb_opts lb_hyphenWidth]. apply plain_list. destruct (l_renderHyphens o); repeat constructor. Qed.
Lemma part_rel st1 st2 ps : forall p t1 t2 n1 n2, prel (n1, t1) (n2, t2) -> grel prel (partNodes A lb1 st1 t1 p ps n1) (partNodes A lb2 st2 t2 p ps n2).
Proof.
  induction ps as [|q ps IH]; intros p t1 t2 n1 n2 [Hn Ht]; cbn [fst snd] in *; cbn [partNodes]; eapply grel_bind; try (apply start_rel; exact Ht); intros [x1 y1] [x2 y2] [Hx Hy]; cbn [fst snd] in *.
  - split; cbn [fst snd]; [|exact Hy]. apply Forall2_app; [exact Hn|]. now apply one_rel.
  - apply IH. split; cbn [fst snd]; [|exact Hy]. apply Forall2_app; [exact Hn|]. apply Forall2_app; [now apply one_rel|exact hyphen_rel].
Qed.
Lemma word_rel st1 st2 ws : forall t1 t2 n1 n2, prel (n1, t1) (n2, t2) -> grel prel (wordNodes A lb1 st1 t1 ws n1) (wordNodes A lb2 st2 t2 ws n2).
Proof.
  induction ws as [|w ws IH]; intros t1 t2 n1 n2 [Hn Ht]; cbn [fst snd] in *; cbn [wordNodes]; [now split|]. destruct (isHyphen w).
  - eapply grel_bind; [apply start_rel; exact Ht|]. intros [x1 y1] [x2 y2] [Hx Hy]. cbn [fst snd] in *. apply IH. split; cbn [fst snd]; [|exact Hy].
    apply Forall2_app; [exact Hn|]. now apply mark_rel.
  - apply grel_same. intros [|p ps]; [exact I|]. eapply grel_bind; [apply part_rel; split; [exact Hn|exact Ht]|]. intros [x1 y1] [x2 y2] H. now apply IH.
Qed.
Lemma piece_rel st1 st2 ps : forall t1 t2 n1 n2, prel (n1, t1) (n2, t2) -> grel prel (pieceNodes A u lb1 st1 t1 ps n1) (pieceNodes A u lb2 st2 t2 ps n2).
Proof.
  induction ps as [|p ps IH]; intros t1 t2 n1 n2 [Hn Ht]; cbn [fst snd] in *; cbn [pieceNodes]; [now split|]. cbn [lb_opts]. destruct (isPunctuation u p); [|destruct (_ || _)].
  - eapply grel_bind; [apply start_rel; exact Ht|]. intros [x1 y1] [x2 y2] [Hx Hy]. cbn [fst snd] in *. apply IH. split; cbn [fst snd]; [|exact Hy].
    apply Forall2_app; [exact Hn|]. now apply mark_rel.
  - eapply grel_bind; [apply start_rel; exact Ht|]. intros [x1 y1] [x2 y2] [Hx Hy]. cbn [fst snd] in *. apply IH. split; cbn [fst snd]; [|exact Hy].
    apply Forall2_app; [exact Hn|]. now apply one_rel.
  - apply grel_same. intros words. eapply grel_bind; [apply word_rel; split; [exact Hn|exact Ht]|]. intros [x1 y1] [x2 y2] H. now apply IH.
Qed.
Lemma updAt_rel m f g : (forall a b, arel a b -> arel (f a) b) -> (forall a b, arel a b -> arel a (g b)) -> forall s m' i,
  Forall2 arel m m' -> (exists x, updAt (s ++ m) (length s + i) f = s ++ x /\ Forall2 arel x m') /\ (exists x, updAt (s ++ m') (length s + i) g = s ++ x /\ Forall2 arel m x).
Proof.
  intros Hf Hg s m' i H. assert (forall l (h : attr -> attr), updAt (s ++ l) (length s + i) h = s ++ updAt l i h) as E.
  { intros l h. induction s as [|a s IH]; [reflexivity|]. cbn [app length Nat.add updAt]. now rewrite IH. }
  rewrite !E. split; eexists; (split; [reflexivity|]); clear E; revert i; induction H as [|a b l k Hab H IH]; intros [|i]; cbn [updAt]; constructor; auto.
Qed.
Lemma stop_rel e1 e2 t1 t2 : trel t1 t2 -> brel (ts_attrs (tsStop e1 t1)) (ts_attrs (tsStop e2 t2)).
Proof.
  intros (Hb & Hi & _). unfold tsStop. destruct (ts_current t1) as [i|], (ts_current t2) as [j|]; try contradiction; [|exact Hb].
  destruct Hi as (k & -> & ->). destruct Hb as (m1 & m2 & E1 & E2 & H). rewrite E1, E2.
  assert (exists x1, ts_attrs (if zlen e1 =? 0 then t1 else mkTs (updAt (s1 ++ m1) (length s1 + k) (fun a => setStop a e1)) (Some (length s1 + k)%nat) (ts_started t1)) = s1 ++ x1 /\ Forall2 arel x1 m2) as (x1 & F1 & H1).
  { destruct (zlen e1 =? 0); [exists m1; now rewrite E1|]. cbn [ts_attrs].
    destruct (updAt_rel m1 (fun a => setStop a e1) (fun a => setStop a e1) ltac:(intros a b; exact (fun x => x)) ltac:(intros a b; exact (fun x => x)) s1 m2 k H) as [K _]. exact K. }
  assert (exists x2, ts_attrs (if zlen e2 =? 0 then t2 else mkTs (updAt (s2 ++ m2) (length s2 + k) (fun a => setStop a e2)) (Some (length s2 + k)%nat) (ts_started t2)) = s2 ++ x2 /\ Forall2 arel x1 x2) as (x2 & F2 & H2).
  { destruct (zlen e2 =? 0); [exists m2; now rewrite E2|]. cbn [ts_attrs].
    destruct (updAt_rel x1 (fun a => setStop a e2) (fun a => setStop a e2) ltac:(intros a b; exact (fun x => x)) ltac:(intros a b; exact (fun x => x)) s2 m2 k H1) as [_ K]. exact K. }
  rewrite F1, F2. exists x1, x2. auto.
Qed.
Lemma stripped_rel mem1 mem2 ps1 ps2 : Forall2 (fun p q => contents mem1 (s_text p) = contents mem2 (s_text q)) ps1 ps2 -> forall b1 b2 n1 n2, brel b1 b2 -> Forall2 nrel n1 n2 ->
  grel qrel (strippedNodes A u lb1 mem1 ps1 b1 n1) (strippedNodes A u lb2 mem2 ps2 b2 n2).
Proof.
  induction 1 as [|p q ps1 ps2 Hpq _ IH]; intros b1 b2 n1 n2 Hb Hn; cbn [strippedNodes]; [now split|]. cbn [lb_opts]. rewrite Hpq. apply grel_same. intros pieces.
  eapply grel_bind; [apply piece_rel; split; cbn [fst snd]; [exact Hn|]; split; [exact Hb|]; now split|].
  intros [x1 y1] [x2 y2] [Hx Hy]. cbn [fst snd] in *. apply IH; [|exact Hx]. now apply stop_rel.
Qed.
Lemma parts_texts tok spare items : mcap (tok ++ spare) -> lexed u tok items ->
  exists ps, stripToken u (tok ++ spare) (zlen tok) = Ret (tok ++ spare, ps) /\ map (fun p => contents (tok ++ spare) (s_text p)) ps = partTexts items.
Proof.
  intros Hm Hl. destruct (stripToken_exact u tok spare items Hm Hl) as (ps & E & Hp). exists ps. split; [exact E|].
  apply (f_equal (map (fun x => snd (fst x)))) in Hp. rewrite !map_map in Hp. cbn [fst snd] in Hp. unfold partTexts. rewrite Hp. now apply map_ext.
Qed.
(** two tokens with the same texts in their parts *)
Definition sameParts (t1 t2 x1 x2 : list rune) : Prop :=
  exists is1 is2, lexed u t1 is1 /\ lexed u t2 is2 /\ mcap (t1 ++ x1) /\ mcap (t2 ++ x2) /\
    (partTexts is1 = partTexts is2 \/ (l_punctuator o [] = Ret [] /\ someTexts is1 = someTexts is2)).
Lemma stripped_some lb mem ps : l_punctuator (lb_opts lb) [] = Ret [] -> forall b n,
  strippedNodes A u lb mem ps b n = strippedNodes A u lb mem (filter (fun p => some (contents mem (s_text p))) ps) b n.
Proof.
  intros H. induction ps as [|p ps IH]; intros b n; [reflexivity|]. cbn [filter]. destruct (contents mem (s_text p)) as [|c t] eqn:E; cbn [some].
  - cbn [strippedNodes]. rewrite E, H. cbn [gbind pieceNodes tsStop ts_current ts_attrs]. apply IH.
  - cbn [strippedNodes]. destruct (l_punctuator (lb_opts lb) (contents mem (s_text p))); [|reflexivity]. cbn [gbind]. destruct (pieceNodes _ _ _ _ _ _ _) as [[n' ts]|]; [|reflexivity]. cbn [gbind]. apply IH.
Qed.
Lemma filter_map_some {S T} (f : S -> list T) l : map f (filter (fun x => some (f x)) l) = filter some (map f l).
Proof. induction l as [|x l IH]; [reflexivity|]. cbn [filter map]. destruct (some (f x)); cbn [map]; now rewrite IH. Qed.
Lemma map_rel {S T V} (f : S -> V) (g : T -> V) l : forall k, map f l = map g k -> Forall2 (fun x y => f x = g y) l k.
Proof. induction l as [|x l IH]; intros [|y k] E; try discriminate E; constructor; injection E as E1 E2; auto. Qed.
Lemma box_rel t1 t2 x1 x2 b1 b2 : sameParts t1 t2 x1 x2 -> brel b1 b2 -> grel qrel (boxNodes A u lb1 t1 x1 b1) (boxNodes A u lb2 t2 x2 b2).
Proof.
  intros (is1 & is2 & L1 & L2 & M1 & M2 & E) Hb. unfold boxNodes.
  destruct (parts_texts t1 x1 is1 M1 L1) as (ps1 & -> & E1). destruct (parts_texts t2 x2 is2 M2 L2) as (ps2 & -> & E2). cbn [gbind].
  destruct E as [E|[Hp E]].
  - apply stripped_rel; [|exact Hb|constructor]. apply (map_rel (fun p => contents (t1 ++ x1) (s_text p)) (fun p => contents (t2 ++ x2) (s_text p))). congruence.
  - rewrite (stripped_some lb1), (stripped_some lb2) by exact Hp. apply stripped_rel; [|exact Hb|constructor].
    apply (map_rel (fun p => contents (t1 ++ x1) (s_text p)) (fun p => contents (t2 ++ x2) (s_text p))). rewrite !filter_map_some. unfold someTexts in E. congruence.
Qed.
Lemma loop_rel spare1 spare2 ts1 ts2 : forall t1 t2 i b1 b2 n1 n2, length ts1 = length ts2 ->
  (forall j x y, nth_error (t1 :: ts1) j = Some x -> nth_error (t2 :: ts2) j = Some y -> sameParts x y (spare1 (i + j)%nat) (spare2 (i + j)%nat)) ->
  brel b1 b2 -> Forall2 nrel n1 n2 -> grel qrel (alignedLoop A u lb1 t1 ts1 spare1 i b1 n1) (alignedLoop A u lb2 t2 ts2 spare2 i b2 n2).
Proof.
  revert ts2. induction ts1 as [|t1' ts1 IH]; intros [|t2' ts2] t1 t2 i b1 b2 n1 n2 Hl H Hb Hn; try discriminate Hl; cbn [alignedLoop];
    (eapply grel_bind; [apply box_rel; [pose proof (H 0%nat _ _ eq_refl eq_refl) as H0; rewrite Nat.add_0_r in H0; exact H0|exact Hb]|]); intros [x1 y1] [x2 y2] [Hx Hy]; cbn [fst snd] in *.
  - split; cbn [fst snd]; [|exact Hy]. apply Forall2_app; [exact Hn|]. apply Forall2_app; [exact Hx|]. apply plain_list. repeat constructor.
  - apply IH; [now injection Hl| |exact Hy|].
    + intros j x y E1 E2. replace (S i + j)%nat with (i + S j)%nat by lia. now apply H.
    + apply Forall2_app; [exact Hn|]. apply Forall2_app; [exact Hx|]. apply plain_list. repeat constructor.
Qed.

(** ** The search *)
Section Search.
Variable ko : kopts A.
Variable wF : F A.
Variable ord : nat -> nat -> list fclass.
Variable nodes1 nodes2 : list node.
Hypothesis Hrel : Forall2 nrel nodes1 nodes2.
Lemma nth_rel l1 l2 i : Forall2 nrel l1 l2 -> match nth_error l1 i, nth_error l2 i with Some a, Some b => nrel a b | None, None => True | _, _ => False end.
Proof. intros H. revert i. induction H as [|a b l1 l2 Hab _ IH]; intros [|i]; cbn [nth_error]; auto. apply IH. Qed.
Lemma skipn_rel l1 l2 i : Forall2 nrel l1 l2 -> Forall2 nrel (skipn i l1) (skipn i l2).
Proof. intros H. revert i. induction H; intros [|i]; cbn [skipn]; auto. Qed.
Lemma firstn_rel l1 l2 i : Forall2 nrel l1 l2 -> Forall2 nrel (firstn i l1) (firstn i l2).
Proof. intros H. revert i. induction H; intros [|i]; cbn [firstn]; auto. Qed.
Lemma sumFrom_rel l1 l2 : Forall2 nrel l1 l2 -> forall b sum, sumFrom A l1 b sum = sumFrom A l2 b sum.
Proof.
  induction 1 as [|a b l1 l2 (E1 & E2 & E3 & E4 & E5 & E6) _ IH]; intros fi sum; [reflexivity|].
  cbn [sumFrom]. unfold isGlue, isBox, isForcedBreak, isPenalty. rewrite E1, E2, E5, !IH. reflexivity.
Qed.
Lemma dem_rel n1 n2 b ratio : nrel n1 n2 -> demeritsAndClass A ko nodes1 b n1 ratio = demeritsAndClass A ko nodes2 b n2 ratio.
Proof.
  intros (E1 & E2 & E3 & E4 & E5 & E6). unfold demeritsAndClass. pose proof (nth_rel _ _ (b_position b) Hrel) as Hr.
  destruct (nth_error nodes1 _) as [m1|], (nth_error nodes2 _) as [m2|]; try contradiction; [|reflexivity].
  destruct Hr as (F1 & F2 & F3 & _). unfold demeritsForRatio, isPenalty. rewrite E1, E2, E3, F1, F3. reflexivity.
Qed.
Lemma inner_rel n1 n2 sum rest : nrel n1 n2 -> forall done cands low,
  inner A ko nodes1 [wF] n1 sum done rest cands low = inner A ko nodes2 [wF] n2 sum done rest cands low.
Proof.
  intros Hn. induction rest as [|b rest IH]; intros done cands low; [reflexivity|]. cbn [inner]. destruct (idealWidth A [wF] (b_line b + 1)) as [ideal|]; [|reflexivity]. cbn [gbind].
  rewrite (dem_rel n1 n2 b _ Hn).
  assert (adjustmentRatio A b n1 sum ideal = adjustmentRatio A b n2 sum ideal) as ->. { destruct Hn as (E1 & _ & _ & _ & E5 & _). unfold adjustmentRatio, isPenalty. now rewrite E1, E5. }
  assert (isForcedBreak n1 = isForcedBreak n2) as ->. { destruct Hn as (E1 & E2 & _). unfold isForcedBreak, isPenalty. now rewrite E1, E2. }
  assert (demeritsAndClass A ko nodes2 b n2 (adjustmentRatio A b n2 sum ideal) = demeritsAndClass A ko nodes2 b n2 (adjustmentRatio A b n2 sum ideal)) as _ by reflexivity.
  match goal with |- gbind ?x _ = _ => destruct x as [[cs lo]|]; [|reflexivity] end. cbn [gbind].
  destruct rest as [|b' rest]; [reflexivity|]. destruct (_ <=? _); [reflexivity|]. apply IH.
Qed.
Lemma outer_rel index n1 n2 sum fuel : nrel n1 n2 -> forall or k done rest low,
  outer A ko fuel or k nodes1 [wF] index n1 sum done rest low = outer A ko fuel or k nodes2 [wF] index n2 sum done rest low.
Proof.
  intros Hn. induction fuel as [|fuel IH]; intros or k done rest low; [reflexivity|]. cbn [outer]. destruct rest as [|b rest]; [reflexivity|].
  rewrite (inner_rel n1 n2 sum (b :: rest) Hn). destruct (inner A ko nodes2 [wF] n2 sum done (b :: rest) _ low) as [[[[d r] cs] lo]|]; [|reflexivity]. cbn [gbind].
  unfold sumFromNode. rewrite (sumFrom_rel _ _ (skipn_rel _ _ index Hrel)). apply IH.
Qed.
Lemma breakLoop_rel l1 l2 : Forall2 nrel l1 l2 -> forall p1 p2 index sum acts,
  match p1, p2 with Some a, Some b => nrel a b | None, None => True | _, _ => False end ->
  breakLoop A ko ord nodes1 [wF] l1 p1 index sum acts = breakLoop A ko ord nodes2 [wF] l2 p2 index sum acts.
Proof.
  induction 1 as [|n1 n2 l1 l2 Hn _ IH]; intros p1 p2 index sum acts Hp; [reflexivity|]. cbn [breakLoop].
  assert (forall acts, mainLoop A ko ord nodes1 [wF] index n1 sum acts = mainLoop A ko ord nodes2 [wF] index n2 sum acts) as Em by (intros; unfold mainLoop; now apply outer_rel).
  rewrite Em. assert (Hn' := Hn). destruct Hn' as (E1 & E2 & E3 & E4 & E5 & E6). rewrite E1, E2, E5.
  assert (match p1 with Some p => if isBox p then mainLoop A ko ord nodes2 [wF] index n2 sum acts else Ret acts | None => Ret acts end =
    match p2 with Some p => if isBox p then mainLoop A ko ord nodes2 [wF] index n2 sum acts else Ret acts | None => Ret acts end) as ->.
  { destruct p1, p2; try contradiction; [|reflexivity]. destruct Hp as (F1 & _). unfold isBox. now rewrite F1. }
  match goal with |- gbind ?x _ = _ => destruct x as [[as' sum']|]; [|reflexivity] end. cbn [gbind]. now apply IH.
Qed.
Lemma findStart_rel l1 l2 : Forall2 nrel l1 l2 -> forall i, findStartNode A l1 i = findStartNode A l2 i.
Proof. induction 1 as [|a b l1 l2 (E1 & E2 & _) _ IH]; intros i; [reflexivity|]. cbn [findStartNode]. now rewrite E1, E2, !IH. Qed.
Lemma breaks_rel : breakPoints A ko ord nodes1 [wF] = breakPoints A ko ord nodes2 [wF].
Proof.
  unfold breakPoints. rewrite (findStart_rel _ _ Hrel).
  erewrite breakLoop_rel; [reflexivity|now apply skipn_rel|]. destruct (findStartNode A nodes2 0) as [|p]; [exact I|]. now apply nth_rel.
Qed.

(** ** The lines *)
Lemma skip_rel l1 l2 : Forall2 nrel l1 l2 -> forall j, skip_loop A l1 j = skip_loop A l2 j.
Proof. induction 1 as [|a b l1 l2 (E1 & E2 & _) _ IH]; intros j; [reflexivity|]. cbn [skip_loop]. unfold isBox, isForcedBreak, isPenalty. now rewrite E1, E2, IH. Qed.
Definition lrel (x y : F A * list node) : Prop := fst x = fst y /\ Forall2 nrel (snd x) (snd y).
Lemma slice_rel l1 l2 a b : Forall2 nrel l1 l2 -> grel (Forall2 nrel) (slice l1 a b) (slice l2 a b).
Proof.
  intros H. unfold slice, zlen. rewrite (Forall2_len _ _ _ H). destruct (_ && _); [|exact I]. cbn [grel]. now apply firstn_rel, skipn_rel.
Qed.
Lemma cut_rel bs : forall st, grel (Forall2 lrel) (cutLines A nodes1 bs st) (cutLines A nodes2 bs st).
Proof.
  induction bs as [|b bs IH]; intros st; cbn [cutLines]; [constructor|]. unfold skipNodes. rewrite (skip_rel _ _ (skipn_rel _ _ st Hrel)).
  eapply grel_bind; [apply slice_rel, Hrel|]. intros x y Hxy. eapply grel_bind; [apply IH|]. intros xs ys Hs. constructor; [|exact Hs]. now split.
Qed.
Variable seqs1 seqs2 : list (list rune).
Variable a1 a2 : state.
Hypothesis Ha : brel a1 a2.
Hypothesis Ha1 : Forall (inSeqs seqs1) a1.
Hypothesis Ha2 : Forall (inSeqs seqs2) a2.
(** the same text, with sequences in it *)
Definition alike (l1 l2 : list rune) : Prop := exists p, decorated seqs1 l1 p /\ decorated seqs2 l2 p.
Lemma alike_app x1 x2 y1 y2 : alike x1 x2 -> alike y1 y2 -> alike (x1 ++ y1) (x2 ++ y2).
Proof. intros (p & P1 & P2) (q & Q1 & Q2). exists (p ++ q). split; now apply dec_app. Qed.
Lemma alike_same l : alike l l. Proof. exists l. split; apply dec_same. Qed.
Lemma line_rel r l1 l2 : Forall2 nrel l1 l2 -> forall it1 it2 w1 w2, alike w1 w2 ->
  grel (fun x y => alike (fst x) (fst y)) (renderLine A o a1 r l1 it1 w1) (renderLine A o a2 r l2 it2 w2).
Proof.
  induction 1 as [|n1 n2 l1 l2 (E1 & E2 & E3 & E4 & E5 & E6) Hl IH]; intros it1 it2 w1 w2 H; cbn [renderLine]; [exact H|]. rewrite E1, E2, E4, E5. destruct (n_type n2).
  - assert (match l1 with [] => true | _ => false end = match l2 with [] => true | _ => false end) as -> by (destruct Hl; reflexivity).
    destruct (_ && _ && _); apply IH; [apply alike_app; [exact H|apply alike_same]|exact H].
  - apply grel_same. intros s. apply IH. apply alike_app; [exact H|apply alike_same].
  - destruct (n_attr n1) as [i|], (n_attr n2) as [j|]; try contradiction; [|apply IH; apply alike_app; [exact H|apply alike_same]].
    destruct E6 as (k & -> & ->). destruct Ha as (m1 & m2 & Em1 & Em2 & Hm).
    assert (nth_error a1 (length s1 + k) = nth_error m1 k) as K1 by (rewrite Em1, nth_error_app2 by lia; f_equal; lia).
    assert (nth_error a2 (length s2 + k) = nth_error m2 k) as K2 by (rewrite Em2, nth_error_app2 by lia; f_equal; lia).
    pose proof K1 as K1'. pose proof K2 as K2'. rewrite K1, K2.
    assert (match nth_error m1 k, nth_error m2 k with Some a, Some b => arel a b | None, None => True | _, _ => False end) as Hk.
    { clear - Hm. revert k. induction Hm; intros [|k]; cbn [nth_error]; auto. apply IHHm. }
    destruct (nth_error m1 k) as [x|], (nth_error m2 k) as [y|]; try contradiction; [|exact I]. apply IH. apply alike_app; [exact H|].
    exists (a_text x). rewrite Forall_forall in Ha1, Ha2. split; [apply dec_render, Ha1; eapply nth_error_In; exact K1'|].
    unfold arel in Hk. rewrite Hk. apply dec_render, Ha2. eapply nth_error_In; exact K2'.
Qed.
Lemma lines_rel l1 l2 : Forall2 lrel l1 l2 -> forall it1 it2, grel (Forall2 alike) (renderLines A o a1 l1 it1) (renderLines A o a2 l2 it2).
Proof.
  induction 1 as [|[r1 x1] [r2 x2] l1 l2 [Er Hx] _ IH]; intros it1 it2; cbn [renderLines]; [constructor|]. cbn [fst snd] in *. rewrite Er.
  eapply grel_bind; [apply line_rel; [exact Hx|]|].
  - exists []. split; apply dec_seqs; apply startOfLine_in; assumption.
  - intros [w1 j1] [w2 j2] Hw. cbn [fst] in Hw. eapply grel_bind; [apply IH|]. intros ls1 ls2 Hls. constructor; [|exact Hls]. apply alike_app; [exact Hw|].
    exists []. split; apply dec_seqs; apply endOfLine_in; assumption.
Qed.
Lemma render_rel bs : grel (Forall2 alike) (render A o a1 nodes1 bs) (render A o a2 nodes2 bs).
Proof. unfold render. eapply grel_bind; [apply cut_rel|]. intros l1 l2 H. now apply lines_rel. Qed.
End Search.
End History.

Definition shownAlike (seqs1 seqs2 : list (list rune)) (x y : go (option (list (list rune)))) : Prop :=
  match x, y with
  | Ret (Some l1), Ret (Some l2) => exists ts, Forall2 (decorated seqs1) l1 ts /\ Forall2 (decorated seqs2) l2 ts
  | Ret None, Ret None => True
  | Panic, Panic => True
  | _, _ => False
  end.
Lemma nodes_kept A u o sp hy attrs seqs tokens spare itemss ns attrs' : Forall (inSeqs seqs) attrs -> readable u tokens spare itemss ->
  leftAlignedNodes A u (mkBreaker o sp hy attrs) tokens spare = Ret (ns, attrs') -> Forall (inSeqs (seqs ++ flat_map formatting itemss)) attrs'.
Proof.
  intros Hp (Hl & _ & Hc) E. set (seqs' := seqs ++ flat_map formatting itemss).
  assert (Forall (inSeqs seqs') attrs) as Hp'. { eapply Forall_impl; [|exact Hp]. intros a. apply inSeqs_incl. intros z Hz. apply in_or_app. now left. }
  unfold leftAlignedNodes in E. cbn [lb_attrs] in E. destruct tokens as [|t ts]; [injection E as _ <-; exact Hp'|]. inversion Hl as [|? items ? its Hl1 Hl2]; subst.
  apply (alignedLoop_kept A u (mkBreaker o sp hy attrs) seqs' spare ts t its items) in E; [exact E|exact Hc|now constructor| |exact Hp']. intros z Hz. apply in_or_app. now right.
Qed.
Lemma Forall2_nth {S T} (R : S -> T -> Prop) l k : Forall2 R l k -> forall i, match nth_error l i, nth_error k i with Some a, Some b => R a b | None, None => True | _, _ => False end.
Proof. induction 1; intros [|i]; cbn [nth_error]; auto. apply IHForall2. Qed.
Lemma Forall2_exists {S T} (R1 R2 : S -> T -> Prop) l k : Forall2 (fun x y => exists p, R1 x p /\ R2 y p) l k -> exists ps, Forall2 R1 l ps /\ Forall2 R2 k ps.
Proof. induction 1 as [|x y l k (p & P1 & P2) _ (ps & IH1 & IH2)]; [exists []; auto|]. exists (p :: ps). auto. Qed.
Theorem history A u o lb1 seqs1 lb2 seqs2 tokens1 tokens2 spare1 spare2 itemss1 itemss2 ord maxWidth :
  reached A u o lb1 seqs1 -> reached A u o lb2 seqs2 -> readable u tokens1 spare1 itemss1 -> readable u tokens2 spare2 itemss2 ->
  map partTexts itemss1 = map partTexts itemss2 \/ (l_punctuator o [] = Ret [] /\ map someTexts itemss1 = map someTexts itemss2) ->
  shownAlike (seqs1 ++ flat_map formatting itemss1) (seqs2 ++ flat_map formatting itemss2)
    (let! x := leftAlignUniform A u ord spare1 lb1 tokens1 maxWidth in Ret (fst x)) (let! x := leftAlignUniform A u ord spare2 lb2 tokens2 maxWidth in Ret (fst x)).
Proof.
  intros R1 R2 T1 T2 E. destruct (reached_ok _ _ _ _ _ R1) as (sp & hy & En & s1 & -> & Hs1). destruct (reached_ok _ _ _ _ _ R2) as (sp2 & hy2 & En2 & s2 & -> & Hs2).
  rewrite En in En2. injection En2 as <- <-.
  assert (forall ns attrs', leftAlignedNodes A u (mkBreaker o sp hy s1) tokens1 spare1 = Ret (ns, attrs') -> Forall (inSeqs (seqs1 ++ flat_map formatting itemss1)) attrs') as K1
    by (intros; eapply nodes_kept; eassumption).
  assert (forall ns attrs', leftAlignedNodes A u (mkBreaker o sp hy s2) tokens2 spare2 = Ret (ns, attrs') -> Forall (inSeqs (seqs2 ++ flat_map formatting itemss2)) attrs') as K2
    by (intros; eapply nodes_kept; eassumption).
  assert (brel s1 s2 s1 s2) as Hb by (exists [], []; rewrite !app_nil_r; auto).
  assert (grel (qrel A s1 s2) (leftAlignedNodes A u (mkBreaker o sp hy s1) tokens1 spare1) (leftAlignedNodes A u (mkBreaker o sp hy s2) tokens2 spare2)) as K.
  { destruct T1 as (L1 & _ & C1), T2 as (L2 & _ & C2).
    assert (length tokens1 = length tokens2) as El. { rewrite (Forall2_len _ _ _ L1), (Forall2_len _ _ _ L2). destruct E as [E|[_ E]]; apply (f_equal (@length _)) in E; now rewrite !map_length in E. }
    assert (forall j x y, nth_error tokens1 j = Some x -> nth_error tokens2 j = Some y -> sameParts A u o x y (spare1 j) (spare2 j)) as Hp.
    { intros j x y E1 E2. pose proof (Forall2_nth _ _ _ L1 j) as N1. pose proof (Forall2_nth _ _ _ L2 j) as N2. rewrite E1 in N1. rewrite E2 in N2.
      destruct (nth_error itemss1 j) as [is1|] eqn:I1; [|contradiction]. destruct (nth_error itemss2 j) as [is2|] eqn:I2; [|contradiction].
      exists is1, is2. split; [exact N1|]. split; [exact N2|]. split; [now apply C1|]. split; [now apply C2|].
      destruct E as [E|[Hp E]]; [left; apply (map_nth_error partTexts) in I1, I2|right; split; [exact Hp|]; apply (map_nth_error someTexts) in I1, I2]; rewrite E in I1; congruence. }
    unfold leftAlignedNodes. cbn [lb_attrs]. destruct tokens1 as [|t1 ts1], tokens2 as [|t2 ts2]; try discriminate El; [split; [constructor|exact Hb]|].
    apply loop_rel; [now injection El|exact Hp|exact Hb|constructor]. }
  unfold leftAlignUniform. cbn [lb_opts lb_spaceWidth lb_hyphenWidth].
  destruct (leftAlignedNodes A u (mkBreaker o sp hy s1) tokens1 spare1) as [[n1 a1]|], (leftAlignedNodes A u (mkBreaker o sp hy s2) tokens2 spare2) as [[n2 a2]|]; try contradiction; [|exact I].
  destruct K as [Kn Ka]. cbn [fst snd gbind] in *. rewrite (breaks_rel A s1 s2 (l_search o) (scale A o maxWidth) ord n1 n2 Kn).
  destruct (breakPoints A (l_search o) ord n2 [scale A o maxWidth]) as [[bs|]|]; cbn [gbind fst shownAlike]; try exact I.
  pose proof (render_rel A o s1 s2 ord n1 n2 Kn _ _ a1 a2 Ka (K1 _ _ eq_refl) (K2 _ _ eq_refl) bs) as G.
  destruct (render A o a1 n1 bs), (render A o a2 n2 bs); try contradiction; [|exact I]. cbn [gbind fst]. now apply Forall2_exists.
Qed.

Theorem history_same A u o lb1 seqs1 lb2 seqs2 tokens spare1 spare2 itemss ord maxWidth :
  reached A u o lb1 seqs1 -> reached A u o lb2 seqs2 -> readable u tokens spare1 itemss -> readable u tokens spare2 itemss ->
  shownAlike (seqs1 ++ flat_map formatting itemss) (seqs2 ++ flat_map formatting itemss)
    (let! x := leftAlignUniform A u ord spare1 lb1 tokens maxWidth in Ret (fst x)) (let! x := leftAlignUniform A u ord spare2 lb2 tokens maxWidth in Ret (fst x)).
Proof. intros. apply (history A u o); auto. Qed.

Theorem history_some A u o lb1 seqs1 lb2 seqs2 tokens1 tokens2 spare1 spare2 itemss1 itemss2 ord maxWidth : l_punctuator o [] = Ret [] ->
  reached A u o lb1 seqs1 -> reached A u o lb2 seqs2 -> readable u tokens1 spare1 itemss1 -> readable u tokens2 spare2 itemss2 ->
  map someTexts itemss1 = map someTexts itemss2 ->
  shownAlike (seqs1 ++ flat_map formatting itemss1) (seqs2 ++ flat_map formatting itemss2)
    (let! x := leftAlignUniform A u ord spare1 lb1 tokens1 maxWidth in Ret (fst x)) (let! x := leftAlignUniform A u ord spare2 lb2 tokens2 maxWidth in Ret (fst x)).
Proof. intros. apply (history A u o); auto. Qed.

(** ** What is kept *)
Definition lossless (f : splitFunc) : Prop := forall w ps, f w = Ret ps -> concat ps = w.
Section Grow.
Variable A : arith.
Variable u : unicode.
Variable lb : breaker A.
Notation o := (lb_opts lb).
Hypothesis Hp : lossless (l_punctuator o).
Hypothesis Hh : lossless (l_hyphenator o).
Variable s : state.
Definition ext (t : list rune) (b : state) : Prop := exists m, b = s ++ m /\ concat (map a_text m) = t.
Definition tinv (t : list rune) (ts : tstate) : Prop := ext t (ts_attrs ts) /\ match ts_current ts with None => True | Some i => (length s <= i)%nat end.
Lemma start_grow st t ts v x : tinv t ts -> startBox A lb st ts v = Ret x -> tinv (t ++ v) (snd x).
Proof.
  intros [(m & E & Em) _]. unfold startBox. destruct (measure A o v); cbn [gbind]; [|discriminate]. intros [= <-]. unfold tsStart. cbn [snd].
  split; cbn [ts_attrs ts_current]; [|rewrite E, app_length; lia]. unfold push. rewrite E. eexists (m ++ [_]). rewrite app_assoc. split; [reflexivity|].
  rewrite map_app, concat_app, Em. cbn. now rewrite app_nil_r.
Qed.
Ltac box H := match goal with |- gbind (startBox A lb ?st ?ts ?v) _ = _ -> _ =>
  let E := fresh "E" in destruct (startBox A lb st ts v) as [[? ?]|] eqn:E; cbn [gbind]; [|discriminate];
  apply (start_grow _ _ _ _ _ H) in E; cbn [snd] in E end.
Lemma part_grow st ps : forall p t ts n x, tinv t ts -> partNodes A lb st ts p ps n = Ret x -> tinv (t ++ p ++ concat ps) (snd x).
Proof.
  induction ps as [|q ps IH]; intros p t ts n x H; cbn [partNodes]; box H.
  - intros [= <-]. cbn [concat snd]. now rewrite app_nil_r.
  - intros E'. apply (IH _ _ _ _ _ E) in E'. cbn [concat]. now rewrite <- !app_assoc in E'.
Qed.
Lemma word_grow st ws : forall t ts n x, tinv t ts -> wordNodes A lb st ts ws n = Ret x -> tinv (t ++ concat ws) (snd x).
Proof.
  induction ws as [|w ws IH]; intros t ts n x H; cbn [wordNodes]; [intros [= <-]; cbn [concat snd]; now rewrite app_nil_r|]. cbn [concat]. rewrite app_assoc. destruct (isHyphen w).
  - box H. intros E'. apply (IH _ _ _ _ E) in E'. exact E'.
  - destruct (l_hyphenator o w) as [hs|] eqn:Ew; cbn [gbind]; [|discriminate]. apply Hh in Ew. destruct hs as [|p ps]; [discriminate|]. cbn [concat] in Ew.
    destruct (partNodes A lb st ts p ps n) as [[n' ts']|] eqn:E; cbn [gbind]; [|discriminate]. apply (part_grow _ _ _ _ _ _ _ H) in E. rewrite Ew in E. now apply IH.
Qed.
Lemma piece_grow st ps : forall t ts n x, tinv t ts -> pieceNodes A u lb st ts ps n = Ret x -> tinv (t ++ concat ps) (snd x).
Proof.
  induction ps as [|p ps IH]; intros t ts n x H; cbn [pieceNodes]; [intros [= <-]; cbn [concat snd]; now rewrite app_nil_r|]. cbn [concat]. rewrite app_assoc.
  destruct (isPunctuation u p); [|destruct (_ || _)]; try (box H; intros E'; apply (IH _ _ _ _ E) in E'; exact E').
  destruct (splitWord_full p) as (ws & Ew & Ec & _). rewrite Ew. cbn [gbind].
  destruct (wordNodes A lb st ts ws n) as [[n' ts']|] eqn:E; cbn [gbind]; [|discriminate]. apply (word_grow _ _ _ _ _ _ H) in E. rewrite Ec in E. now apply IH.
Qed.
Lemma stop_grow e t ts : tinv t ts -> ext t (ts_attrs (tsStop e ts)).
Proof.
  intros [(m & E & Em) Hi]. unfold tsStop. destruct (ts_current ts) as [i|]; [|exists m; auto]. destruct (zlen e =? 0); [exists m; auto|]. cbn [ts_attrs]. rewrite E.
  exists (updAt m (i - length s) (fun a => setStop a e)). split.
  - replace i with (length s + (i - length s))%nat at 1 by lia. generalize (i - length s)%nat as k. intros k. clear. induction s as [|a l IH]; [reflexivity|]. cbn [app length Nat.add updAt]. now rewrite IH.
  - rewrite <- Em. generalize (i - length s)%nat as k. clear. induction m as [|a m IH]; intros [|k]; cbn [updAt map concat]; [reflexivity|reflexivity|reflexivity|]. now rewrite IH.
Qed.
Lemma stripped_grow mem ps : forall t b n x, ext t b -> strippedNodes A u lb mem ps b n = Ret x -> ext (t ++ concat (map (fun p => contents mem (s_text p)) ps)) (snd x).
Proof.
  induction ps as [|p ps IH]; intros t b n x H; cbn [strippedNodes]; [intros [= <-]; cbn [map concat snd]; now rewrite app_nil_r|].
  destruct (l_punctuator o _) as [pieces|] eqn:Ep; cbn [gbind]; [|discriminate]. apply Hp in Ep.
  destruct (pieceNodes A u lb _ _ pieces n) as [[n' ts']|] eqn:E; cbn [gbind]; [|discriminate]. apply (piece_grow _ _ t) in E; [|split; [exact H|exact I]].
  rewrite Ep in E. cbn [snd] in E. intros E'. apply (IH _ _ _ _ (stop_grow _ _ _ E)) in E'. cbn [map concat]. now rewrite app_assoc.
Qed.
Lemma loop_grow spare ts : forall tok items itemss i t b n x,
  (forall j t, nth_error (tok :: ts) j = Some t -> mcap (t ++ spare (i + j)%nat)) -> Forall2 (lexed u) (tok :: ts) (items :: itemss) -> ext t b ->
  alignedLoop A u lb tok ts spare i b n = Ret x -> ext (t ++ concat (map keptText (items :: itemss))) (snd x).
Proof.
  induction ts as [|tok' ts IH]; intros tok items itemss i t b n x Hc Hl Hb; cbn [alignedLoop]; inversion Hl as [|? ? ? ? Hl1 Hl2]; subst;
    unfold boxNodes; destruct (strip_parts u tok (spare i) items) as (ps & -> & Ek & _); try exact Hl1;
    try (specialize (Hc 0%nat tok eq_refl); rewrite Nat.add_0_r in Hc; exact Hc); cbn [gbind];
    (destruct (strippedNodes A u lb _ ps b []) as [[n' b']|] eqn:E; cbn [gbind]; [|discriminate]; apply (stripped_grow _ _ _ _ _ _ Hb) in E; cbn [snd] in E; rewrite Ek in E).
  - inversion Hl2; subst. intros [= <-]. cbn [map concat snd]. now rewrite app_nil_r.
  - inversion Hl2 as [|? items' ? itemss' Hl3 Hl4]; subst. intros E'. apply (IH _ items' itemss' _ _ _ _ _) with (3 := E) in E'; [|intros j t' Hj; replace (S i + j)%nat with (i + S j)%nat by lia; now apply Hc|now constructor].
    cbn [map concat] in *. now rewrite app_assoc.
Qed.
End Grow.
(** The text of the tokens is added to what is kept, and the rest is left as it is *)
Theorem call_grow A u ord spare lb tokens itemss maxWidth res lb' : lossless (l_punctuator (lb_opts lb)) -> lossless (l_hyphenator (lb_opts lb)) ->
  readable u tokens spare itemss -> leftAlignUniform A u ord spare lb tokens maxWidth = Ret (res, lb') ->
  lb_opts lb' = lb_opts lb /\ exists more, lb_attrs lb' = lb_attrs lb ++ more /\ concat (map a_text more) = concat (map keptText itemss).
Proof.
  intros Hp Hh (Hl & _ & Hc) E. unfold leftAlignUniform in E. destruct (leftAlignedNodes A u lb tokens spare) as [[ns b]|] eqn:En; cbn [gbind] in E; [|discriminate].
  assert (lb' = mkBreaker (lb_opts lb) (lb_spaceWidth lb) (lb_hyphenWidth lb) b) as ->.
  { destruct (breakPoints A _ ord ns _) as [[bs|]|]; cbn [gbind] in E; try discriminate; [|now injection E]. destruct (render A _ b ns bs); cbn [gbind] in E; [|discriminate]. now injection E. }
  split; [reflexivity|]. cbn [lb_attrs]. unfold leftAlignedNodes in En. destruct tokens as [|t ts].
  - injection En as _ <-. inversion Hl; subst. exists []. now rewrite app_nil_r.
  - inversion Hl as [|? items ? its Hl1 Hl2]; subst. apply (loop_grow A u lb Hp Hh (lb_attrs lb) spare ts t items its 0 []) in En; [|exact Hc|now constructor|exists []; now rewrite app_nil_r]. exact En.
Qed.
(** What was given to a line breaker since New, without formatting. *)
Inductive said (A : arith) (u : unicode) (o : lopts A) : breaker A -> list rune -> Prop :=
| sa_new : forall lb, newBreaker A o = Ret lb -> said A u o lb []
| sa_call : forall lb t ord tokens itemss spare maxWidth res lb', said A u o lb t -> readable u tokens spare itemss ->
    leftAlignUniform A u ord spare lb tokens maxWidth = Ret (res, lb') -> said A u o lb' (t ++ concat (map keptText itemss)).
Theorem said_kept A u o lb t : lossless (l_punctuator o) -> lossless (l_hyphenator o) -> said A u o lb t -> concat (map a_text (lb_attrs lb)) = t.
Proof.
  intros Hp Hh H. enough (lb_opts lb = o /\ concat (map a_text (lb_attrs lb)) = t) by tauto.
  induction H as [lb E|lb t ord tokens itemss spare maxWidth res lb' H [IH1 IH2] Hr E].
  - unfold newBreaker in E. destruct (measure A o [32]); cbn [gbind] in E; [|discriminate].
    destruct (if l_wordBreak o then measure A o [45] else Ret (fZ A 0)); cbn [gbind] in E; [|discriminate]. injection E as <-. split; reflexivity.
  - apply (call_grow A u ord spare lb tokens itemss) in E; [|now rewrite IH1|now rewrite IH1|exact Hr]. destruct E as (E1 & more & E2 & E3). split; [congruence|].
    now rewrite E2, map_app, concat_app, E3, IH2.
Qed.
(** The word breakers of the options keep the words *)
Definition losslessOption {A} (opt : lbOption A) : Prop :=
  match opt with WithHyphenator (Some f) | WithPunctuator (Some f) => lossless f | _ => True end.
Lemma lossless_punctuator u : lossless (defaultPunctuator u).
Proof. intros w ps E. destruct (punctuator_full u w) as (ps' & E' & H & _). unfold defaultPunctuator in E. rewrite E' in E. now injection E as <-. Qed.
Lemma lossless_hyphenator u : lossless (defaultHyphenator u).
Proof. intros w ps E. destruct (breakWord_lossless u (loadFile u (defaultName usName) us_file) (mkHopts 4 2 2) w ltac:(cbn; lia)) as (ps' & E' & _ & H & _). unfold defaultHyphenator in E. rewrite E' in E. now injection E as <-. Qed.
Lemma lossless_options A h p opts : lossless h -> lossless p -> Forall losslessOption opts ->
  lossless (l_hyphenator (withOptions A h p opts)) /\ lossless (l_punctuator (withOptions A h p opts)).
Proof.
  intros Hh Hp H. unfold withOptions. set (o := defaultLopts A h p). assert (lossless (l_hyphenator o) /\ lossless (l_punctuator o)) as K by (split; assumption).
  clearbody o. revert o K. induction H as [|opt opts Ho _ IH]; intros o K; [exact K|]. cbn [fold_left]. apply IH.
  destruct o as [[tol bad li fl fi] ms sc wb rh hp hh pp hf pf mi gl]. destruct opt as [| | | |[f|]|[f|]| | |]; cbn [applyOption l_hyphenator l_punctuator losslessOption] in *; tauto.
Qed.
Theorem options_kept A u opts : Forall losslessOption opts ->
  let o := withOptions A (defaultHyphenator u) (defaultPunctuator u) opts in
  forall lb t, said A u o lb t -> concat (map a_text (lb_attrs lb)) = t.
Proof.
  intros H o lb t Hs. destruct (lossless_options A _ _ opts (lossless_hyphenator u) (lossless_punctuator u) H) as [K1 K2]. eapply said_kept; eassumption.
Qed.
