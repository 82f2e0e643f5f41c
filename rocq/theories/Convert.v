(** Two platforms that differ only in int(x): the nodes and the breaks are the same, so that only the blanks may differ. *)
From Flocq Require Import BinarySingleNaN.
From Verif Require Import Base Arith ArithB64 Unicode Split Ansi Attr KP Nodes Render Options Platform Total.
Open Scope Z_scope.

(** [A] with another conversion to int *)
Definition withInt (A : arith) (conv : F A -> Z) : arith := {|
  F := F A; fZ := fZ A; fHalf := fHalf A; fMinusHalf := fMinusHalf A; fTolerance := fTolerance A; fMax := fMax A;
  fadd := fadd A; fsub := fsub A; fmul := fmul A; fdiv := fdiv A; fopp := fopp A; fabs := fabs A; fpow := fpow A; fround := fround A;
  flt := flt A; fle := fle A; feq := feq A; fint := conv |}.

Section Convert.
Variable A : arith.
Variable conv : F A -> Z.
Notation A' := (withInt A conv).
Definition cs (s : sums A) : sums A' := @mkSums A' (su_width s) (su_stretch s) (su_shrink s).
Definition cn (n : node A) : node A' := @mkNode A' (n_type n) (n_penalty n) (n_flagged n) (n_value n) (n_attr n) (cs (n_sums n)).
Fixpoint cb (b : bpoint A) : bpoint A' :=
  match b with mkBP po li cl de to ra pr => @mkBP A' po li cl de (cs to) ra (match pr with Some q => Some (cb q) | None => None end) end.
Definition ck (k : kopts A) : kopts A' := @mkKopts A' (k_tolerance k) (k_badness k) (k_line k) (k_flagged k) (k_fitness k).
Definition co (o : lopts A) : lopts A' :=
  @mkLopts A' (ck (l_search o)) (l_measurer o) (l_scale o) (l_wordBreak o) (l_renderHyphens o) (l_hyphenPenalty o) (l_hardHyphenPenalty o) (l_punctuationPenalty o)
    (l_hyphenator o) (l_punctuator o) (l_minHyphenate o) (l_glueStretch o).
Definition clb (lb : breaker A) : breaker A' := @mkBreaker A' (co (lb_opts lb)) (lb_spaceWidth lb) (lb_hyphenWidth lb) (lb_attrs lb).
Definition gmap {S T} (f : S -> T) (x : go S) : go T := match x with Ret y => Ret (f y) | Panic => Panic end.
Lemma gmap_bind {S T V} (f : T -> V) (x : go S) (k : S -> go T) : gmap f (let! y := x in k y) = let! y := x in gmap f (k y).
Proof. now destruct x. Qed.
Lemma bind_gmap {S T V} (f : S -> T) (x : go S) (k : T -> go V) : (let! y := gmap f x in k y) = let! y := x in k (f y).
Proof. now destruct x. Qed.
Lemma gbind_ext {S T} (x : go S) (k k' : S -> go T) : (forall y, k y = k' y) -> (let! y := x in k y) = let! y := x in k' y.
Proof. intros H. destruct x; [apply H|reflexivity]. Qed.

(** ** The nodes *)
Section Build.
Variable u : unicode.
Variable lb : breaker A.
Definition c1 (x : list (node A) * tstate) : list (node A') * tstate := (map cn (fst x), snd x).
Definition c2 (x : list (node A) * state) : list (node A') * state := (map cn (fst x), snd x).
Lemma start_conv st ts v : startBox A' (clb lb) st ts v = gmap (fun x => (cn (fst x), snd x)) (startBox A lb st ts v).
Proof. unfold startBox, measure. cbn [clb lb_opts co l_measurer]. destruct (l_measurer (lb_opts lb) v); reflexivity. Qed.
Lemma mark_conv bx p : markNodes A' (clb lb) (cn bx) p = map cn (markNodes A lb bx p). Proof. reflexivity. Qed.
Lemma hyphen_conv : pushHyphen A' (clb lb) = map cn (pushHyphen A lb).
Proof. unfold pushHyphen. cbn [clb lb_opts co l_renderHyphens]. destruct (l_renderHyphens (lb_opts lb)); reflexivity. Qed.
Ltac box := rewrite start_conv, bind_gmap, gmap_bind; apply gbind_ext; intros [bx ts']; cbn [fst snd].
Lemma part_conv st ps : forall p ts n, partNodes A' (clb lb) st ts p ps (map cn n) = gmap c1 (partNodes A lb st ts p ps n).
Proof.
  induction ps as [|q ps IH]; intros p ts n; cbn [partNodes]; box.
  - cbn [gmap]. unfold c1. cbn [fst snd]. now rewrite map_app.
  - rewrite hyphen_conv, <- IH, !map_app. reflexivity.
Qed.
Lemma word_conv st ws : forall ts n, wordNodes A' (clb lb) st ts ws (map cn n) = gmap c1 (wordNodes A lb st ts ws n).
Proof.
  induction ws as [|w ws IH]; intros ts n; cbn [wordNodes]; [reflexivity|]. destruct (isHyphen w).
  - box. rewrite <- IH, map_app, <- mark_conv. reflexivity.
  - rewrite gmap_bind. apply gbind_ext. intros [|p ps]; [reflexivity|]. rewrite part_conv, bind_gmap, gmap_bind. apply gbind_ext. intros [n' ts']. apply IH.
Qed.
Lemma piece_conv st ps : forall ts n, pieceNodes A' u (clb lb) st ts ps (map cn n) = gmap c1 (pieceNodes A u lb st ts ps n).
Proof.
  induction ps as [|p ps IH]; intros ts n; cbn [pieceNodes]; [reflexivity|]. cbn [clb lb_opts co l_wordBreak l_minHyphenate l_punctuationPenalty]. fold (clb lb).
  destruct (isPunctuation u p); [|destruct (_ || _)].
  - box. rewrite <- IH, map_app, <- mark_conv. reflexivity.
  - box. rewrite <- IH, map_app. reflexivity.
  - rewrite gmap_bind. apply gbind_ext. intros words. rewrite word_conv, bind_gmap, gmap_bind. apply gbind_ext. intros [n' ts']. apply IH.
Qed.
Lemma stripped_conv mem ps : forall b n, strippedNodes A' u (clb lb) mem ps b (map cn n) = gmap c2 (strippedNodes A u lb mem ps b n).
Proof.
  induction ps as [|p ps IH]; intros b n; cbn [strippedNodes]; [reflexivity|]. rewrite gmap_bind. apply gbind_ext. intros pieces.
  rewrite piece_conv, bind_gmap, gmap_bind. apply gbind_ext. intros [n' ts']. apply IH.
Qed.
Lemma box_conv tok spare b : boxNodes A' u (clb lb) tok spare b = gmap c2 (boxNodes A u lb tok spare b).
Proof. unfold boxNodes. rewrite gmap_bind. apply gbind_ext. intros [mem ps]. apply (stripped_conv mem ps b []). Qed.
Lemma loop_conv spare ts : forall tok i b n, alignedLoop A' u (clb lb) tok ts spare i b (map cn n) = gmap c2 (alignedLoop A u lb tok ts spare i b n).
Proof.
  induction ts as [|tok' ts IH]; intros tok i b n; cbn [alignedLoop]; rewrite box_conv, bind_gmap, gmap_bind; apply gbind_ext; intros [n1 b1]; cbn [c2 fst snd].
  - cbn [gmap]. unfold c2. cbn [fst snd]. now rewrite !map_app.
  - rewrite <- IH, !map_app. reflexivity.
Qed.
Lemma nodes_conv tokens spare : leftAlignedNodes A' u (clb lb) tokens spare = gmap c2 (leftAlignedNodes A u lb tokens spare).
Proof. destruct tokens as [|t ts]; [reflexivity|]. apply (loop_conv spare ts t 0 (lb_attrs lb) []). Qed.
End Build.

(** ** The search *)
Section Search.
Variable ko : kopts A.
Variable ord : nat -> nat -> list fclass.
Variable nodes : list (node A).
Variable widths : list (F A).
Notation nodes' := (map cn nodes).
Lemma sum_conv l : forall fi s, sumFrom A' (map cn l) fi (cs s) = cs (sumFrom A l fi s).
Proof.
  induction l as [|n l IH]; intros fi s; cbn [map sumFrom]; [reflexivity|]. change (isGlue (cn n)) with (isGlue n). change (isBox (cn n)) with (isBox n).
  change (isForcedBreak (cn n)) with (isForcedBreak n). destruct (isGlue n); [apply (IH false (sumsAdd A s (n_sums n)))|]. destruct (isBox n || _); [reflexivity|apply IH].
Qed.
Lemma adjust_conv b nd s w : adjustmentRatio A' (cb b) (cn nd) (cs s) w = adjustmentRatio A b nd s w.
Proof. destruct b; reflexivity. Qed.
Lemma cb_position b : b_position (cb b) = b_position b. Proof. now destruct b. Qed.
Lemma cb_line b : b_line (cb b) = b_line b. Proof. now destruct b. Qed.
Lemma cb_demerits b : b_demerits (cb b) = b_demerits b. Proof. now destruct b. Qed.
Lemma cb_ratio b : b_ratio (cb b) = b_ratio b. Proof. now destruct b. Qed.
Lemma dem_conv b nd r : demeritsAndClass A' (ck ko) nodes' (cb b) (cn nd) r = demeritsAndClass A ko nodes b nd r.
Proof.
  unfold demeritsAndClass. rewrite cb_position, nth_error_map. destruct (nth_error nodes (b_position b)) as [p|]; [|reflexivity]. destruct b; reflexivity.
Qed.
Definition srel (x : go (list (bpoint A') * list (bpoint A') * candidates A' * F A)) (y : go (list (bpoint A) * list (bpoint A) * candidates A * F A)) : Prop :=
  match x, y with
  | Ret (d', r', c', l'), Ret (d, r, c, l) => d' = map cb d /\ r' = map cb r /\ (forall k, c' k = cb (c k)) /\ l' = l
  | Panic, Panic => True
  | _, _ => False
  end.
Lemma inner_conv nd s rest : forall done cands' cands low, (forall k, cands' k = cb (cands k)) ->
  srel (inner A' (ck ko) nodes' widths (cn nd) (cs s) (map cb done) (map cb rest) cands' low) (inner A ko nodes widths nd s done rest cands low).
Proof.
  induction rest as [|b rest IH]; intros done cands' cands low Hc; cbn [map inner]; [cbn [srel]; auto|]. rewrite cb_line.
  change (idealWidth A' widths (b_line b + 1)) with (idealWidth A widths (b_line b + 1)). destruct (idealWidth A widths (b_line b + 1)) as [w|]; cbn [gbind]; [|exact I].
  rewrite adjust_conv, dem_conv. set (r := adjustmentRatio A b nd s w).
  change (flt A' r (fZ A' (-1)) || isForcedBreak (cn nd)) with (flt A r (fZ A (-1)) || isForcedBreak nd).
  set (done' := if flt A r (fZ A (-1)) || isForcedBreak nd then done else done ++ [b]).
  replace (if flt A r (fZ A (-1)) || isForcedBreak nd then map cb done else map cb done ++ [cb b]) with (map cb done') by (unfold done'; destruct (_ || _); [reflexivity|now rewrite map_app]).
  change (fle A' (fZ A' (-1)) r && fle A' r (k_tolerance (ck ko))) with (fle A (fZ A (-1)) r && fle A r (k_tolerance ko)).
  match goal with |- srel (gbind ?y' _) (gbind ?y _) => set (x' := y'); set (x := y) end.
  assert (match x', x with Ret (c', l'), Ret (c, l) => (forall k, c' k = cb (c k)) /\ l' = l | Panic, Panic => True | _, _ => False end) as H.
  { unfold x, x'. destruct (_ && _); [|auto]. destruct (demeritsAndClass A ko nodes b nd r) as [[d cl]|]; cbn [gbind]; [|exact I]. rewrite Hc, cb_demerits.
    change (flt A' d (b_demerits (cands cl))) with (flt A d (b_demerits (cands cl))). split; [|reflexivity]. intros k. destruct (flt A d _); [|apply Hc]. unfold setCandidate. destruct (sameClass k cl); [reflexivity|apply Hc]. }
  destruct x' as [[c' l']|], x as [[c l]|]; try contradiction; [|exact I]. destruct H as [H1 ->]. cbn [gbind].
  destruct rest as [|b' rest]; [cbn [map srel]; auto|]. destruct (b_line b + 1 <=? b_line b); [cbn [map srel]; auto|]. apply IH. exact H1.
Qed.
Lemma insert_conv index s low cands' cands order : (forall k, cands' k = cb (cands k)) -> forall done rest,
  insertNew A' (ck ko) (map cb done) (map cb rest) index (cs s) low cands' order = map cb (insertNew A ko done rest index s low cands order).
Proof.
  intros Hc. induction order as [|c order IH]; intros done rest; cbn [insertNew]; [reflexivity|]. rewrite Hc, cb_demerits, cb_line, cb_ratio.
  change (fle A' (fMax A') (b_demerits (cands c)) || flt A' (fadd A' low (k_fitness (ck ko))) (b_demerits (cands c))) with (fle A (fMax A) (b_demerits (cands c)) || flt A (fadd A low (k_fitness ko)) (b_demerits (cands c))).
  destruct (_ || _); [apply IH|]. destruct rest as [|b rest]; cbn [map]; [|now rewrite map_app]. rewrite <- (IH (done ++ [_]) []), map_app. reflexivity.
Qed.
Lemma outer_conv or index nd s fuel : forall k done rest low,
  outer A' (ck ko) fuel or k nodes' widths index (cn nd) (cs s) (map cb done) (map cb rest) low = gmap (map cb) (outer A ko fuel or k nodes widths index nd s done rest low).
Proof.
  induction fuel as [|fuel IH]; intros k done rest low; destruct rest as [|b rest]; cbn [map outer]; try reflexivity.
  pose proof (inner_conv nd s (b :: rest) done (defaultCandidates A') (defaultCandidates A) low (fun _ => eq_refl)) as H. cbn [map] in H.
  destruct (inner A' _ _ _ _ _ _ _ _ _) as [[[[d' r'] c'] l']|], (inner A ko nodes widths nd s done (b :: rest) (defaultCandidates A) low) as [[[[d r] c] l]|]; try contradiction; [|reflexivity].
  destruct H as (-> & -> & Hc & ->). cbn [gbind].
  unfold sumFromNode. rewrite skipn_map, sum_conv. change (flt A' l (fMax A')) with (flt A l (fMax A)).
  rewrite <- IH. destruct (flt A l (fMax A)); [|reflexivity]. now rewrite (insert_conv index _ l c' c).
Qed.
Lemma main_conv index nd s acts : mainLoop A' (ck ko) ord nodes' widths index (cn nd) (cs s) (map cb acts) = gmap (map cb) (mainLoop A ko ord nodes widths index nd s acts).
Proof. unfold mainLoop. rewrite map_length. apply (outer_conv (ord index) index nd s (length acts) 0 [] acts). Qed.
Lemma break_conv rest : forall prev index s acts,
  breakLoop A' (ck ko) ord nodes' widths (map cn rest) (option_map cn prev) index (cs s) (map cb acts) = gmap (map cb) (breakLoop A ko ord nodes widths rest prev index s acts).
Proof.
  induction rest as [|nd rest IH]; intros prev index s acts; cbn [map breakLoop]; [reflexivity|]. change (n_type (cn nd)) with (n_type nd).
  rewrite main_conv. destruct (n_type nd).
  - change (feq A' (n_penalty (cn nd)) (infinity A')) with (feq A (n_penalty nd) (infinity A)). destruct (negb _).
    + destruct (mainLoop A ko ord nodes widths index nd s acts) as [a|]; cbn [gmap gbind]; [apply (IH (Some nd))|reflexivity].
    + cbn [gbind]. apply (IH (Some nd)).
  - destruct prev as [p|]; cbn [option_map]; [change (isBox (cn p)) with (isBox p); destruct (isBox p)|].
    + destruct (mainLoop A ko ord nodes widths index nd s acts) as [a|]; cbn [gmap gbind]; [apply (IH (Some nd) (S index) (sumsAdd A s (n_sums nd)))|reflexivity].
    + cbn [gbind]. apply (IH (Some nd) (S index) (sumsAdd A s (n_sums nd))).
    + cbn [gbind]. apply (IH (Some nd) (S index) (sumsAdd A s (n_sums nd))).
  - cbn [gbind]. apply (IH (Some nd) (S index) (mkSums (fadd A (su_width s) (su_width (n_sums nd))) (su_stretch s) (su_shrink s))).
Qed.
Lemma start_node l : forall i, findStartNode A' (map cn l) i = findStartNode A l i.
Proof. induction l as [|n l IH]; intros i; cbn [map findStartNode]; [reflexivity|]. change (n_type (cn n)) with (n_type n). destruct (n_type n); auto.
  change (feq A' (n_penalty (cn n)) (minusInfinity A')) with (feq A (n_penalty n) (minusInfinity A)). destruct (feq A _ _); auto. Qed.
Fixpoint chain_conv (b : bpoint A) : forall acc, chainOf A' (cb b) (map cb acc) = map cb (chainOf A b acc).
Proof. intros acc. destruct b as [po li cl de to ra [q|]]; [|reflexivity]. exact (chain_conv q (mkBP po li cl de to ra (Some q) :: acc)). Qed.
Lemma best_conv acts : findBestBreak A' (map cb acts) = cb (findBestBreak A acts).
Proof.
  unfold findBestBreak. change (@mkBP A' 0 0 C0 (fMax A') (noSums A') (fZ A' 0) None) with (cb (mkBP 0 0 C0 (fMax A) (noSums A) (fZ A 0) None)).
  generalize (mkBP 0 0 C0 (fMax A) (noSums A) (fZ A 0) None) as b0. induction acts as [|a acts IH]; intros b0; cbn [map fold_left]; [reflexivity|]. rewrite <- IH. f_equal.
  rewrite !cb_demerits. change (flt A' (b_demerits a) (b_demerits b0)) with (flt A (b_demerits a) (b_demerits b0)). now destruct (flt A _ _).
Qed.
Lemma points_conv : breakPoints A' (ck ko) ord nodes' widths = gmap (option_map (map cb)) (breakPoints A ko ord nodes widths).
Proof.
  unfold breakPoints. rewrite start_node, skipn_map. set (start := findStartNode A nodes 0).
  replace (match start with O => None | S p => nth_error nodes' p end) with (option_map cn (match start with O => None | S p => nth_error nodes p end)) by (destruct start; [reflexivity|now rewrite nth_error_map]).
  change [firstActive A'] with (map cb [firstActive A]). change (noSums A') with (cs (noSums A)). rewrite break_conv, bind_gmap, gmap_bind. apply gbind_ext.
  intros [|b acts]; [reflexivity|]. cbn [map]. change (cb b :: map cb acts) with (map cb (b :: acts)). rewrite best_conv. cbn [gmap]. f_equal. unfold reverseBreakPoints.
  set (x := findBestBreak A (b :: acts)). pose proof (chain_conv x []) as E. destruct x as [po li cl de to ra [q|]]; [|reflexivity]. cbn [cb b_previous option_map]. f_equal. exact E.
Qed.
End Search.

(** ** Writing the lines *)
Section Lines.
Variable o : lopts A.
Variable attrs : state.
Definition ratios (x : F A * list (node A)) : F A' * list (node A') := (fst x, map cn (snd x)).
Lemma skip_conv l : forall i, skip_loop A' (map cn l) i = skip_loop A l i.
Proof. induction l as [|n l IH]; intros i; cbn [map skip_loop]; [reflexivity|]. change (isBox (cn n) || isForcedBreak (cn n)) with (isBox n || isForcedBreak n). destruct (_ || _); auto. Qed.
Lemma cut_conv nodes bs : forall lo, cutLines A' (map cn nodes) (map cb bs) lo = gmap (map ratios) (cutLines A nodes bs lo).
Proof.
  induction bs as [|b bs IH]; intros lo; cbn [map cutLines]; [reflexivity|]. unfold skipNodes. rewrite skipn_map, skip_conv, cb_position, cb_ratio, IH. fold (skipNodes A lo nodes).
  unfold slice, zlen. rewrite map_length. destruct (_ && _); cbn [gbind gmap]; [|reflexivity]. rewrite bind_gmap, gmap_bind. apply gbind_ext. intros ls. cbn [gmap map ratios fst snd].
  now rewrite skipn_map, firstn_map.
Qed.
(** the blanks are the same *)
Definition glueOk (r : F A) (n : node A) : Prop := n_type n = TGlue ->
  let x := downScale A o (fadd A (su_width (n_sums n)) (fmul A r (if flt A r (fZ A 0) then su_shrink (n_sums n) else su_stretch (n_sums n)))) in conv x = fint A x.
Lemma line_conv r l : Forall (glueOk r) l -> forall it w, renderLine A' (co o) attrs r (map cn l) it w = renderLine A o attrs r l it w.
Proof.
  induction 1 as [|n l Hn _ IH]; intros it w; cbn [map renderLine]; [reflexivity|]. change (n_type (cn n)) with (n_type n). unfold glueOk in Hn. destruct (n_type n).
  - change (l_renderHyphens (co o) && feq A' (n_penalty (cn n)) (l_hyphenPenalty (co o))) with (l_renderHyphens o && feq A (n_penalty n) (l_hyphenPenalty o)).
    replace (match map cn l with [] => true | _ => false end) with (match l with [] => true | _ => false end) by now destruct l. destruct (_ && _); apply IH.
  - specialize (Hn eq_refl). cbn zeta in Hn. match goal with |- gbind (repeatSpaces ?x) _ = gbind (repeatSpaces ?y) _ => replace x with y by (symmetry; exact Hn) end.
    apply gbind_ext. intros s. apply IH.
  - change (n_attr (cn n)) with (n_attr n). destruct (n_attr n) as [i|]; [|apply IH]. destruct (nth_error attrs i); [apply IH|reflexivity].
Qed.
Lemma lines_conv ls : Forall (fun x => Forall (glueOk (fst x)) (snd x)) ls -> forall it, renderLines A' (co o) attrs (map ratios ls) it = renderLines A o attrs ls it.
Proof.
  induction 1 as [|[r ns] ls Hn _ IH]; intros it; cbn [map renderLines]; [reflexivity|]. cbn [ratios fst snd] in *. rewrite (line_conv r ns Hn). apply gbind_ext. intros [w it']. now rewrite IH.
Qed.
End Lines.
Definition sameBlanks (lb : breaker A) : Prop := forall x, blank A lb x -> conv (downScale A (lb_opts lb) x) = fint A (downScale A (lb_opts lb) x).
Theorem call_conv u ord spare lb tokens w : sameBlanks lb ->
  leftAlignUniform A' u ord spare (clb lb) tokens w = gmap (fun x => (fst x, clb (snd x))) (leftAlignUniform A u ord spare lb tokens w).
Proof.
  intros Hs. unfold leftAlignUniform. rewrite nodes_conv, bind_gmap, gmap_bind.
  destruct (leftAlignedNodes A u lb tokens spare) as [[nodes attrs]|] eqn:En; cbn [gbind]; [|reflexivity]. cbn [c2 fst snd].
  destruct (search_total A (l_search (lb_opts lb)) ord nodes [scale A (lb_opts lb) w] ltac:(discriminate)) as (res & Es & Hb). specialize (Es 0%nat). rewrite pointsWith_0 in Es.
  change (l_search (lb_opts (clb lb))) with (ck (l_search (lb_opts lb))). change [scale A' (lb_opts (clb lb)) w] with [scale A (lb_opts lb) w]. rewrite points_conv, Es. cbn [gmap gbind].
  destruct res as [bs|]; [|reflexivity]. cbn [option_map]. destruct (Hb bs eq_refl) as [Hok _].
  assert (render A' (lb_opts (clb lb)) attrs (map cn nodes) (map cb bs) = render A (lb_opts lb) attrs nodes bs) as ->.
  { unfold render. rewrite cut_conv, bind_gmap. destruct (cutLines A nodes bs 0) as [ls|] eqn:Ec; [|reflexivity]. cbn [gbind]. apply lines_conv.
    pose proof (cut_known A lb attrs nodes bs (build_known A u lb _ _ _ _ En) ltac:(revert Hok; apply Forall_impl; now intros b (_ & _ & _ & H)) _ _ Ec) as K. revert K. apply Forall_impl.
    intros [r ns] [Hr Hn]. cbn [fst snd] in *. subst r. revert Hn. apply Forall_impl. intros n Hn Ht. apply Hs. unfold known in Hn. rewrite Ht in Hn. destruct Hn as (H1 & H2 & H3).
    eexists _, _. split; [exact H1|]. split; [|reflexivity]. destruct (flt A (fZ A 0) (fZ A 0)); [left; exact H2|right; exact H3]. }
  destruct (render A (lb_opts lb) attrs nodes bs); reflexivity.
Qed.

(** the same options *)
Definition copt (opt : lbOption A) : lbOption A' :=
  match opt with
  | WithTolerance t => @WithTolerance A' t | WithScaleFactor x => @WithScaleFactor A' x | WithWordBreak b => WithWordBreak b
  | WithMeasurer f => @WithMeasurer A' f | WithHyphenator f => WithHyphenator f | WithPunctuator f => WithPunctuator f
  | WithHyphenPenalty p => @WithHyphenPenalty A' p | WithRenderHyphens b => WithRenderHyphens b | WithLooseness q => WithLooseness q
  end.
Lemma options_conv h p opts : withOptions A' h p (map copt opts) = co (withOptions A h p opts).
Proof.
  unfold withOptions. change (defaultLopts A' h p) with (co (defaultLopts A h p)). generalize (defaultLopts A h p) as o. induction opts as [|opt opts IH]; intros o; cbn [map fold_left]; [reflexivity|].
  rewrite <- IH. f_equal. destruct o as [[tol bad li fl fi] ms sc wb rh hp hh pp hf pf mi gl], opt; reflexivity.
Qed.
Lemma new_conv u opts : newLineBreaker A' u (map copt opts) = gmap clb (newLineBreaker A u opts).
Proof.
  unfold newLineBreaker. rewrite options_conv. generalize (withOptions A (defaultHyphenator u) (defaultPunctuator u) opts) as o. intros o. unfold newBreaker, measure. cbn [co l_measurer l_wordBreak].
  destruct (l_measurer o [32]); cbn [gbind]; [|reflexivity]. destruct (l_wordBreak o); cbn [gbind]; [|reflexivity]. destruct (l_measurer o [45]); reflexivity.
Qed.
End Convert.

(** [setAll lb calls]: the results of calls on the same line breaker, up to a panic *)
Fixpoint setAll (A : arith) (u : unicode) (lb : breaker A) (calls : list ((nat -> nat -> list fclass) * (nat -> list rune) * list (list rune) * F A)) : list (go (option (list (list rune)))) :=
  match calls with
  | [] => []
  | (ord, spare, tokens, w) :: calls' =>
      match leftAlignUniform A u ord spare lb tokens w with Ret (res, lb') => Ret res :: setAll A u lb' calls' | Panic => [Panic] end
  end.
Theorem all_conv A conv u calls : forall lb, sameBlanks A conv lb -> setAll (withInt A conv) u (clb A conv lb) calls = setAll A u lb calls.
Proof.
  induction calls as [|[[[ord spare] tokens] w] calls IH]; intros lb Hs; cbn [setAll]; [reflexivity|]. rewrite (call_conv A conv u ord spare lb tokens w Hs).
  assert (forall res lb', leftAlignUniform A u ord spare lb tokens w = Ret (res, lb') -> sameBlanks A conv lb') as K.
  { intros res lb' E. unfold leftAlignUniform in E. destruct (leftAlignedNodes A u lb tokens spare) as [[nodes attrs]|]; cbn [gbind] in E; [|discriminate].
    destruct (breakPoints A _ ord nodes _) as [[bs|]|]; cbn [gbind] in E; [destruct (render _ _ _ _ _) as [ls|]; cbn [gbind] in E; [|discriminate]| |discriminate]; injection E as _ <-; exact Hs. }
  destruct (leftAlignUniform A u ord spare lb tokens w) as [[res lb']|]; cbn [gmap]; [|reflexivity]. cbn [fst snd]. f_equal. apply IH. now apply (K res).
Qed.

(** binary64: the blanks fit *)
Definition blankWidths {A} (lb : breaker A) : list (F A) :=
  flat_map (fun w => map (fun s => downScale A (lb_opts lb) (fadd A w (fmul A (fZ A 0) s)))
    [fZ A 0; l_glueStretch (lb_opts lb); fopp A (l_glueStretch (lb_opts lb)); infinity A]) [fZ A 0; lb_spaceWidth lb].
Definition blanksFit {c pow} (lb : breaker (b64on c pow)) : bool := forallb fits64 (blankWidths lb).
Definition platform {c1 pow} c2 (opts : list (lbOption (b64on c1 pow))) : list (lbOption (b64on c2 pow)) := map (copt (b64on c1 pow) (fint (b64on c2 pow))) opts.
Theorem platforms_all c1 c2 pow u (opts : list (lbOption (b64on c1 pow))) lb1 : newLineBreaker (b64on c1 pow) u opts = Ret lb1 -> blanksFit lb1 = true ->
  exists lb2, newLineBreaker (b64on c2 pow) u (platform c2 opts) = Ret lb2 /\ forall calls, setAll (b64on c2 pow) u lb2 calls = setAll (b64on c1 pow) u lb1 calls.
Proof.
  intros E Hb. exists (clb (b64on c1 pow) (fint (b64on c2 pow)) lb1). split.
  - pose proof (new_conv (b64on c1 pow) (fint (b64on c2 pow)) u opts) as H. rewrite E in H. exact H.
  - intros calls. apply (all_conv (b64on c1 pow) (fint (b64on c2 pow)) u calls lb1). intros x (w & s & Hw & Hs & ->).
    assert (forall y, fits64 y = true -> fint (b64on c2 pow) y = fint (b64on c1 pow) y) as K by (intros y Hy; cbn [fint b64on]; now rewrite Hy).
    apply K. unfold blanksFit in Hb. rewrite forallb_forall in Hb. apply Hb. unfold blankWidths. apply in_flat_map. exists w. split; [destruct Hw as [->| ->]; cbn [In]; auto|].
    apply (in_map (fun s => downScale (b64on c1 pow) (lb_opts lb1) (fadd (b64on c1 pow) w (fmul (b64on c1 pow) (fZ (b64on c1 pow) 0) s)))). destruct Hs as [->|[->|[->| ->]]]; cbn [In]; auto.
Qed.
