(** The search of LeftAlignUniform terminates and does not panic, for any values of the options. *)
From Verif Require Import Base Arith Unicode Split SpecSplit SplitProofs Width SpecWidth WidthProofs Hyph HyphProofs Dict Cache Lang PatUs Ansi SpecAnsi AnsiProofs Attr KP Nodes
  Render Tokens Align SpecFormat Format SpecAny AnyNodes AnyCall Options.
Open Scope Z_scope.

(** The search with [extra] more turns of its main loop than it is given in KP.v (knuth_plass.go:86-125, 182-231) *)
Section With.
Variable A : arith.
Variable ko : kopts A.
Variable extra : nat.
Definition mainLoopWith (ord : nat -> nat -> list fclass) (nodes : list (node A)) (widths : list (F A)) (index : nat) (nd : node A)
  (sum : sums A) (actives : list (bpoint A)) : go (list (bpoint A)) :=
  outer A ko (length actives + extra) (ord index) 0 nodes widths index nd sum [] actives (fMax A).
Fixpoint breakLoopWith (ord : nat -> nat -> list fclass) (nodes : list (node A)) (widths : list (F A)) (rest : list (node A))
  (prev : option (node A)) (index : nat) (sum : sums A) (actives : list (bpoint A)) : go (list (bpoint A)) :=
  match rest with
  | [] => Ret actives
  | nd :: rest' =>
      let! x :=
        match n_type nd with
        | TBox => Ret (actives, mkSums (fadd A (su_width sum) (su_width (n_sums nd))) (su_stretch sum) (su_shrink sum))
        | TGlue =>
            let! actives' :=
              match prev with
              | Some p => if isBox p then mainLoopWith ord nodes widths index nd sum actives else Ret actives
              | None => Ret actives
              end in
            Ret (actives', sumsAdd A sum (n_sums nd))
        | TPenalty =>
            if negb (feq A (n_penalty nd) (infinity A))
            then let! actives' := mainLoopWith ord nodes widths index nd sum actives in Ret (actives', sum)
            else Ret (actives, sum)
        end in
      let (actives', sum') := x in
      breakLoopWith ord nodes widths rest' (Some nd) (S index) sum' actives'
  end.
Definition breakPointsWith (ord : nat -> nat -> list fclass) (nodes : list (node A)) (widths : list (F A)) : go (option (list (bpoint A))) :=
  let start := findStartNode A nodes 0 in
  let prev := match start with O => None | S p => nth_error nodes p end in
  let! actives := breakLoopWith ord nodes widths (skipn start nodes) prev start (noSums A) [firstActive A] in
  match actives with
  | [] => Ret None
  | _ => Ret (reverseBreakPoints A (findBestBreak A actives))
  end.
End With.

Section Search.
Variable A : arith.
Variable ko : kopts A.
Variable ord : nat -> nat -> list fclass.
Variable nodes : list (node A).
Variable widths : list (F A).
Hypothesis Hw : widths <> [].
Definition okp (i : nat) (b : bpoint A) : Prop := (b_position b <= i)%nat /\ (b_position b < length nodes)%nat /\ 0 <= b_line b /\ b_ratio b = fZ A 0.
(** [ups lo l]: from [lo] on, [l] does not go down *)
Fixpoint ups (lo : nat) (l : list nat) : Prop := match l with [] => True | x :: l' => (lo <= x)%nat /\ ups x l' end.
Definition okb (i : nat) (b : bpoint A) : Prop := okp i b /\ Forall (okp i) (chainOf A b []) /\ ups 0 (map b_position (chainOf A b [])).
Lemma okp_mono i j b : (i <= j)%nat -> okp i b -> okp j b.
Proof. intros Hij (H1 & H2 & H3). split; [lia|]. now split. Qed.
Lemma okb_mono i j b : (i <= j)%nat -> okb i b -> okb j b.
Proof. intros Hij (H1 & H2 & H3). split; [now apply (okp_mono i)|]. split; [|exact H3]. revert H2. apply Forall_impl. intros x. now apply okp_mono. Qed.
Lemma okbs_mono i j l : (i <= j)%nat -> Forall (okb i) l -> Forall (okb j) l.
Proof. intros Hij. apply Forall_impl. intros x. now apply okb_mono. Qed.
Lemma ups_end l i : Forall (fun x => (x <= i)%nat) l -> forall lo, (lo <= i)%nat -> ups lo l -> ups lo (l ++ [i]).
Proof. induction 1 as [|x l Hx _ IH]; intros lo Hlo Hu; cbn [app ups] in *; [auto|]. destruct Hu as [H1 H2]. split; [exact H1|]. now apply IH. Qed.
Fixpoint chain_app (b : bpoint A) : forall acc, chainOf A b acc = chainOf A b [] ++ acc.
Proof.
  intros acc. destruct b as [po li cl de to ra [q|]]; [|reflexivity]. cbn [chainOf b_previous]. rewrite (chain_app q (mkBP po li cl de to ra (Some q) :: acc)).
  rewrite (chain_app q [mkBP po li cl de to ra (Some q)]). now rewrite <- app_assoc.
Qed.
Lemma okb_next i li cl de to ra q : okb i q -> okp i (mkBP i li cl de to ra (Some q)) -> okb i (mkBP i li cl de to ra (Some q)).
Proof.
  intros (_ & H & Hu) K. split; [exact K|]. cbn [chainOf b_previous]. rewrite chain_app. split; [apply Forall_app; split; [exact H|]; constructor; [exact K|constructor]|].
  rewrite map_app. cbn [map b_position]. apply ups_end; [|lia|exact Hu]. apply Forall_map. revert H. apply Forall_impl. now intros x [Hx _].
Qed.
Lemma ideal_total l : 0 <= l -> exists w, idealWidth A widths (l + 1) = Ret w.
Proof.
  intros Hl. unfold idealWidth. assert (0 < zlen widths) as H by (unfold zlen; destruct widths; [congruence|cbn [length]; lia]).
  set (i := if l + 1 <? zlen widths + 1 then l + 1 - 1 else zlen widths - 1).
  assert (0 <= i < zlen widths) as Hi by (unfold i; destruct (Z.ltb_spec (l + 1) (zlen widths + 1)); lia).
  destruct (Z.ltb_spec i 0); [lia|]. destruct (nth_error widths (Z.to_nat i)) as [w|] eqn:E; [now exists w|].
  apply nth_error_None in E. unfold zlen in Hi. lia.
Qed.
Lemma inner_total i nd sum rest : Forall (okb i) rest -> forall done cands low, Forall (okb i) done -> (forall c, okb i (cands c)) ->
  exists d cs lo, inner A ko nodes widths nd sum done rest cands low = Ret (d, [], cs, lo) /\ Forall (okb i) d /\ (forall c, okb i (cs c)).
Proof.
  induction 1 as [|b rest Hb Hr IH]; intros done cands low Hd Hc; cbn [inner]; [eauto 6|].
  destruct (ideal_total (b_line b) (proj1 (proj2 (proj2 (proj1 Hb))))) as [ideal ->]. cbn [gbind]. set (ratio := adjustmentRatio A b nd sum ideal).
  set (done' := if _ || _ then done else _).
  assert (Forall (okb i) done') as Hd' by (unfold done'; destruct (_ || _); [exact Hd|apply Forall_app; auto]). clearbody done'.
  match goal with |- exists d cs lo, gbind ?x _ = _ /\ _ => assert (exists cs lo, x = Ret (cs, lo) /\ forall c, okb i (cs c)) as (cs & lo & -> & Hcs) end.
  { destruct (_ && _); [|eauto]. unfold demeritsAndClass. destruct (nth_error nodes (b_position b)) eqn:E; [|apply nth_error_None in E; destruct Hb as [(_ & Hb & _) _]; lia].
    cbn [gbind]. eexists _, _. split; [reflexivity|]. intros c. match goal with |- okb i ((if ?x then _ else _) _) => destruct x end; [|apply Hc]. unfold setCandidate. destruct (sameClass _ _); [exact Hb|apply Hc]. }
  cbn [gbind]. destruct rest as [|b' rest]; [eauto 6|]. destruct (Z.leb_spec (b_line b + 1) (b_line b)); [lia|]. now apply IH.
Qed.
Lemma insert_total index sum low cands order : (index < length nodes)%nat -> (forall c, okb index (cands c)) -> forall done rest, Forall (okb index) done ->
  Forall (okb index) (insertNew A ko done rest index sum low cands order).
Proof.
  intros Hi Hc. induction order as [|c order IH]; intros done rest Hd; [exact Hd|]. cbn [insertNew]. destruct (_ || _); [now apply IH|].
  set (nb := mkBP _ _ _ _ _ _ _). assert (Forall (okb index) (done ++ [nb])) as K.
  { apply Forall_app. split; [exact Hd|]. constructor; [|constructor]. destruct (Hc c) as [(H0 & H1 & H2 & H3) H4]. apply okb_next; [exact (Hc c)|]. split; [cbn [b_position]; lia|]. split; [exact Hi|]. split; [|exact H3]. cbn [b_line]. lia. }
  destruct rest; [now apply IH|exact K].
Qed.
Lemma main_total index nd sum actives : (index < length nodes)%nat -> Forall (okb index) actives ->
  exists acts, (forall extra, mainLoopWith A ko extra ord nodes widths index nd sum actives = Ret acts) /\ Forall (okb index) acts.
Proof.
  intros Hi Ha. unfold mainLoopWith. destruct actives as [|b rest]; [exists []; split; [intros extra; destruct (_ + extra)%nat; reflexivity|constructor]|].
  destruct (inner_total index nd sum (b :: rest) Ha [] (defaultCandidates A) (fMax A)) as (d & cs & lo & E & Hd & Hcs); [constructor|intros c; split; [|split; constructor]; split; [|split; [|split; [|reflexivity]]]; cbn; lia|].
  eexists. split.
  - intros extra. cbn [length Nat.add outer]. rewrite E. cbn [gbind]. destruct (length rest + extra)%nat; reflexivity.
  - destruct (flt A lo (fMax A)); [now apply insert_total|exact Hd].
Qed.
Lemma loop_total rest : forall prev index sum actives, (index + length rest = length nodes)%nat -> Forall (okb index) actives ->
  exists acts, (forall extra, breakLoopWith A ko extra ord nodes widths rest prev index sum actives = Ret acts) /\ Forall (okb (length nodes)) acts.
Proof.
  induction rest as [|nd rest IH]; intros prev index sum actives Hl Ha; cbn [breakLoopWith].
  { exists actives. split; [reflexivity|]. apply (okbs_mono index); [cbn in Hl; lia|exact Ha]. }
  cbn [length] in Hl.
  destruct (main_total index nd sum actives ltac:(lia) Ha) as (ma & Em & Hm). apply (okbs_mono index (S index)) in Hm; [|lia]. pose proof (okbs_mono index (S index) _ (Nat.le_succ_diag_r _) Ha) as Ha'.
  destruct (n_type nd).
  - destruct (negb _).
    + destruct (IH (Some nd) (S index) sum ma ltac:(lia) Hm) as (acts & E & H). exists acts. split; [|exact H]. intros extra. rewrite Em. cbn [gbind]. apply E.
    + cbn [gbind]. apply IH; [lia|exact Ha'].
  - assert (exists x, (forall extra, match prev with Some p => if isBox p then mainLoopWith A ko extra ord nodes widths index nd sum actives else Ret actives | None => Ret actives end = Ret x) /\ Forall (okb (S index)) x) as (x & Ex & Hx).
    { destruct prev as [p|]; [destruct (isBox p)|]; eauto. }
    destruct (IH (Some nd) (S index) (sumsAdd A sum (n_sums nd)) x ltac:(lia) Hx) as (acts & E & H). exists acts. split; [|exact H]. intros extra. rewrite Ex. cbn [gbind]. apply E.
  - cbn [gbind]. apply IH; [lia|exact Ha'].
Qed.
Lemma findStart_le l : forall i, (findStartNode A l i <= i + length l)%nat.
Proof. induction l as [|n l IH]; intros i; cbn [findStartNode length]; [lia|]. destruct (n_type n); [destruct (feq A _ _)|..]; try lia; [specialize (IH i)|specialize (IH (S i))]; lia. Qed.
Theorem search_total : exists res, (forall extra, breakPointsWith A ko extra ord nodes widths = Ret res) /\
  forall bs, res = Some bs -> Forall (okp (length nodes)) bs /\ ups 0 (map b_position bs).
Proof.
  unfold breakPointsWith. pose proof (findStart_le nodes 0) as Hs. set (start := findStartNode A nodes 0) in *. cbn [Nat.add] in Hs.
  assert (forall i acts, Forall (okb i) acts -> forall bs, reverseBreakPoints A (findBestBreak A acts) = Some bs -> Forall (okp i) bs /\ ups 0 (map b_position bs)) as Hbs.
  { intros i acts Ha. unfold findBestBreak.
    assert (forall b0, (okb i b0 \/ b_previous b0 = None) -> forall bs,
      reverseBreakPoints A (fold_left (fun best b => if flt A (b_demerits b) (b_demerits best) then b else best) acts b0) = Some bs -> Forall (okp i) bs /\ ups 0 (map b_position bs)) as K.
    { induction Ha as [|a acts Ha _ IH]; intros b0 Hb bs; cbn [fold_left].
      - unfold reverseBreakPoints. destruct (b_previous b0) eqn:E; [|discriminate]. intros [= <-]. destruct Hb as [[_ H]|H]; [exact H|congruence].
      - apply IH. destruct (flt A _ _); auto. }
    apply K. now right. }
  destruct nodes as [|nd l] eqn:E.
  - eexists. split; [intros extra; reflexivity|]. intros bs. cbn. destruct (flt A _ _); discriminate.
  - destruct (loop_total (skipn start nodes) (match start with O => None | S p => nth_error nodes p end) start (noSums A) [firstActive A]) as (acts & K & Ka).
    + rewrite skipn_length, E. lia.
    + constructor; [|constructor]. split; [|split; constructor]. split; [cbn; lia|]. split; [rewrite E; cbn; lia|]. split; [cbn; lia|reflexivity].
    + rewrite E in K. exists (match acts with [] => None | _ => reverseBreakPoints A (findBestBreak A acts) end). split.
      * intros extra. rewrite K. cbn [gbind]. now destruct acts.
      * intros bs Hbs'. rewrite E in Ka. destruct acts as [|b acts]; [discriminate|]. apply (Hbs (length (nd :: l)) (b :: acts)); assumption.
Qed.
Lemma loopWith_0 rest : forall prev index sum actives, breakLoopWith A ko 0 ord nodes widths rest prev index sum actives = breakLoop A ko ord nodes widths rest prev index sum actives.
Proof.
  assert (forall index nd sum actives, mainLoopWith A ko 0 ord nodes widths index nd sum actives = mainLoop A ko ord nodes widths index nd sum actives) as Em
    by (intros; unfold mainLoopWith, mainLoop; now rewrite Nat.add_0_r).
  induction rest as [|nd rest IH]; intros prev index sum actives; [reflexivity|]. cbn [breakLoopWith breakLoop]. rewrite Em. destruct (match n_type nd with TPenalty => _ | _ => _ end) as [[a s]|]; cbn [gbind]; auto.
Qed.
Lemma pointsWith_0 : breakPointsWith A ko 0 ord nodes widths = breakPoints A ko ord nodes widths.
Proof. unfold breakPointsWith, breakPoints. now rewrite loopWith_0. Qed.
End Search.

Theorem search_ends A ko ord nodes widths : widths <> [] ->
  exists res, breakPoints A ko ord nodes widths = Ret res /\ forall extra, breakPointsWith A ko extra ord nodes widths = Ret res.
Proof. intros H. destruct (search_total A ko ord nodes widths H) as (res & K & _). exists res. split; [|exact K]. rewrite <- pointsWith_0. apply K. Qed.

(** ** The nodes *)
Notation okWord := (Forall okRune).
(** a measurer and word breakers that return, on words made of runes *)
Definition measuresAll {T} (f : list rune -> go T) : Prop := forall w, okWord w -> exists y, f w = Ret y.
Definition cutsAll (f : splitFunc) : Prop := forall w, okWord w -> exists ps, f w = Ret ps /\ Forall okWord ps.
Definition cutsSome (f : splitFunc) : Prop := forall w, w <> [] -> okWord w -> exists p ps, f w = Ret (p :: ps) /\ Forall okWord (p :: ps).
Lemma words_concat ws : okWord (concat ws) <-> Forall okWord ws.
Proof. split; [|now apply Forall_concat]. induction ws as [|w ws IH]; intros H; [constructor|]. cbn [concat] in H. apply Forall_app in H as [H1 H2]. constructor; auto. Qed.
Lemma Forall_both {T} (P Q : T -> Prop) l : Forall P l -> Forall Q l -> Forall (fun x => P x /\ Q x) l.
Proof. intros H K. apply Forall_forall. intros x Hx. split; [exact (proj1 (Forall_forall _ _) H x Hx)|exact (proj1 (Forall_forall _ _) K x Hx)]. Qed.
Lemma pieces_some f w ps : pieces f w ps -> Forall (fun p => p <> []) ps.
Proof. induction 1; constructor; auto; discriminate. Qed.
Section Build.
Variable A : arith.
Variable u : unicode.
Variable lb : breaker A.
Notation o := (lb_opts lb).
Hypothesis Hm : measuresAll (l_measurer o).
Hypothesis Hp : cutsAll (l_punctuator o).
Hypothesis Hh : l_wordBreak o = true -> cutsSome (l_hyphenator o).
Lemma start_total st ts v : okWord v -> exists x, startBox A lb st ts v = Ret x.
Proof. intros Hv. unfold startBox, measure. destruct (Hm v Hv) as [w ->]. cbn [gbind]. eauto. Qed.
Ltac box H := match goal with |- exists x, gbind (startBox A lb ?st ?ts ?v) _ = Ret x => destruct (start_total st ts v H) as [[? ?] ->]; cbn [gbind] end.
Lemma part_total st ps : forall p ts n, Forall okWord (p :: ps) -> exists x, partNodes A lb st ts p ps n = Ret x.
Proof. induction ps as [|q ps IH]; intros p ts n H; inversion H as [|? ? H1 H2]; subst; cbn [partNodes]; box H1; eauto. Qed.
Lemma word_total st ws : l_wordBreak o = true -> Forall (fun w => okWord w /\ w <> []) ws -> forall ts n, exists x, wordNodes A lb st ts ws n = Ret x.
Proof.
  intros Hb. induction 1 as [|w ws [Hw Hn] _ IH]; intros ts n; cbn [wordNodes]; [eauto|]. destruct (isHyphen w); [box Hw; apply IH|].
  destruct (Hh Hb w Hn Hw) as (p & ps & -> & Hps). cbn [gbind]. destruct (part_total st ps p ts n Hps) as [[n' ts'] ->]. cbn [gbind]. apply IH.
Qed.
Lemma piece_total st ps : Forall okWord ps -> forall ts n, exists x, pieceNodes A u lb st ts ps n = Ret x.
Proof.
  induction 1 as [|p ps Hw _ IH]; intros ts n; cbn [pieceNodes]; [eauto|]. destruct (isPunctuation u p); [box Hw; apply IH|].
  destruct (Bool.bool_dec (l_wordBreak o) true) as [Hb|Hb]; [rewrite Hb|apply Bool.not_true_is_false in Hb; rewrite Hb]; cbn [negb orb]; [|box Hw; apply IH]. destruct (zlen p <=? l_minHyphenate o); [box Hw; apply IH|].
  destruct (splitWord_full p) as (ws & -> & Ew & Hn & _). cbn [gbind]. rewrite <- Ew in Hw. apply words_concat in Hw. destruct (word_total st ws Hb (Forall_both _ _ _ Hw (pieces_some _ _ _ Hn)) ts n) as [[n' ts'] ->]. cbn [gbind]. apply IH.
Qed.
Lemma stripped_total mem ps : Forall (fun p => okWord (contents mem (s_text p))) ps -> forall b n, exists x, strippedNodes A u lb mem ps b n = Ret x.
Proof.
  induction 1 as [|p ps Hw _ IH]; intros b n; cbn [strippedNodes]; [eauto|]. destruct (Hp (contents mem (s_text p)) Hw) as (pieces & -> & Hps). cbn [gbind].
  destruct (piece_total (contents mem (s_start p)) pieces Hps (mkTs b None false) n) as [[n' ts'] ->]. cbn [gbind]. apply IH.
Qed.
Lemma build_loop spare ts : forall tok itemss items i b n, (forall j t, nth_error (tok :: ts) j = Some t -> mcap (t ++ spare (i + j)%nat)) ->
  Forall2 (lexed u) (tok :: ts) (items :: itemss) -> Forall okWord (tok :: ts) -> exists x, alignedLoop A u lb tok ts spare i b n = Ret x.
Proof.
  induction ts as [|tok' ts IH]; intros tok itemss items i b n Hc Hl Ho; cbn [alignedLoop]; inversion Hl as [|? ? ? ? Hl1 Hl2]; subst; inversion Ho as [|? ? Ho1 Ho2]; subst;
    unfold boxNodes; destruct (strip_parts u tok (spare i) items) as (ps & -> & Ek & _); try exact Hl1;
    try (specialize (Hc 0%nat tok eq_refl); rewrite Nat.add_0_r in Hc; exact Hc); cbn [gbind];
    (assert (Forall (fun p => okWord (contents (tok ++ spare i) (s_text p))) ps) as Hps;
     [apply Forall_map, words_concat; rewrite Ek; apply kept_runes; now rewrite (lexed_runes _ _ _ Hl1)|]);
    destruct (stripped_total (tok ++ spare i) ps Hps b []) as [[n' b'] ->]; cbn [gbind]; [eauto|].
  inversion Hl2 as [|? items' ? itemss' Hl3 Hl4]; subst. apply (IH _ itemss' items'); [|now constructor|exact Ho2]. intros j t' Hj. replace (S i + j)%nat with (i + S j)%nat by lia. now apply Hc.
Qed.
Theorem build_total spare tokens itemss : readable u tokens spare itemss -> exists x, leftAlignedNodes A u lb tokens spare = Ret x.
Proof.
  intros (Hl & Ho & Hc). unfold leftAlignedNodes. destruct tokens as [|t ts]; [eauto|]. inversion Hl as [|? items ? its Hl1 Hl2]; subst.
  apply (build_loop spare ts t its items); [exact Hc|now constructor|exact Ho].
Qed.
End Build.

(** [decided]: the nodes are built and the search ends, even if it is given more time, with the result [res] *)
Definition decided (A : arith) (u : unicode) (lb : breaker A) (ord : nat -> nat -> list fclass) (spare : nat -> list rune) (tokens : list (list rune)) (maxWidth : F A)
  (nodes : list (node A)) (attrs : state) (res : option (list (bpoint A))) : Prop :=
  leftAlignedNodes A u lb tokens spare = Ret (nodes, attrs) /\
  forall extra, breakPointsWith A (l_search (lb_opts lb)) extra ord nodes [scale A (lb_opts lb) maxWidth] = Ret res.
Theorem call_total A u lb ord spare tokens itemss maxWidth : measuresAll (l_measurer (lb_opts lb)) -> cutsAll (l_punctuator (lb_opts lb)) ->
  (l_wordBreak (lb_opts lb) = true -> cutsSome (l_hyphenator (lb_opts lb))) -> readable u tokens spare itemss ->
  exists nodes attrs res, decided A u lb ord spare tokens maxWidth nodes attrs res /\
    leftAlignUniform A u ord spare lb tokens maxWidth =
      let lb' := mkBreaker (lb_opts lb) (lb_spaceWidth lb) (lb_hyphenWidth lb) attrs in
      match res with None => Ret (None, lb') | Some bs => let! ls := render A (lb_opts lb) attrs nodes bs in Ret (Some ls, lb') end.
Proof.
  intros Hm Hp Hh Hr. destruct (build_total A u lb Hm Hp Hh spare tokens itemss Hr) as [[nodes attrs] En].
  destruct (search_total A (l_search (lb_opts lb)) ord nodes [scale A (lb_opts lb) maxWidth] ltac:(discriminate)) as (res & Es & _).
  exists nodes, attrs, res. split; [split; assumption|]. unfold leftAlignUniform. rewrite En. cbn [gbind]. rewrite <- pointsWith_0, Es. reflexivity.
Qed.

(** ** Writing the lines *)
Section Boxes.
Variable A : arith.
Variable u : unicode.
Variable lb : breaker A.
Notation o := (lb_opts lb).
(** [blank x]: the width of a blank that the line breaker may write *)
Definition blank (x : F A) : Prop := exists w s, (w = fZ A 0 \/ w = lb_spaceWidth lb) /\ (s = fZ A 0 \/ s = l_glueStretch o \/ s = fopp A (l_glueStretch o) \/ s = infinity A) /\
  x = fadd A w (fmul A (fZ A 0) s).
(** a box has its renderer, a glue is one of those above *)
Definition known (attrs : state) (n : node A) : Prop :=
  match n_type n with
  | TBox => match n_attr n with Some i => (i < length attrs)%nat | None => True end
  | TGlue => (su_width (n_sums n) = fZ A 0 \/ su_width (n_sums n) = lb_spaceWidth lb) /\ su_shrink (n_sums n) = fZ A 0 /\
      (su_stretch (n_sums n) = l_glueStretch o \/ su_stretch (n_sums n) = fopp A (l_glueStretch o) \/ su_stretch (n_sums n) = infinity A)
  | TPenalty => True
  end.
Lemma known_grows s s' l : (length s <= length s')%nat -> Forall (known s) l -> Forall (known s') l.
Proof. intros Hs. apply Forall_impl. intros n. unfold known. destruct (n_type n), (n_attr n); auto. lia. Qed.
Lemma push_length s a : length (push s (Some a)) = S (length s).
Proof. unfold push. rewrite app_length. cbn [length]. lia. Qed.
Definition keeps (ts : tstate) (nodes : list (node A)) (x : go (list (node A) * tstate)) : Prop :=
  forall n' ts', x = Ret (n', ts') -> Forall (known (ts_attrs ts)) nodes -> (length (ts_attrs ts) <= length (ts_attrs ts'))%nat /\ Forall (known (ts_attrs ts')) n'.
Lemma start_known st ts v bx ts' : startBox A lb st ts v = Ret (bx, ts') -> (length (ts_attrs ts) <= length (ts_attrs ts'))%nat /\ known (ts_attrs ts') bx.
Proof.
  unfold startBox. destruct (measure A o v) as [w|]; cbn [gbind]; [|discriminate]. intros [= <- <-]. unfold known, newBox, tsStart. cbn [n_type n_attr ts_attrs ts_current].
  rewrite push_length. lia.
Qed.
Lemma mark_known s bx p : known s bx -> Forall (known s) (markNodes A lb bx p).
Proof. intros H. unfold markNodes. repeat (apply Forall_cons; [exact H || exact I || (split; [left; reflexivity|split; [reflexivity|auto]])|]). constructor. Qed.
Lemma hyphen_known s : Forall (known s) (pushHyphen A lb).
Proof. unfold pushHyphen. destruct (l_renderHyphens o); repeat (apply Forall_cons; [exact I || (split; [left; reflexivity|split; [reflexivity|auto]])|]); constructor. Qed.
Lemma one_known s (bx : node A) : known s bx -> Forall (known s) [bx].
Proof. intros H. constructor; [exact H|constructor]. Qed.
Ltac next := match goal with |- context [startBox A lb ?st ?ts ?v] => let E := fresh "Eb" in destruct (startBox A lb st ts v) as [[? ?]|] eqn:E; cbn [gbind];
  [apply start_known in E as [? ?]|intros ? ?; discriminate] end.
Lemma keeps_step ts ts1 nodes nodes1 x : (length (ts_attrs ts) <= length (ts_attrs ts1))%nat -> Forall (known (ts_attrs ts1)) nodes1 ->
  keeps ts1 (nodes ++ nodes1) x -> keeps ts nodes x.
Proof.
  intros H1 H2 H n' ts' E Hn. destruct (H n' ts' E) as [H3 H4]; [|split; [lia|exact H4]]. apply Forall_app. split; [|exact H2]. now apply (known_grows (ts_attrs ts)).
Qed.
Lemma part_known st ps : forall p ts nodes, keeps ts nodes (partNodes A lb st ts p ps nodes).
Proof.
  induction ps as [|q ps IH]; intros p ts nodes; cbn [partNodes]; next.
  - intros n' ts' [= <- <-] Hn. split; [assumption|]. apply Forall_app. split; [now apply (known_grows (ts_attrs ts))|now apply one_known].
  - eapply keeps_step; [eassumption| |apply IH]. apply Forall_app. split; [now apply one_known|apply hyphen_known].
Qed.
Lemma keeps_bind ts nodes x (f : list (node A) * tstate -> go (list (node A) * tstate)) : keeps ts nodes x -> (forall n1 ts1, keeps ts1 n1 (f (n1, ts1))) -> keeps ts nodes (let! y := x in f y).
Proof.
  intros H K n' ts' E Hn. destruct x as [[n1 ts1]|]; cbn [gbind] in E; [|discriminate]. destruct (H n1 ts1 eq_refl Hn) as [H1 H2]. destruct (K n1 ts1 n' ts' E H2) as [H3 H4]. split; [lia|exact H4].
Qed.
Lemma keeps_ret ts nodes : keeps ts nodes (Ret (nodes, ts)).
Proof. intros n' ts' [= <- <-] H. auto. Qed.
Lemma word_known st ws : forall ts nodes, keeps ts nodes (wordNodes A lb st ts ws nodes).
Proof.
  induction ws as [|w ws IH]; intros ts nodes; cbn [wordNodes]; [apply keeps_ret|]. destruct (isHyphen w).
  - next. eapply keeps_step; [eassumption| |apply IH]. now apply mark_known.
  - destruct (l_hyphenator o w) as [[|p ps]|]; cbn [gbind]; [intros ? ?; discriminate| |intros ? ?; discriminate].
    apply (keeps_bind ts nodes _ (fun x => let (nodes', ts') := x in wordNodes A lb st ts' ws nodes')); [apply part_known|]. intros n1 ts1. apply IH.
Qed.
Lemma piece_known st ps : forall ts nodes, keeps ts nodes (pieceNodes A u lb st ts ps nodes).
Proof.
  induction ps as [|p ps IH]; intros ts nodes; cbn [pieceNodes]; [apply keeps_ret|]. destruct (isPunctuation u p); [|destruct (_ || _)].
  - next. eapply keeps_step; [eassumption| |apply IH]. now apply mark_known.
  - next. eapply keeps_step; [eassumption| |apply IH]. now apply one_known.
  - destruct (splitWord p) as [words|]; cbn [gbind]; [|intros ? ?; discriminate].
    apply (keeps_bind ts nodes _ (fun x => let (nodes', ts') := x in pieceNodes A u lb st ts' ps nodes')); [apply word_known|]. intros n1 ts1. apply IH.
Qed.
Lemma updAt_length {T} (f : T -> T) l : forall i, length (updAt l i f) = length l.
Proof. induction l as [|x l IH]; intros [|i]; cbn [updAt length]; auto. Qed.
Lemma stop_length e ts : length (ts_attrs (tsStop e ts)) = length (ts_attrs ts).
Proof. unfold tsStop. destruct (ts_current ts); [|reflexivity]. destruct (_ =? _); [reflexivity|]. cbn [ts_attrs]. apply updAt_length. Qed.
Lemma stripped_known mem ps : forall b n n' b', strippedNodes A u lb mem ps b n = Ret (n', b') -> Forall (known b) n -> (length b <= length b')%nat /\ Forall (known b') n'.
Proof.
  induction ps as [|p ps IH]; intros b n n' b'; cbn [strippedNodes]; [intros [= <- <-]; auto|].
  destruct (l_punctuator o _) as [pieces|]; cbn [gbind]; [|discriminate]. destruct (pieceNodes A u lb _ _ pieces n) as [[n1 ts1]|] eqn:E; cbn [gbind]; [|discriminate]. intros E' Hn.
  destruct (piece_known _ _ _ _ n1 ts1 E Hn) as [H1 H2]. cbn [ts_attrs] in H1. destruct (IH _ _ _ _ E') as [H3 H4].
  - apply (known_grows (ts_attrs ts1)); [rewrite stop_length; lia|exact H2].
  - rewrite stop_length in H3. split; [lia|exact H4].
Qed.
Lemma loop_known spare ts : forall tok i b n n' b', alignedLoop A u lb tok ts spare i b n = Ret (n', b') -> Forall (known b) n -> Forall (known b') n'.
Proof.
  induction ts as [|tok' ts IH]; intros tok i b n n' b'; cbn [alignedLoop]; unfold boxNodes; (destruct (stripToken u _ _) as [[mem ps]|]; cbn [gbind]; [|discriminate]);
    (destruct (strippedNodes A u lb mem ps b []) as [[n1 b1]|] eqn:E; cbn [gbind]; [|discriminate]); apply stripped_known in E as [H1 H2]; try constructor.
  - intros [= <- <-] Hn. apply Forall_app. split; [now apply (known_grows b)|]. apply Forall_app. split; [exact H2|]. unfold finalNodes.
    repeat (apply Forall_cons; [exact I || (split; [left; reflexivity|split; [reflexivity|auto]])|]). constructor.
  - intros E Hn. apply (IH _ _ _ _ _ _ E). apply Forall_app. split; [now apply (known_grows b)|]. apply Forall_app. split; [exact H2|]. unfold spaceNodes.
    repeat (apply Forall_cons; [exact I || (split; [(left; reflexivity) || (right; reflexivity)|split; [reflexivity|auto]])|]). constructor.
Qed.
Lemma build_known tokens spare nodes attrs : leftAlignedNodes A u lb tokens spare = Ret (nodes, attrs) -> Forall (known attrs) nodes.
Proof. unfold leftAlignedNodes. destruct tokens as [|t ts]; [intros [= <- <-]; constructor|]. intros E. apply (loop_known _ _ _ _ _ _ _ _ E). constructor. Qed.

(** [emptyLine nodes lo ps]: of the lines that start at [lo] and end at [ps], one ends before the first box, or forced break, of its nodes and of the one after *)
Fixpoint emptyLine (nodes : list (node A)) (lo : nat) (ps : list nat) : Prop :=
  match ps with
  | [] => False
  | p :: ps' => (forall k nd, (lo <= k <= S p)%nat -> nth_error nodes k = Some nd -> isBox nd = false /\ isForcedBreak nd = false) \/ emptyLine nodes p ps'
  end.
Lemma skip_found nodes : forall j i, skip_loop A nodes i = Some j -> (i <= j)%nat /\ forall k nd, (i + k < j)%nat -> nth_error nodes k = Some nd -> isBox nd = false /\ isForcedBreak nd = false.
Proof.
  induction nodes as [|n nodes IH]; intros j i; cbn [skip_loop]; [discriminate|]. destruct (isBox n || isForcedBreak n) eqn:En.
  - intros [= <-]. split; [lia|]. intros k nd Hk. lia.
  - intros E. destruct (IH _ _ E) as [H1 H2]. split; [lia|]. intros [|k] nd Hk Hnd; cbn [nth_error] in Hnd.
    + injection Hnd as <-. now apply Bool.orb_false_elim in En.
    + apply (H2 k); [lia|exact Hnd].
Qed.
Lemma nth_skipn' {T} (l : list T) : forall p k, nth_error (skipn p l) k = nth_error l (p + k).
Proof. induction l as [|x l IH]; intros [|p] k; cbn [skipn Nat.add nth_error]; auto; now destruct k. Qed.
Lemma cut_panics nodes i bs : Forall (okp A nodes i) bs -> forall lo, ups lo (map b_position bs) -> cutLines A nodes bs lo = Panic -> emptyLine nodes lo (map b_position bs).
Proof.
  induction 1 as [|b bs (_ & Hb & _) _ IH]; intros lo Hu; cbn [cutLines map emptyLine ups] in *; [discriminate|]. destruct Hu as [Hlo Hu].
  unfold slice. destruct ((0 <=? Z.of_nat (skipNodes A lo nodes)) && (Z.of_nat (skipNodes A lo nodes) <=? Z.of_nat (b_position b) + 1) && (Z.of_nat (b_position b) + 1 <=? zlen nodes)) eqn:E.
  - cbn [gbind]. destruct (cutLines A nodes bs (b_position b)) as [ls|] eqn:E'; cbn [gbind]; [discriminate|]. intros _. right. now apply IH.
  - intros _. left. assert (b_position b + 1 < skipNodes A lo nodes)%nat as Hs.
    { apply Bool.andb_false_iff in E as [E|E]; [apply Bool.andb_false_iff in E as [E|E]|]; apply Z.leb_gt in E; unfold zlen in *; lia. }
    unfold skipNodes in Hs. destruct (skip_loop A (skipn lo nodes) 0) as [j|] eqn:Ej; [|lia]. destruct (skip_found _ _ _ Ej) as [_ H]. intros k nd Hk Hnd.
    apply (H (k - lo)%nat); [lia|]. rewrite nth_skipn'. now replace (lo + (k - lo))%nat with k by lia.
Qed.
Lemma cut_known attrs nodes bs : Forall (known attrs) nodes -> Forall (fun b => b_ratio b = fZ A 0) bs -> forall lo ls, cutLines A nodes bs lo = Ret ls ->
  Forall (fun x => fst x = fZ A 0 /\ Forall (known attrs) (snd x)) ls.
Proof.
  intros Hn. induction 1 as [|b bs Hb _ IH]; intros lo ls; cbn [cutLines]; [intros [= <-]; constructor|]. unfold slice. destruct (_ && _); cbn [gbind]; [|discriminate].
  destruct (cutLines A nodes bs (b_position b)) as [ls'|] eqn:E; cbn [gbind]; [|discriminate]. intros [= <-]. constructor; [|apply (IH _ _ E)]. split; [exact Hb|]. cbn [snd].
  apply Forall_forall. intros x Hx. apply (proj1 (Forall_forall _ _) Hn).
  assert (In x (skipn (Z.to_nat (Z.of_nat (skipNodes A lo nodes))) nodes)) as Hx' by (rewrite <- (firstn_skipn (Z.to_nat (Z.of_nat (b_position b) + 1 - Z.of_nat (skipNodes A lo nodes))) (skipn _ nodes)); apply in_or_app; now left).
  rewrite <- (firstn_skipn (Z.to_nat (Z.of_nat (skipNodes A lo nodes))) nodes). apply in_or_app. now right.
Qed.
Definition negativeBlank : Prop := exists x, blank x /\ fint A (downScale A o x) < 0.
Lemma line_panics attrs nodes : Forall (known attrs) nodes -> forall it w, renderLine A o attrs (fZ A 0) nodes it w = Panic -> negativeBlank.
Proof.
  induction 1 as [|n nodes Hn _ IH]; intros it w; cbn [renderLine]; [discriminate|]. unfold known in Hn. destruct (n_type n).
  - destruct (_ && _); apply IH.
  - destruct Hn as (H1 & H2 & H3). set (pad := fadd A _ _). unfold repeatSpaces. destruct (Z.ltb_spec (fint A (downScale A o pad)) 0) as [Hlt|_]; [|cbn [gbind]; apply IH].
    intros _. exists pad. split; [|exact Hlt]. eexists _, _. split; [exact H1|]. split; [|reflexivity]. destruct (flt A (fZ A 0) (fZ A 0)); [left; exact H2|right; exact H3].
  - destruct (n_attr n) as [i|]; [|apply IH]. destruct (nth_error attrs i) as [a|] eqn:E; [apply IH|]. apply nth_error_None in E. lia.
Qed.
Lemma lines_panics attrs ls : Forall (fun x => fst x = fZ A 0 /\ Forall (known attrs) (snd x)) ls -> forall it, renderLines A o attrs ls it = Panic -> negativeBlank.
Proof.
  induction 1 as [|[r ns] ls [Hr Hn] _ IH]; intros it; cbn [renderLines]; [discriminate|]. cbn [fst snd] in *. subst r.
  destruct (renderLine A o attrs (fZ A 0) ns it (concat (startOfLine attrs it))) as [[w it']|] eqn:E; cbn [gbind]; [|intros _; now apply (line_panics _ _ Hn) in E].
  destruct (renderLines A o attrs ls it') as [ls'|] eqn:E'; cbn [gbind]; [discriminate|]. intros _. now apply (IH _ E').
Qed.
Theorem render_panics ord spare tokens maxWidth nodes attrs bs : decided A u lb ord spare tokens maxWidth nodes attrs (Some bs) ->
  render A o attrs nodes bs = Panic -> emptyLine nodes 0 (map b_position bs) \/ negativeBlank.
Proof.
  intros [En Es]. destruct (search_total A (l_search o) ord nodes [scale A o maxWidth] ltac:(discriminate)) as (res & K & Kb). specialize (Es 0%nat). rewrite K in Es. injection Es as ->.
  destruct (Kb bs eq_refl) as [Hok Hu]. unfold render. destruct (cutLines A nodes bs 0) as [ls|] eqn:E; cbn [gbind].
  - intros Er. right. apply (lines_panics attrs ls) in Er; [exact Er|]. apply (cut_known _ nodes bs (build_known _ _ _ _ En)) with (lo := 0%nat); [|exact E].
    revert Hok. apply Forall_impl. now intros b (_ & _ & _ & H).
  - intros _. left. now apply (cut_panics nodes _ bs Hok).
Qed.
End Boxes.

(** in particular with the options of New *)
Definition returnsOption {A} (opt : lbOption A) : Prop :=
  match opt with
  | WithMeasurer f => measuresAll f
  | WithHyphenator (Some f) => cutsSome f
  | WithPunctuator (Some f) => cutsAll f
  | _ => True
  end.
Lemma options_return A h p opts : cutsSome h -> cutsAll p -> Forall returnsOption opts -> let o := withOptions A h p opts in
  measuresAll (l_measurer o) /\ cutsAll (l_punctuator o) /\ cutsSome (l_hyphenator o).
Proof.
  intros Hh Hp H. cbn zeta. unfold withOptions. set (o := defaultLopts A h p).
  assert (measuresAll (l_measurer o) /\ cutsAll (l_punctuator o) /\ cutsSome (l_hyphenator o)) as K.
  { split; [|split; assumption]. intros w Hw. cbn [o defaultLopts l_measurer]. unfold defaultMeasurer. rewrite widths_default by (reflexivity || exact Hw). cbn [gbind]. eauto. }
  clearbody o. revert o K. induction H as [|opt opts Ho _ IH]; intros o K; [exact K|]. cbn [fold_left]. apply IH.
  destruct o as [[tol bad li fl fi] ms sc wb rh hp hh pp hf pf mi gl]. destruct opt as [| | | |[f|]|[f|]| | |]; cbn [applyOption l_measurer l_hyphenator l_punctuator returnsOption] in *; tauto.
Qed.
Lemma default_cuts u : cutsSome (defaultHyphenator u) /\ cutsAll (defaultPunctuator u).
Proof.
  split; [intros w _ Hw|intros w Hw].
  - destruct (breakWord_lossless u (loadFile u (defaultName usName) us_file) (mkHopts 4 2 2) w ltac:(cbn; lia)) as (ps & E & Hne & Hc & _).
    destruct ps as [|p ps]; [congruence|]. exists p, ps. split; [exact E|]. apply words_concat. now rewrite Hc.
  - destruct (punctuator_full u w) as (ps & E & Hc & _). exists ps. split; [exact E|]. apply words_concat. now rewrite Hc.
Qed.
Theorem options_total A u opts : Forall returnsOption opts -> let o := withOptions A (defaultHyphenator u) (defaultPunctuator u) opts in
  forall lb seqs ord spare tokens itemss maxWidth, reached A u o lb seqs -> readable u tokens spare itemss ->
  exists nodes attrs res, decided A u lb ord spare tokens maxWidth nodes attrs res /\
    leftAlignUniform A u ord spare lb tokens maxWidth =
      let lb' := mkBreaker (lb_opts lb) (lb_spaceWidth lb) (lb_hyphenWidth lb) attrs in
      match res with None => Ret (None, lb') | Some bs => let! ls := render A (lb_opts lb) attrs nodes bs in Ret (Some ls, lb') end.
Proof.
  intros H o lb seqs ord spare tokens itemss maxWidth Hr Ht. destruct (default_cuts u) as [K1 K2]. destruct (options_return A _ _ opts K1 K2 H) as (O1 & O2 & O3).
  destruct (reached_ok _ _ _ _ _ Hr) as (sp & hy & _ & attrs & -> & _). now apply (call_total A u (mkBreaker o sp hy attrs) ord spare tokens itemss).
Qed.
Theorem options_panics A u opts : Forall returnsOption opts -> let o := withOptions A (defaultHyphenator u) (defaultPunctuator u) opts in
  forall lb seqs ord spare tokens itemss maxWidth, reached A u o lb seqs -> readable u tokens spare itemss ->
  leftAlignUniform A u ord spare lb tokens maxWidth = Panic ->
  negativeBlank A lb \/ exists nodes attrs bs, decided A u lb ord spare tokens maxWidth nodes attrs (Some bs) /\ emptyLine A nodes 0 (map b_position bs).
Proof.
  intros H o lb seqs ord spare tokens itemss maxWidth Hr Ht E. destruct (options_total A u opts H lb seqs ord spare tokens itemss maxWidth Hr Ht) as (nodes & attrs & res & Hd & E').
  rewrite E in E'. destruct res as [bs|]; [|discriminate]. destruct (render A (lb_opts lb) attrs nodes bs) as [ls|] eqn:Er; cbn [gbind] in E'; [discriminate|].
  destruct (render_panics A u lb ord spare tokens maxWidth nodes attrs bs Hd Er) as [K|K]; [right|left; exact K]. exists nodes, attrs, bs. auto.
Qed.

(** and a line without text nor a forced break makes the call panic, wherever the numbers of forced breaks equal themselves *)
Section Empty.
Variable A : arith.
Variable u : unicode.
Variable lb : breaker A.
Hypothesis Heq : feq A (minusInfinity A) (minusInfinity A) = true.
Lemma loop_end tokens : forall token spare i attrs nodes nodes' attrs', alignedLoop A u lb token tokens spare i attrs nodes = Ret (nodes', attrs') ->
  exists l nd, nodes' = l ++ [nd] /\ isForcedBreak nd = true.
Proof.
  induction tokens as [|t ts IH]; intros token spare i attrs nodes nodes' attrs'; cbn [alignedLoop]; (destruct (boxNodes A u lb token (spare i) attrs) as [[ns a]|]; cbn [gbind]; [|discriminate]).
  - intros [= <- <-]. exists (nodes ++ ns ++ [newGlue A (fZ A 0) (infinity A) (fZ A 0)]), (newPenalty A (fZ A 0) (minusInfinity A) true). split.
    + unfold finalNodes. now rewrite <- !app_assoc.
    + unfold isForcedBreak, newPenalty. cbn. exact Heq.
  - apply IH.
Qed.
Lemma skip_some nodes : forall i, (exists k nd, nth_error nodes k = Some nd /\ isForcedBreak nd = true) -> exists j nd, skip_loop A nodes i = Some (i + j)%nat /\ nth_error nodes j = Some nd /\ (isBox nd || isForcedBreak nd) = true.
Proof.
  induction nodes as [|n nodes IH]; intros i ([|k] & nd & Hk & Hf); cbn [nth_error skip_loop] in *; try discriminate.
  - injection Hk as ->. exists 0%nat, nd. rewrite Hf, Bool.orb_true_r. split; [f_equal; lia|]. now split.
  - destruct (isBox n || isForcedBreak n) eqn:E.
    + exists 0%nat, n. split; [f_equal; lia|]. now split.
    + destruct (IH (S i) (ex_intro _ k (ex_intro _ nd (conj Hk Hf)))) as (j & nd' & E1 & E2 & E3). exists (S j), nd'. rewrite E1. split; [f_equal; lia|]. now split.
Qed.
Lemma cut_empty l fin i bs : isForcedBreak fin = true -> let nodes := l ++ [fin] in Forall (okp A nodes i) bs -> forall lo, (lo < length nodes)%nat ->
  emptyLine A nodes lo (map b_position bs) -> cutLines A nodes bs lo = Panic.
Proof.
  intros Hf nodes. induction 1 as [|b bs (Hi & Hb & _) _ IH]; intros lo Hlo; cbn [cutLines map emptyLine]; [intros []|]. intros [H|H].
  - destruct (skip_some (skipn lo nodes) 0) as (j & nd & E1 & E2 & E3).
    { exists (length l - lo)%nat, fin. split; [|exact Hf]. rewrite nth_skipn'. unfold nodes in *. rewrite app_length in Hlo. cbn [length] in Hlo.
      replace (lo + (length l - lo))%nat with (length l) by lia. rewrite nth_error_app2 by lia. now rewrite Nat.sub_diag. }
    rewrite nth_skipn' in E2. assert (S (b_position b) < lo + j)%nat as Hj.
    { destruct (Nat.le_gt_cases (lo + j) (S (b_position b))) as [K|K]; [|exact K]. destruct (H (lo + j)%nat nd ltac:(lia) E2) as [K1 K2]. rewrite K1, K2 in E3. discriminate. }
    unfold slice, skipNodes. rewrite E1. replace (Z.of_nat (lo + (0 + j)) <=? Z.of_nat (b_position b) + 1) with false by (symmetry; apply Z.leb_gt; lia).
    now rewrite Bool.andb_false_r.
  - destruct (slice _ _ _); cbn [gbind]; [|reflexivity]. rewrite IH; [reflexivity| |exact H]. lia.
Qed.
Theorem empty_panics ord spare tokens maxWidth nodes attrs bs : decided A u lb ord spare tokens maxWidth nodes attrs (Some bs) ->
  emptyLine A nodes 0 (map b_position bs) -> leftAlignUniform A u ord spare lb tokens maxWidth = Panic.
Proof.
  intros [En Es] He. destruct (search_total A (l_search (lb_opts lb)) ord nodes [scale A (lb_opts lb) maxWidth] ltac:(discriminate)) as (res & K & Kb). pose proof (Es 0%nat) as Es0. rewrite K in Es0. injection Es0 as ->.
  destruct (Kb bs eq_refl) as [Hok Hu].
  unfold leftAlignUniform. rewrite En. cbn [gbind]. rewrite <- pointsWith_0, Es. cbn [gbind]. unfold render.
  enough (cutLines A nodes bs 0 = Panic) as -> by reflexivity. destruct tokens as [|t ts].
  - injection En as <- _. destruct bs as [|b bs]; [destruct He|]. inversion Hok as [|? ? (_ & Hb & _)]; subst. cbn [length] in Hb. lia.
  - cbn [leftAlignedNodes] in En. destruct (loop_end _ _ _ _ _ _ _ _ En) as (l & nd & -> & Hf). apply (cut_empty l nd _ bs Hf Hok); [rewrite app_length; cbn; lia|exact He].
Qed.
End Empty.
