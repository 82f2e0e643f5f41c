(** Proofs about ansi.go. *)
From Verif Require Import Base Unicode Tables Width Utf8 Reader Ansi SpecAnsi.

Definition asKind (k : skind) : kind := match k with Start => KStart | Stop => KStop | Other => KOther end.

Lemma wrap64_id x : - 2 ^ 63 <= x < 2 ^ 63 -> wrap64 x = x.
Proof.
  intros H. unfold wrap64. rewrite Z.mod_small; [lia|].
  change (2 ^ 64) with (2 ^ 63 + 2 ^ 63). lia.
Qed.

Lemma Ret_eq a a' n n' k b c o o' : a = a' -> n = n' -> o = o' ->
  Ret (SView a n, k, mkV b c o) = Ret (SView a' n', k, mkV b c o') :> go (sl * kind * vreader).
Proof. intros -> -> ->. reflexivity. Qed.

Lemma csi_head u l seq k : csi u l seq k -> exists x, seq = ESC :: 91 :: x.
Proof. destruct 1; eauto. Qed.

Lemma csi_runes u l s k : csi u l s k -> s <> [].
Proof. intros H. apply csi_head in H as [x ->]. discriminate. Qed.

(** The lexing is unique. *)
Lemma digits_fun u p1 : forall p2 r1 r2, Forall (digit u) p1 -> Forall (digit u) p2 ->
  (length p1 <= 3)%nat -> (length p2 <= 3)%nat ->
  (length p1 = 3%nat \/ forall x r, r1 = x :: r -> ~ digit u x) ->
  (length p2 = 3%nat \/ forall x r, r2 = x :: r -> ~ digit u x) ->
  p1 ++ r1 = p2 ++ r2 -> p1 = p2 /\ r1 = r2.
Proof.
  assert (G : forall k p1 p2 r1 r2, Forall (digit u) p1 -> Forall (digit u) p2 ->
    (length p1 <= k)%nat -> (length p2 <= k)%nat ->
    (length p1 = k \/ forall x r, r1 = x :: r -> ~ digit u x) ->
    (length p2 = k \/ forall x r, r2 = x :: r -> ~ digit u x) ->
    p1 ++ r1 = p2 ++ r2 -> p1 = p2 /\ r1 = r2).
  { clear. induction k as [|k IH]; intros p1 p2 r1 r2 H1 H2 L1 L2 S1 S2 E.
    - destruct p1; [|cbn in L1; lia]. destruct p2; [|cbn in L2; lia]. auto.
    - destruct p1 as [|a p1], p2 as [|b p2]; cbn [app] in E.
      + auto.
      + destruct S1 as [S1|S1]; [discriminate|]. inversion H2; subst. exfalso. eapply S1; eauto.
      + destruct S2 as [S2|S2]; [discriminate|]. inversion H1; subst. exfalso. eapply S2; eauto.
      + injection E as -> E. inversion H1; inversion H2; subst. cbn [length] in *.
        destruct (IH p1 p2 r1 r2) as [-> ->]; auto; try lia.
        * destruct S1; [left; lia|auto].
        * destruct S2; [left; lia|auto]. }
  intros. eapply G; eauto.
Qed.

Definition properEnd (u : unicode) (full : bool) (r : list rune) : Prop :=
  full = true \/ forall x r', r = x :: r' -> ~ digit u x /\ ~ sepr x.

Lemma sepr_not_digit u x : sepr x -> ~ digit u x.
Proof. intros [-> | ->]; discriminate. Qed.

Lemma params_fun u ps1 f1 b1 : params u ps1 f1 b1 -> forall ps2 f2 b2 r1 r2, params u ps2 f2 b2 ->
  properEnd u b1 r1 -> properEnd u b2 r2 -> ps1 ++ r1 = ps2 ++ r2 -> ps1 = ps2 /\ f1 = f2 /\ b1 = b2 /\ r1 = r2.
Proof.
  assert (HS : forall b r, properEnd u b r -> b = false -> forall x r', r = x :: r' -> ~ digit u x).
  { intros b r [H|H] Hb x r' E; [congruence|]. now destruct (H x r' E). }
  assert (HN : forall b r s l, properEnd u b r -> b = false -> sepr s -> r = s :: l -> False).
  { intros b r s l [H|H] Hb Hs E; [congruence|]. now destruct (H s l E). }
  assert (HD : forall (s : rune) l, sepr s -> forall x r', s :: l = x :: r' -> ~ digit u x).
  { intros s l Hs x r' E. injection E as <- _. now apply sepr_not_digit. }
  induction 1 as [p Hp Hl|p Hp Hl|p s l first b Hp Hl Hs Hps IH]; intros ps2 f2 b2 r1 r2 H2 E1 E2 E;
    destruct H2 as [q Hq Lq|q Hq Lq|q s' l' first' b' Hq Lq Hs' Hps'].
  - destruct (digits_fun u p q r1 r2) as [-> ->]; eauto; lia.
  - destruct (digits_fun u p q r1 r2) as [-> _]; eauto; lia.
  - rewrite <- app_assoc in E. cbn [app] in E.
    destruct (digits_fun u p q r1 (s' :: l' ++ r2)) as [_ Hr]; eauto; try lia. exfalso; eauto.
  - destruct (digits_fun u p q r1 r2) as [-> _]; eauto; lia.
  - destruct (digits_fun u p q r1 r2) as [-> ->]; auto; lia.
  - rewrite <- app_assoc in E. cbn [app] in E.
    destruct (digits_fun u p q r1 (s' :: l' ++ r2)) as [-> Hr]; eauto; lia.
  - rewrite <- app_assoc in E. cbn [app] in E.
    destruct (digits_fun u p q (s :: l ++ r1) r2) as [_ Hr]; eauto; try lia. exfalso; eauto.
  - rewrite <- app_assoc in E. cbn [app] in E.
    destruct (digits_fun u p q (s :: l ++ r1) r2) as [-> Hr]; eauto; lia.
  - rewrite <- !app_assoc in E. cbn [app] in E.
    destruct (digits_fun u p q (s :: l ++ r1) (s' :: l' ++ r2)) as [-> Hr]; eauto; try lia.
    injection Hr as -> Hr. destruct (IH l' first' b' r1 r2) as (-> & -> & -> & ->); auto.
Qed.

Lemma finalKind_fun first f k1 k2 : finalKind first f k1 -> finalKind first f k2 -> k1 = k2.
Proof.
  destruct 1; inversion 1; subst; auto; try contradiction; exfalso;
    match goal with H : ~ In _ _ |- _ => apply H; cbn; tauto end.
Qed.

Lemma csi_fun u l1 l2 s1 s2 k1 k2 : csi u l1 s1 k1 -> csi u l2 s2 k2 -> s1 ++ l1 = s2 ++ l2 ->
  s1 = s2 /\ l1 = l2 /\ k1 = k2.
Proof.
  assert (HP : forall f l, ~ digit u f -> ~ sepr f -> properEnd u false (f :: l)).
  { intros f l H1 H2. right. intros x r E. now injection E as <- _. }
  assert (HT : forall r, properEnd u true r) by (left; reflexivity).
  assert (HE : forall b, properEnd u b []) by (right; discriminate).
  intros H1 H2 E.
  destruct H1 as [r1 p1 f1 e1 k1 Hp1 Hd1 Hs1 Hk1|r1 p1 f1 e1 Hp1|p1 f1 Hp1],
           H2 as [r2 p2 f2 e2 k2 Hp2 Hd2 Hs2 Hk2|r2 p2 f2 e2 Hp2|p2 f2 Hp2];
    cbn [app] in E; injection E as E; rewrite <- ?app_assoc in E; cbn [app] in E.
  all: match type of E with ?q1 ++ ?a = ?q2 ++ ?b =>
    destruct (params_fun u q1 _ _ Hp1 q2 _ _ a b Hp2) as (Hq & Hf & Hb & Hr); auto end; try discriminate; subst p2.
  - injection Hr as -> ->. subst. split; [auto|]. split; [auto|]. eapply finalKind_fun; eauto.
  - injection Hr as -> ->. auto.
  - auto.
Qed.

Lemma csi_prefix u l s k r x : csi u l s k -> s ++ l = r :: x -> r = ESC /\ exists y, x = 91 :: y.
Proof. intros H E. apply csi_head in H as [z ->]. cbn [app] in E. injection E as <- <-. eauto. Qed.

Lemma lexed_csi_inv u seq l is2 k : csi u l seq k -> lexed u (seq ++ l) is2 ->
  exists is, is2 = Ctl k seq :: is /\ lexed u l is.
Proof.
  intros Hc H2. destruct (csi_head _ _ _ _ Hc) as [z Hz].
  remember (seq ++ l) as t eqn:E. destruct H2 as [|r t is Hr Hl| |r t is Hr Hl|seq2 t is k2 Hc2 Hl2]; try (subst seq; discriminate).
  - subst seq. cbn [app] in E. injection E as -> _. contradiction.
  - subst seq. cbn [app] in E. injection E as -> _. contradiction.
  - destruct (csi_fun u t l seq2 seq k2 k Hc2 Hc E) as (-> & -> & ->). eauto.
Qed.

Lemma lexed_fun u l is1 : lexed u l is1 -> forall is2, lexed u l is2 -> is1 = is2.
Proof.
  induction 1 as [|r l is Hr Hl IH| |r l is Hr Hl IH|seq l is k Hc Hl IH]; intros is2 H2.
  - remember [] as t eqn:E. destruct H2 as [| | | |seq2 t is k2 Hc2 Hl2]; try discriminate; auto.
    apply csi_runes in Hc2. apply app_eq_nil in E. tauto.
  - remember (r :: l) as t eqn:E. destruct H2 as [|r2 t is2 Hr2 Hl2| |r2 t is2 Hr2 Hl2|seq2 t is2 k2 Hc2 Hl2]; try discriminate.
    + injection E as -> ->. f_equal. auto.
    + injection E as <- _. contradiction.
    + injection E as <- _. contradiction.
    + destruct (csi_prefix _ _ _ _ _ _ Hc2 E). contradiction.
  - remember [ESC] as t eqn:E. destruct H2 as [|r2 t is2 Hr2 Hl2| |r2 t is2 Hr2 Hl2|seq2 t is2 k2 Hc2 Hl2]; try discriminate.
    + injection E as -> _. contradiction.
    + reflexivity.
    + destruct (csi_prefix _ _ _ _ _ _ Hc2 E) as [_ [y Hy]]. discriminate.
  - remember (ESC :: r :: l) as t eqn:E. destruct H2 as [|r2 t is2 Hr2 Hl2| |r2 t is2 Hr2 Hl2|seq2 t is2 k2 Hc2 Hl2]; try discriminate.
    + injection E as -> _. contradiction.
    + injection E as -> ->. f_equal. auto.
    + destruct (csi_prefix _ _ _ _ _ _ Hc2 E) as [_ [y Hy]]. injection Hy as -> _. contradiction.
  - destruct (lexed_csi_inv u seq l is2 k Hc H2) as (is' & -> & Hl'). f_equal. auto.
Qed.

Lemma csi_not_over u rest seq k ps first : csi u rest seq k -> seq ++ rest = ESC :: 91 :: ps -> ~ params u ps first true.
Proof.
  intros H E Hp.
  assert (HP : forall f l, ~ digit u f -> ~ sepr f -> properEnd u false (f :: l)).
  { intros f l H1 H2. right. intros x r E'. now injection E' as <- _. }
  assert (HT : forall r, properEnd u true r) by (left; reflexivity).
  assert (HE : forall b, properEnd u b []) by (right; discriminate).
  destruct H as [r1 p1 f1 e1 k1 Hp1 Hd1 Hs1 Hk1|r1 p1 f1 e1 Hp1|p1 f1 Hp1];
    cbn [app] in E; injection E as E; rewrite <- ?app_assoc in E; cbn [app] in E; rewrite <- (app_nil_r ps) in E;
  match type of E with ?p1 ++ ?a = _ ++ ?b =>
    destruct (params_fun u p1 _ _ Hp1 ps _ _ a b Hp) as (_ & _ & Hb & Hr); auto end; discriminate.
Qed.

Lemma lexed_chr_inv u r l is : r <> ESC -> lexed u (r :: l) is -> exists is', is = Chr [r] :: is' /\ lexed u l is'.
Proof.
  intros Hr H. remember (r :: l) as t eqn:E. destruct H as [|r2 t is2 Hr2 Hl2| |r2 t is2 Hr2 Hl2|seq2 t is2 k2 Hc2 Hl2]; try discriminate.
  - injection E as -> ->. eauto.
  - injection E as <- _. contradiction.
  - injection E as <- _. contradiction.
  - destruct (csi_prefix _ _ _ _ _ _ Hc2 E) as [-> _]. contradiction.
Qed.
Lemma lexed_esc_inv u r l is : r <> 91 -> lexed u (ESC :: r :: l) is -> exists is', is = Chr [ESC; r] :: is' /\ lexed u l is'.
Proof.
  intros Hr H. remember (ESC :: r :: l) as t eqn:E. destruct H as [|r2 t is2 Hr2 Hl2| |r2 t is2 Hr2 Hl2|seq2 t is2 k2 Hc2 Hl2]; try discriminate.
  - injection E as -> _. contradiction.
  - injection E as -> ->. eauto.
  - destruct (csi_prefix _ _ _ _ _ _ Hc2 E) as [_ [y Hy]]. injection Hy as -> _. contradiction.
Qed.
Lemma lexed_over u ps first is : params u ps first true -> ~ lexed u (ESC :: 91 :: ps) is.
Proof.
  intros Hp H. remember (ESC :: 91 :: ps) as t eqn:E. destruct H as [|r2 t is2 Hr2 Hl2| |r2 t is2 Hr2 Hl2|seq2 t is2 k2 Hc2 Hl2]; try discriminate.
  - injection E as -> _. contradiction.
  - injection E as -> _. contradiction.
  - eapply csi_not_over; eassumption.
Qed.

Section Win.
Variables (u : unicode) (pre tok spare : list rune).
Notation mem := (pre ++ tok ++ spare).
Notation V o := (mkV (zlen pre) (zlen tok) o).
Hypothesis Hmem : zlen mem < 2 ^ 63.

Lemma tok_small : zlen tok < 2 ^ 63.
Proof using Hmem.
  pose proof Hmem as H. rewrite !zlen_app in H.
  pose proof (zlen_nonneg pre); pose proof (zlen_nonneg spare); lia.
Qed.

Lemma window_tok : window mem (zlen pre) (zlen tok) = tok.
Proof.
  unfold window. rewrite skipn_app_exact by (unfold zlen; lia).
  apply firstn_app_exact. unfold zlen; lia.
Qed.

Lemma asReader_V o : asReader mem (V o) = mkReader o (mkSlice tok spare).
Proof.
  unfold asReader. cbn [v_off v_base v_len]. rewrite window_tok.
  do 2 f_equal. rewrite app_assoc. apply skipn_app_exact.
  rewrite app_length. unfold zlen; lia.
Qed.

Lemma vRead_end o : o = zlen tok -> vRead mem (V o) = Ret (V o, runeError, true).
Proof.
  intros ->. unfold vRead. rewrite asReader_V. unfold readRune, rlen. cbn [rd_runes rd_offset s_data].
  rewrite Z.leb_refl. reflexivity.
Qed.

Lemma vRead_cons d r rest o : tok = d ++ r :: rest -> o = zlen d -> vRead mem (V o) = Ret (V (o + 1), r, false).
Proof.
  intros E ->. unfold vRead. rewrite asReader_V. unfold readRune, rlen. cbn [rd_runes rd_offset s_data].
  assert (zlen tok = zlen d + 1 + zlen rest) by (rewrite E, zlen_app, zlen_cons; lia).
  pose proof (zlen_nonneg d); pose proof (zlen_nonneg rest).
  destruct (Z.leb_spec (zlen tok) (zlen d)); [lia|].
  destruct (Z.ltb_spec (zlen d) 0); [lia|].
  replace (nth_error tok (Z.to_nat (zlen d))) with (Some r).
  - reflexivity.
  - rewrite E. rewrite nth_error_app2 by (unfold zlen; lia).
    replace (Z.to_nat (zlen d) - length d)%nat with O by (unfold zlen; lia). reflexivity.
Qed.

Lemma vSeek_start o p : vSeek mem (V o) p 0 =
  if (p <? 0) || (zlen tok <? p) then (V o, None) else (V p, Some p).
Proof.
  unfold vSeek. rewrite asReader_V. unfold seek, rlen. cbn [rd_runes rd_offset s_data].
  cbn [Z.eqb]. destruct ((p <? 0) || (zlen tok <? p)); reflexivity.
Qed.

Lemma vSeek_cur o p : 0 <= o <= zlen tok -> - 2 ^ 63 <= o + p < 2 ^ 63 -> vSeek mem (V o) p 1 =
  if (o + p <? 0) || (zlen tok <? o + p) then (V o, None) else (V (o + p), Some (o + p)).
Proof.
  intros Ho Hp. unfold vSeek. rewrite asReader_V. unfold seek, rlen. cbn [rd_runes rd_offset s_data].
  cbn [Z.eqb Pos.eqb]. rewrite wrap64_id by lia.
  destruct ((o + p <? 0) || (zlen tok <? o + p)); reflexivity.
Qed.

Lemma vSeek_here o : 0 <= o <= zlen tok -> vSeek mem (V o) 0 1 = (V o, Some o).
Proof using Hmem.
  intros Ho. pose proof tok_small. rewrite vSeek_cur by lia. rewrite Z.add_0_r.
  destruct (Z.ltb_spec o 0); [lia|]. destruct (Z.ltb_spec (zlen tok) o); [lia|]. reflexivity.
Qed.

Lemma vSlice_V o a b : vSlice mem (V o) a b =
  if (0 <=? a) && (a <=? b) && (b <=? zlen tok + zlen spare) then Ret (SView (zlen pre + a) (b - a)) else Panic.
Proof.
  unfold vSlice. rewrite asReader_V. unfold readerSlice, cslice. cbn [rd_runes s_data s_spare].
  rewrite zlen_app. destruct ((0 <=? a) && (a <=? b) && (b <=? zlen tok + zlen spare)); reflexivity.
Qed.

Lemma vRunes_V o : 0 <= o <= zlen tok -> vRunes mem (V o) = Ret (SView (zlen pre + o) (zlen tok - o)).
Proof.
  intros Ho. unfold vRunes. rewrite asReader_V. unfold readerRunes, cslice, rlen. cbn [rd_runes s_data s_spare rd_offset].
  rewrite zlen_app. pose proof (zlen_nonneg spare).
  destruct (Z.leb_spec 0 o); [|lia].
  destruct (Z.leb_spec o (zlen tok)); [|lia].
  destruct (Z.leb_spec (zlen tok) (zlen tok + zlen spare)); [|lia].
  reflexivity.
Qed.

Lemma window_mid d x rest o n : tok = d ++ x ++ rest -> o = zlen pre + zlen d -> n = zlen x -> window mem o n = x.
Proof.
  intros -> -> ->. unfold window. rewrite !app_assoc, <- !app_assoc.
  rewrite (app_assoc pre d). rewrite skipn_app_exact by (rewrite app_length; unfold zlen; lia).
  apply firstn_app_exact. unfold zlen; lia.
Qed.

(** How a run of up to [k] digits ends. *)
Inductive stops (k : nat) (d p rest : list rune) (s : dstate) : Prop :=
| stops_full : length p = k -> d_v s = V (zlen d + zlen p) -> isDigit u (d_r s) = true -> d_err s = false -> stops k d p rest s
| stops_eof : (length p < k)%nat -> rest = [] -> d_v s = V (zlen tok) -> d_r s = runeError -> d_err s = true -> stops k d p rest s
| stops_rune f rest' : (length p < k)%nat -> rest = f :: rest' -> isDigit u f = false ->
    d_v s = V (zlen d + zlen p + 1) -> d_r s = f -> d_err s = false -> stops k d p rest s.

Lemma digits_spec k : forall d rest s,
  (0 < k)%nat -> tok = d ++ rest -> d_v s = V (zlen d) ->
  exists p rest' s', rest = p ++ rest' /\ Forall (digit u) p /\ digits u mem k s = Ret s' /\
    d_count s' = d_count s + zlen p /\ d_next s' = d_next s + zlen p /\
    d_zero s' = d_zero s && forallb (Z.eqb 48) p /\ stops k d p rest' s'.
Proof.
  induction k as [|k IH]; [lia|]. intros d rest s _ Htok Hv. cbn [digits].
  rewrite Hv. destruct rest as [|r rest].
  - rewrite vRead_end by (rewrite Htok, app_nil_r; reflexivity). cbn [gbind].
    eexists [], [], _. split; [reflexivity|]. split; [constructor|]. split; [reflexivity|].
    cbn [d_count d_next d_zero d_v]. rewrite zlen_nil. split; [lia|]. split; [lia|].
    split; [cbn [forallb]; now rewrite andb_true_r|].
    apply stops_eof; cbn [length d_v d_r d_err]; try reflexivity; try lia. f_equal; rewrite Htok, app_nil_r; reflexivity.
  - rewrite (vRead_cons d r rest) by auto. cbn [gbind].
    destruct (isDigit u r) eqn:Hd; cbn [negb].
    + destruct k as [|k].
      * cbn [digits].
        eexists [r], rest, _. split; [reflexivity|]. split; [repeat constructor; exact Hd|]. split; [reflexivity|].
        cbn [d_count d_next d_zero d_v]. unfold zlen; cbn [length]. split; [lia|]. split; [lia|].
        split.
        { cbn [forallb]. rewrite andb_true_r. rewrite (Z.eqb_sym 48 r).
          destruct (r =? 48); [now rewrite andb_true_r|now rewrite andb_false_r]. }
        { apply stops_full; cbn [length d_v d_r d_err]; try reflexivity; auto. }
      * destruct (IH (d ++ [r]) rest
          (mkD (V (zlen d + 1)) r false (d_count s + 1) (d_next s + 1) (if r =? 48 then d_zero s else false)))
          as (p & rest' & s' & E & Hp & Hdig & Hc & Hn & Hz & Hs).
        { lia. } { rewrite <- app_assoc. exact Htok. }
        { cbn [d_v]. f_equal. rewrite zlen_app, zlen_cons, zlen_nil. lia. }
        cbn [d_count d_next d_zero] in Hc, Hn, Hz.
        exists (r :: p), rest', s'. split; [now rewrite E|]. split; [constructor; auto|].
        split; [exact Hdig|]. rewrite zlen_cons. split; [lia|]. split; [lia|]. split.
        { rewrite Hz. cbn [forallb]. rewrite (Z.eqb_sym 48 r). destruct (r =? 48), (d_zero s); reflexivity. }
        inversion Hs as [H1 H2 H3 H4|H1 H2 H3 H4 H5|f r2 H1 H2 H3 H4 H5 H6].
        -- apply stops_full; auto; [cbn [length]; lia|]. rewrite H2. f_equal. rewrite zlen_app, !zlen_cons, zlen_nil. lia.
        -- apply stops_eof; auto; cbn [length]; lia.
        -- eapply stops_rune; eauto; [cbn [length]; lia|]. rewrite H4. f_equal. rewrite zlen_app, !zlen_cons, zlen_nil. lia.
    + eexists [], (r :: rest), _. split; [reflexivity|]. split; [constructor|]. split; [reflexivity|].
      cbn [d_count d_next d_zero d_v]. rewrite zlen_nil. split; [lia|]. split; [lia|].
      split; [cbn [forallb]; now rewrite andb_true_r|].
      eapply stops_rune; cbn [length d_v d_r d_err]; try reflexivity; auto; try lia.
      f_equal; rewrite zlen_nil; lia.
Qed.

(** How a parameter list ends. *)
Inductive ends (d ps rest : list rune) (full : bool) (s : dstate) : Prop :=
| ends_full : full = true -> d_v s = V (zlen d + zlen ps) -> isDigit u (d_r s) = true -> d_err s = false -> ends d ps rest full s
| ends_eof : full = false -> rest = [] -> d_v s = V (zlen tok) -> d_r s = runeError -> d_err s = true -> ends d ps rest full s
| ends_rune f rest' : full = false -> rest = f :: rest' -> isDigit u f = false -> isSep f = false ->
    d_v s = V (zlen d + zlen ps + 1) -> d_r s = f -> d_err s = false -> ends d ps rest full s.

Lemma isSep_spec r : isSep r = true <-> sepr r.
Proof. unfold isSep, sepr. rewrite orb_true_iff, !Z.eqb_eq. tauto. Qed.
Lemma sep_not_digit r : isSep r = true -> isDigit u r = false.
Proof. rewrite isSep_spec. intros [-> | ->]; reflexivity. Qed.

Lemma sections_spec n : forall d rest s,
  (length rest <= n)%nat -> tok = d ++ rest -> d_v s = V (zlen d) -> isSep (d_r s) = true ->
  exists ps first full rest' s', rest = ps ++ rest' /\ params u ps first full /\
    (forall fuel, (n + 1 < fuel)%nat -> sections u mem fuel s = Ret s') /\
    d_count s' = d_count s + 1 + zlen ps /\ d_next s' = d_next s + 1 + zlen ps /\
    d_zero s' = d_zero s /\ ends d ps rest' full s'.
Proof.
  induction n as [n IH] using lt_wf_ind. intros d rest s Hf Htok Hv Hsep.
  destruct (digits_spec 3 d rest (mkD (d_v s) (d_r s) (d_err s) (d_count s + 1) (d_next s + 1) (d_zero s)))
    as (p & rest' & s1 & E & Hp & Hdig & Hc & Hn & Hz & Hs); auto; try lia.
  cbn [d_count d_next d_zero] in Hc, Hn.
  inversion Hs as [H1 H2 H3 H4|H1 H2 H3 H4 H5|f r2 H1 H2 H3 H4 H5 H6].
  - assert (Hns : isSep (d_r s1) = false).
    { destruct (isSep (d_r s1)) eqn:Hx; auto. apply sep_not_digit in Hx. congruence. }
    eexists p, p, true, rest', _. split; [exact E|]. split; [constructor 2; auto|].
    split; [intros [|[|fuel]] Hfuel; [lia|lia|]; cbn [sections]; rewrite Hsep, Hdig; cbn [gbind d_r]; rewrite Hns; reflexivity|]. cbn [d_count d_next d_zero]. split; [lia|]. split; [lia|]. split; [reflexivity|].
    apply ends_full; auto.
  -     eexists p, p, false, rest', _. split; [exact E|]. split; [constructor; auto; lia|].
    split; [intros [|[|fuel]] Hfuel; [lia|lia|]; cbn [sections]; rewrite Hsep, Hdig; cbn [gbind d_r]; rewrite H4; reflexivity|]. cbn [d_count d_next d_zero]. split; [lia|]. split; [lia|]. split; [reflexivity|].
    apply ends_eof; auto.
  - destruct (isSep f) eqn:Hsf.
    + assert (Hr2n : (length r2 < n)%nat) by (rewrite E, H2, app_length in Hf; cbn [length] in Hf; lia).
      destruct (IH (length r2) Hr2n (d ++ p ++ [f]) r2 (mkD (d_v s1) (d_r s1) (d_err s1) (d_count s1) (d_next s1) (d_zero s)))
        as (ps & first & full & rest'' & s' & E' & Hps & Hsec & Hc' & Hn' & Hz' & He).
      * lia.
      * rewrite <- !app_assoc. cbn [app]. rewrite Htok, E, H2. reflexivity.
      * cbn [d_v]. rewrite H4. f_equal. rewrite !zlen_app, zlen_cons, zlen_nil. lia.
      * cbn [d_r]. now rewrite H5.
      * cbn [d_count d_next d_zero] in *.
        exists (p ++ f :: ps), p, full, rest'', s'.
        split; [rewrite E, H2, E', <- app_assoc; reflexivity|].
        split; [eapply params_more; eauto; [lia|now apply isSep_spec]|].
        split; [intros [|fuel] Hfuel; [lia|]; cbn [sections]; rewrite Hsep, Hdig; cbn [gbind]; apply Hsec; lia|]. rewrite !zlen_app, !zlen_cons. split; [lia|]. split; [lia|]. split; [exact Hz'|].
        assert (Hd : zlen (d ++ p ++ [f]) = zlen d + (zlen p + 1)) by (rewrite !zlen_app, zlen_cons, zlen_nil; lia).
        inversion He as [K1 K2 K3 K4|K1 K2 K3 K4 K5|g r3 K1 K2 K3 K4 K5 K6 K7]; rewrite ?Hd in *.
        -- apply ends_full; auto. rewrite K2. f_equal. rewrite zlen_app, zlen_cons. lia.
        -- apply ends_eof; auto.
        -- eapply ends_rune; eauto. rewrite K5. f_equal. rewrite zlen_app, zlen_cons. lia.
    + eexists p, p, false, rest', _. split; [exact E|]. split; [constructor; auto; lia|].
      split; [intros [|[|fuel]] Hfuel; [lia|lia|]; cbn [sections]; rewrite Hsep, Hdig; cbn [gbind d_r]; rewrite H5, Hsf; reflexivity|]. cbn [d_count d_next d_zero]. split; [lia|]. split; [lia|]. split; [reflexivity|].
      eapply ends_rune; eauto.
Qed.

(** The two loops together: everything after ESC [. *)
Lemma params_spec d rest s :
  tok = d ++ rest -> d_v s = V (zlen d) ->
  exists ps first full rest' s' s1, rest = ps ++ rest' /\ params u ps first full /\
    digits u mem 3 s = Ret s1 /\ (forall F, (length rest + 1 < F)%nat -> sections u mem F s1 = Ret s') /\
    d_count s' = d_count s + zlen ps /\ d_next s' = d_next s + zlen ps /\
    d_zero s' = d_zero s && forallb (Z.eqb 48) first /\ ends d ps rest' full s'.
Proof.
  intros Htok Hv.
  destruct (digits_spec 3 d rest s) as (p & rest' & s1 & E & Hp & Hdig & Hc & Hn & Hz & Hs); auto; try lia.
  inversion Hs as [H1 H2 H3 H4|H1 H2 H3 H4 H5|f r2 H1 H2 H3 H4 H5 H6].
  -     assert (Hns : isSep (d_r s1) = false).
    { destruct (isSep (d_r s1)) eqn:Hx; auto. apply sep_not_digit in Hx. congruence. }
    exists p, p, true, rest', s1, s1. split; [exact E|]. split; [constructor 2; auto|].
    split; [exact Hdig|]. split; [intros [|F] HF; [lia|]; cbn [sections]; now rewrite Hns|].
    split; [lia|]. split; [lia|]. split; [exact Hz|]. apply ends_full; auto.
  -     exists p, p, false, rest', s1, s1. split; [exact E|]. split; [constructor; auto; lia|].
    split; [exact Hdig|]. split; [intros [|F] HF; [lia|]; cbn [sections]; now rewrite H4|].
    split; [lia|]. split; [lia|]. split; [exact Hz|]. apply ends_eof; auto.
  - destruct (isSep f) eqn:Hsf.
    + destruct (sections_spec (length r2) (d ++ p ++ [f]) r2 s1)
        as (ps & first & full & rest'' & s' & E' & Hps & Hsec & Hc' & Hn' & Hz' & He).
      * lia.
      * rewrite <- !app_assoc. cbn [app]. rewrite Htok, E, H2. reflexivity.
      * rewrite H4. f_equal. rewrite !zlen_app, zlen_cons, zlen_nil. lia.
      * now rewrite H5.
      * exists (p ++ f :: ps), p, full, rest'', s', s1.
        split; [rewrite E, H2, E', <- app_assoc; reflexivity|].
        split; [eapply params_more; eauto; [lia|now apply isSep_spec]|].
        split; [exact Hdig|]. split; [intros F HF; apply Hsec; rewrite E, H2, app_length in HF; cbn [length] in HF; lia|].
        rewrite !zlen_app, !zlen_cons. split; [lia|]. split; [lia|]. split; [congruence|].
        assert (Hd : zlen (d ++ p ++ [f]) = zlen d + (zlen p + 1)) by (rewrite !zlen_app, zlen_cons, zlen_nil; lia).
        inversion He as [K1 K2 K3 K4|K1 K2 K3 K4 K5|g r3 K1 K2 K3 K4 K5 K6 K7]; rewrite ?Hd in *.
        -- apply ends_full; auto. rewrite K2. f_equal. rewrite zlen_app, zlen_cons. lia.
        -- apply ends_eof; auto.
        -- eapply ends_rune; eauto. rewrite K5. f_equal. rewrite zlen_app, zlen_cons. lia.
    +       exists p, p, false, rest', s1, s1. split; [exact E|]. split; [constructor; auto; lia|].
      split; [exact Hdig|]. split; [intros [|F] HF; [lia|]; cbn [sections]; now rewrite H5, Hsf|].
      split; [lia|]. split; [lia|]. split; [exact Hz|]. eapply ends_rune; eauto.
Qed.

Lemma kindOf_spec first f zero :
  zero = forallb (Z.eqb 48) first -> exists k, finalKind first f k /\ kindOf f zero = asKind k.
Proof.
  intros ->. unfold kindOf.
  assert (HF : forallb (Z.eqb 48) first = true <-> Forall (fun r => r = 48) first).
  { rewrite forallb_forall, Forall_forall. split; intros H x Hx; specialize (H x Hx); [apply Z.eqb_eq in H; auto|apply Z.eqb_eq; auto]. }
  destruct (Z.eqb_spec f 115) as [->|]. { exists Start; split; [constructor|reflexivity]. }
  destruct (Z.eqb_spec f 104) as [->|]. { exists Start; split; [constructor|reflexivity]. }
  destruct (Z.eqb_spec f 117) as [->|]. { exists Stop; split; [constructor|reflexivity]. }
  destruct (Z.eqb_spec f 108) as [->|]. { exists Stop; split; [constructor|reflexivity]. }
  cbn [orb].
  destruct (Z.eqb_spec f 109) as [->|].
  { destruct (forallb (Z.eqb 48) first) eqn:E.
    - exists Stop; split; [|reflexivity]. apply fk_m0. now apply HF.
    - exists Start; split; [|reflexivity]. apply fk_m1. intros H. apply HF in H. congruence. }
  exists Other. split; [|reflexivity]. constructor. cbn [In]. intuition.
Qed.

Lemma kindOf_digit r z : isDigit u r = true -> kindOf r z = KOther.
Proof.
  unfold kindOf. intros H.
  repeat match goal with |- context [?a =? ?b] => destruct (Z.eqb_spec a b) as [Heq|_]; [rewrite Heq in H; discriminate|] end.
  reflexivity.
Qed.

(** What decodeANSISequence does at a position of the token. *)
Inductive decoded (d rest : list rune) : Prop :=
| dec_none : (forall r, rest <> ESC :: 91 :: r) ->
    (forall F, (length tok < F)%nat -> decodeANSI u F mem (V (zlen d)) = Ret (SNil, KOther, V (zlen d))) -> decoded d rest
| dec_seq seq l k : rest = seq ++ l -> csi u l seq k ->
    (forall F, (length tok < F)%nat -> decodeANSI u F mem (V (zlen d)) = Ret (SView (zlen pre + zlen d) (zlen seq), asKind k, V (zlen d + zlen seq))) ->
    decoded d rest
| dec_over ps first x spare' : rest = ESC :: 91 :: ps -> params u ps first true -> spare = x :: spare' ->
    (forall F, (length tok < F)%nat -> decodeANSI u F mem (V (zlen d)) = Ret (SView (zlen pre + zlen d) (zlen rest + 1), KOther, V (zlen tok))) ->
    decoded d rest
| dec_panic ps first : rest = ESC :: 91 :: ps -> params u ps first true -> spare = [] ->
    (forall F, (length tok < F)%nat -> decodeANSI u F mem (V (zlen d)) = Panic) -> decoded d rest.

Lemma decode_spec d rest : tok = d ++ rest -> decoded d rest.
Proof using Hmem.
  intros Htok.
  assert (Hd : 0 <= zlen d <= zlen tok) by (rewrite Htok, zlen_app; pose proof (zlen_nonneg d); pose proof (zlen_nonneg rest); lia).
  assert (Hback : forall o, fst (vSeek mem (V o) (zlen d) 0) = V (zlen d)).
  { intros o. rewrite vSeek_start. destruct (Z.ltb_spec (zlen d) 0); [lia|].
    destruct (Z.ltb_spec (zlen tok) (zlen d)); [lia|]. reflexivity. }
  destruct rest as [|r rest].
  { apply dec_none; [discriminate|]. intros F HF; unfold decodeANSI. rewrite vSeek_here by lia. cbn [fst snd].
    rewrite vRead_end by (rewrite Htok, app_nil_r; reflexivity). cbn [gbind]. now rewrite Hback. }
  destruct (Z.eqb_spec r esc) as [->|Hr].
  2: { apply dec_none; [intros x Hx; injection Hx as -> _; apply Hr; reflexivity|].
       intros F HF; unfold decodeANSI. rewrite vSeek_here by lia. cbn [fst snd].
       rewrite (vRead_cons d r rest) by auto. cbn [gbind].
       destruct (Z.eqb_spec r esc); [contradiction|]. cbn [negb]. now rewrite Hback. }
  destruct rest as [|r rest].
  { apply dec_none; [discriminate|]. intros F HF; unfold decodeANSI. rewrite vSeek_here by lia. cbn [fst snd].
    rewrite (vRead_cons d esc []) by auto. cbn [gbind]. rewrite Z.eqb_refl. cbn [negb].
    rewrite vRead_end by (rewrite Htok, zlen_app, zlen_cons, zlen_nil; lia). cbn [gbind]. now rewrite Hback. }
  assert (Htok1 : tok = (d ++ [esc]) ++ r :: rest) by (rewrite <- app_assoc; exact Htok).
  assert (Hd1 : zlen (d ++ [esc]) = zlen d + 1) by (rewrite zlen_app, zlen_cons, zlen_nil; lia).
  destruct (Z.eqb_spec r bracket) as [->|Hr].
  2: { apply dec_none; [intros x Hx; injection Hx as -> _; apply Hr; reflexivity|].
       intros F HF; unfold decodeANSI. rewrite vSeek_here by lia. cbn [fst snd].
       rewrite (vRead_cons d esc (r :: rest)) by auto. cbn [gbind]. rewrite Z.eqb_refl. cbn [negb].
       rewrite (vRead_cons (d ++ [esc]) r rest) by auto. cbn [gbind].
       destruct (Z.eqb_spec r bracket); [contradiction|]. cbn [negb]. now rewrite Hback. }
  set (d2 := d ++ [esc; bracket]).
  assert (Htok2 : tok = d2 ++ rest) by (unfold d2; rewrite <- app_assoc; exact Htok).
  assert (Hd2 : zlen d2 = zlen d + 2) by (unfold d2; rewrite zlen_app, !zlen_cons, zlen_nil; lia).
  assert (Hlen : zlen tok = zlen d + 2 + zlen rest) by (rewrite Htok2, zlen_app, Hd2; lia).
  pose proof (zlen_nonneg rest) as Hr0. pose proof tok_small as Hsm. pose proof (zlen_nonneg spare) as Hs0.
  destruct (params_spec d2 rest (mkD (V (zlen d2)) bracket false 2 (zlen d2) true))
    as (ps & first & full & rest' & s' & s1 & E & Hps & Hdig & Hsec & Hc & Hn & Hz & He).
  { exact Htok2. } { reflexivity. }
  cbn [d_count d_next d_zero] in Hc, Hn, Hz.
  assert (HX : exists R, R = (let count := if d_err s' then d_count s' else d_count s' + 1 in
    let next := if d_err s' then d_next s' else d_next s' + 1 in
    let! s := vSlice mem (d_v s') (zlen d) (zlen d + count) in
    let v4 := if 0 <? next then fst (vSeek mem (d_v s') next 0) else d_v s' in
    Ret (s, kindOf (d_r s') (d_zero s'), v4)) /\ forall F, (length tok < F)%nat -> decodeANSI u F mem (V (zlen d)) = R).
  { eexists. split; [reflexivity|]. intros F HF; unfold decodeANSI. rewrite vSeek_here by lia. cbn [fst snd].
    rewrite (vRead_cons d esc (bracket :: rest)) by auto. cbn [gbind]. rewrite Z.eqb_refl. cbn [negb].
    rewrite (vRead_cons (d ++ [esc]) bracket rest) by auto. cbn [gbind]. rewrite Z.eqb_refl. cbn [negb].
    replace (zlen d + 1 + 1) with (zlen d2) by lia.
    rewrite vSeek_here by lia. cbn [fst snd]. rewrite Hdig. cbn [gbind]. rewrite Hsec; [reflexivity|]. rewrite Htok, app_length in HF. cbn [length] in HF. lia. }
  destruct HX as (R & Hdec & Hall). cbv zeta in Hdec.
  pose proof (zlen_nonneg ps) as Hps0. pose proof (zlen_nonneg rest') as Hrest0.
  assert (Hrl : zlen rest = zlen ps + zlen rest') by (rewrite E, zlen_app; lia).
  inversion He as [K1 K2 K3 K4|K1 K2 K3 K4 K5|f r2 K1 K2 K3 K4 K5 K6 K7].
  - rewrite K4, K2, Hc, Hn in Hdec. rewrite vSlice_V in Hdec. rewrite (kindOf_digit _ _ K3) in Hdec.
    destruct (Z.leb_spec 0 (zlen d)); [|lia].
    destruct (Z.leb_spec (zlen d) (zlen d + (2 + zlen ps + 1))); [|lia]. cbn [andb] in Hdec.
    destruct (Z.ltb_spec 0 (zlen d2 + zlen ps + 1)); [|lia]. rewrite vSeek_start in Hdec.
    destruct (Z.ltb_spec (zlen d2 + zlen ps + 1) 0); [lia|]. cbn [orb] in Hdec.
    destruct rest' as [|f r2].
    + rewrite app_nil_r in E. rewrite zlen_nil in Hrl.
      destruct (Z.ltb_spec (zlen tok) (zlen d2 + zlen ps + 1)); [|lia]. cbn [fst] in Hdec.
      assert (Hsp : spare = [] \/ exists x spare', spare = x :: spare') by (destruct spare; eauto).
      destruct Hsp as [Hsp|(x & spare' & Hsp)].
      * assert (Hspl : zlen spare = 0) by (rewrite Hsp; reflexivity).
        destruct (Z.leb_spec (zlen d + (2 + zlen ps + 1)) (zlen tok + zlen spare)); [lia|].
        cbn [gbind] in Hdec. subst full. eapply dec_panic with (ps := ps); [rewrite E; reflexivity|exact Hps|exact Hsp|intros F HF; rewrite (Hall F HF); exact Hdec].
      * assert (Hspl : zlen spare = 1 + zlen spare') by (rewrite Hsp, zlen_cons; reflexivity).
        pose proof (zlen_nonneg spare').
        destruct (Z.leb_spec (zlen d + (2 + zlen ps + 1)) (zlen tok + zlen spare)); [|lia].
        cbn [gbind] in Hdec. subst full. eapply dec_over with (ps := ps); [rewrite E; reflexivity|exact Hps|exact Hsp|].
        intros F HF; rewrite (Hall F HF), Hdec. rewrite !zlen_cons. apply Ret_eq; lia.
    + rewrite zlen_cons in Hrl. pose proof (zlen_nonneg r2).
      destruct (Z.ltb_spec (zlen tok) (zlen d2 + zlen ps + 1)); [lia|]. cbn [fst] in Hdec.
      destruct (Z.leb_spec (zlen d + (2 + zlen ps + 1)) (zlen tok + zlen spare)); [|lia].
      cbn [gbind] in Hdec.
      apply dec_seq with (seq := ESC :: 91 :: ps ++ [f]) (l := r2) (k := Other).
      * rewrite E. cbn [app]. rewrite <- app_assoc. reflexivity.
      * subst full. eapply csi_long; eauto.
      * intros F HF; rewrite (Hall F HF), Hdec. rewrite !zlen_cons, zlen_app, zlen_cons, zlen_nil. cbn [asKind].
        apply Ret_eq; lia.
  - rewrite K5, K3, Hc, Hn in Hdec. rewrite vSlice_V in Hdec. rewrite K4 in Hdec.
    rewrite K2 in *. rewrite zlen_nil in Hrl.
    destruct (Z.leb_spec 0 (zlen d)); [|lia].
    destruct (Z.leb_spec (zlen d) (zlen d + (2 + zlen ps))); [|lia]. cbn [andb] in Hdec.
    destruct (Z.leb_spec (zlen d + (2 + zlen ps)) (zlen tok + zlen spare)); [|lia]. cbn [gbind] in Hdec.
    destruct (Z.ltb_spec 0 (zlen d2 + zlen ps)); [|lia]. rewrite vSeek_start in Hdec.
    destruct (Z.ltb_spec (zlen d2 + zlen ps) 0); [lia|]. cbn [orb] in Hdec.
    destruct (Z.ltb_spec (zlen tok) (zlen d2 + zlen ps)); [lia|]. cbn [fst] in Hdec.
    change (kindOf runeError (d_zero s')) with KOther in Hdec.
    apply dec_seq with (seq := ESC :: 91 :: ps) (l := []) (k := Other).
    * rewrite E. rewrite !app_nil_r. reflexivity.
    * subst full. eapply csi_cut; eauto.
    * intros F HF; rewrite (Hall F HF), Hdec. rewrite !zlen_cons. cbn [asKind].
      apply Ret_eq; lia.
  - rewrite K7, K5, Hc, Hn in Hdec. rewrite vSlice_V in Hdec. rewrite K6 in Hdec.
    rewrite K2, zlen_cons in Hrl. pose proof (zlen_nonneg r2).
    destruct (Z.leb_spec 0 (zlen d)); [|lia].
    destruct (Z.leb_spec (zlen d) (zlen d + (2 + zlen ps + 1))); [|lia]. cbn [andb] in Hdec.
    destruct (Z.leb_spec (zlen d + (2 + zlen ps + 1)) (zlen tok + zlen spare)); [|lia]. cbn [gbind] in Hdec.
    destruct (Z.ltb_spec 0 (zlen d2 + zlen ps + 1)); [|lia]. rewrite vSeek_start in Hdec.
    destruct (Z.ltb_spec (zlen d2 + zlen ps + 1) 0); [lia|]. cbn [orb] in Hdec.
    destruct (Z.ltb_spec (zlen tok) (zlen d2 + zlen ps + 1)); [lia|]. cbn [fst] in Hdec.
    destruct (kindOf_spec first f (d_zero s')) as (k & Hk & Hko); [exact Hz|].
    rewrite Hko in Hdec.
    apply dec_seq with (seq := ESC :: 91 :: ps ++ [f]) (l := r2) (k := k).
    * rewrite E, K2. cbn [app]. rewrite <- app_assoc. reflexivity.
    * subst full. eapply csi_done; eauto; [unfold digit; congruence|]. intros Hx. apply isSep_spec in Hx. congruence.
    * intros F HF; rewrite (Hall F HF), Hdec. rewrite !zlen_cons, zlen_app, zlen_cons, zlen_nil.
      apply Ret_eq; lia.
Qed.

(** [its] is a lexing of [x] in front of [y]. *)
Definition lexp (its : list item) (x y : list rune) : Prop :=
  x = concat (map runesIn its) /\ (forall isy, lexed u y isy -> lexed u (x ++ y) (its ++ isy)) /\
  (forall is, lexed u (x ++ y) is -> exists isy, is = its ++ isy /\ lexed u y isy).

Lemma lexp_nil y : lexp [] [] y.
Proof. split; [reflexivity|]. split; [auto|]. intros is H. now exists is. Qed.
Lemma lexp_app i1 i2 x1 x2 y : lexp i1 x1 (x2 ++ y) -> lexp i2 x2 y -> lexp (i1 ++ i2) (x1 ++ x2) y.
Proof.
  intros (E1 & H1 & K1) (E2 & H2 & K2). split; [|split].
  - now rewrite map_app, concat_app, E1, E2.
  - intros isy H. rewrite <- !app_assoc. auto.
  - intros is H. rewrite <- app_assoc in H. destruct (K1 _ H) as (is1 & -> & H'). destruct (K2 _ H') as (is2 & -> & H'').
    exists is2. now rewrite app_assoc.
Qed.
Lemma lexp_csi seq l k : csi u l seq k -> lexp [Ctl k seq] seq l.
Proof.
  intros H. split; [cbn; now rewrite app_nil_r|]. split; [intros isy Hy; cbn [app]; now apply lx_csi|].
  intros is Hi. destruct (lexed_csi_inv u seq l is k H Hi) as (is' & -> & Hl). now exists is'.
Qed.

Lemma csi_len l seq k : csi u l seq k -> 2 <= zlen seq.
Proof.
  destruct 1; rewrite ?zlen_cons, ?zlen_app, ?zlen_cons, ?zlen_nil;
    pose proof (zlen_nonneg ps); lia.
Qed.

Lemma text_loop_spec n : forall d rest c, (length rest <= n)%nat -> tok = d ++ rest ->
  exists t rest' its, rest = t ++ rest' /\ lexp its t rest' /\ Forall (fun i => exists l, i = Chr l) its /\
    (rest' = [] \/ exists x, rest' = ESC :: 91 :: x) /\
    forall fuel, (n < fuel)%nat -> text_loop mem fuel (V (zlen d)) c = Ret (V (zlen d + zlen t), c + zlen t).
Proof using Hmem.
  induction n as [n IH] using lt_wf_ind. intros d rest c Hf Htok.
  pose proof tok_small as Hsm. pose proof (zlen_nonneg d) as Hd0.
  destruct rest as [|r rest].
  { exists [], [], []. split; [reflexivity|]. split; [apply lexp_nil|]. split; [constructor|]. split; [auto|].
    intros [|fuel] Hfuel; [lia|]. cbn [text_loop]. rewrite vRead_end by (rewrite Htok, app_nil_r; reflexivity). cbn [gbind].
    rewrite zlen_nil, !Z.add_0_r. reflexivity. }
  assert (Hlen : zlen tok = zlen d + 1 + zlen rest) by (rewrite Htok, zlen_app, zlen_cons; lia).
  pose proof (zlen_nonneg rest) as Hr0.
  destruct (Z.eqb_spec r esc) as [->|Hr].
  - destruct rest as [|r2 rest].
    { rewrite zlen_nil in Hlen.
      exists [esc], [], [Chr [ESC]]. split; [reflexivity|]. split.
      { split; [reflexivity|]. split.
        - intros isy H. inversion H; subst; [apply lx_esc|].
          match goal with H : csi _ _ ?s _ |- _ => apply csi_head in H as [x ->] end. discriminate.
        - intros is H. exists []. split; [|constructor]. exact (lexed_fun u _ _ H _ (lx_esc u)). }
      split; [repeat constructor; eauto|]. split; [auto|].
      intros [|fuel] Hfuel; [lia|]. cbn [text_loop]. rewrite (vRead_cons d esc []) by auto. cbn [gbind].
      rewrite Z.eqb_refl. rewrite vRead_end by lia. cbn [gbind].
      rewrite zlen_cons, zlen_nil. do 2 f_equal; f_equal; lia. }
    assert (Htok1 : tok = (d ++ [esc]) ++ r2 :: rest) by (rewrite <- app_assoc; exact Htok).
    assert (Hd1 : zlen (d ++ [esc]) = zlen d + 1) by (rewrite zlen_app, zlen_cons, zlen_nil; lia).
    rewrite zlen_cons in Hlen.
    assert (Hstep : forall fuel, text_loop mem (S fuel) (V (zlen d)) c =
      if r2 =? bracket then Ret (fst (vSeek mem (V (zlen d + 1 + 1)) (-2) 1), c)
      else text_loop mem fuel (V (zlen d + 1 + 1)) (c + 1 + 1)).
    { intros fuel. cbn [text_loop]. rewrite (vRead_cons d esc (r2 :: rest)) by auto. cbn [gbind].
      rewrite Z.eqb_refl. rewrite (vRead_cons (d ++ [esc]) r2 rest) by auto. reflexivity. }
    pose proof (zlen_nonneg rest).
    destruct (Z.eqb_spec r2 bracket) as [->|Hr2].
    + exists [], (esc :: bracket :: rest), []. split; [reflexivity|]. split; [apply lexp_nil|]. split; [constructor|].
      split; [right; eexists; reflexivity|].
      intros [|fuel] Hfuel; [lia|]. rewrite Hstep. rewrite vSeek_cur by lia.
      replace (zlen d + 1 + 1 + -2) with (zlen d) by lia.
      destruct (Z.ltb_spec (zlen d) 0); [lia|]. destruct (Z.ltb_spec (zlen tok) (zlen d)); [lia|].
      cbn [orb fst]. rewrite zlen_nil, !Z.add_0_r. reflexivity.
    + cbn [length] in Hf.
      destruct (IH (length rest) ltac:(lia) (d ++ [esc; r2]) rest (c + 1 + 1)) as (t & rest' & its & E & (Hx & Hl & Hi) & Hc & Hend & Hloop).
      { lia. } { rewrite <- app_assoc. exact Htok. }
      assert (Hd2 : zlen (d ++ [esc; r2]) = zlen d + 1 + 1) by (rewrite zlen_app, !zlen_cons, zlen_nil; lia).
      rewrite Hd2 in Hloop.
      exists (esc :: r2 :: t), rest', (Chr [ESC; r2] :: its).
      split; [now rewrite E|]. split.
      { split; [cbn [map concat runesIn app]; now rewrite <- Hx|]. split; [intros isy Hy; cbn [app]; apply lx_esc2; auto|].
        intros is K0. destruct (lexed_esc_inv u r2 (t ++ rest') is Hr2 K0) as (is' & -> & H'). destruct (Hi _ H') as (isy & -> & Hy).
        now exists isy. }
      split; [constructor; eauto|]. split; [exact Hend|].
      intros [|fuel] Hfuel; [lia|]. rewrite Hstep.
      rewrite Hloop by lia. rewrite !zlen_cons. do 2 f_equal; [f_equal|]; lia.
  - cbn [length] in Hf.
    destruct (IH (length rest) ltac:(lia) (d ++ [r]) rest (c + 1)) as (t & rest' & its & E & (Hx & Hl & Hi) & Hc & Hend & Hloop).
    { lia. } { rewrite <- app_assoc. exact Htok. }
    assert (Hd2 : zlen (d ++ [r]) = zlen d + 1) by (rewrite zlen_app, !zlen_cons, zlen_nil; lia).
    rewrite Hd2 in Hloop.
    exists (r :: t), rest', (Chr [r] :: its).
    split; [now rewrite E|]. split.
    { split; [cbn [map concat runesIn app]; now rewrite <- Hx|]. split; [intros isy Hy; cbn [app]; apply lx_chr; auto|].
      intros is K0. destruct (lexed_chr_inv u r (t ++ rest') is Hr K0) as (is' & -> & H'). destruct (Hi _ H') as (isy & -> & Hy).
      now exists isy. }
    split; [constructor; eauto|]. split; [exact Hend|].
    intros [|fuel] Hfuel; [lia|]. cbn [text_loop]. rewrite (vRead_cons d r rest) by auto. cbn [gbind].
    destruct (Z.eqb_spec r esc); [contradiction|].
    rewrite Hloop by lia. rewrite !zlen_cons. do 2 f_equal; [f_equal|]; lia.
Qed.

Lemma decodeText_spec d rest : tok = d ++ rest ->
  exists t rest' its, rest = t ++ rest' /\ lexp its t rest' /\ Forall (fun i => exists l, i = Chr l) its /\
    (rest' = [] \/ exists x, rest' = ESC :: 91 :: x) /\
    forall F, (length tok < F)%nat -> decodeText F mem (V (zlen d)) = Ret (SView (zlen pre + zlen d) (zlen t), V (zlen d + zlen t)).
Proof using Hmem.
  intros Htok.
  destruct (text_loop_spec (length rest) d rest 0) as (t & rest' & its & E & Hl & Hc & Hend & Hloop).
  { lia. } { exact Htok. }
  assert (Hlen : zlen tok = zlen d + zlen t + zlen rest') by (rewrite Htok, E, !zlen_app; lia).
  pose proof (zlen_nonneg d); pose proof (zlen_nonneg t); pose proof (zlen_nonneg rest'); pose proof (zlen_nonneg spare).
  exists t, rest', its. split; [exact E|]. split; [exact Hl|]. split; [exact Hc|]. split; [exact Hend|].
  intros F HF. unfold decodeText. rewrite vSeek_here by lia. cbn [fst snd].
  rewrite Hloop by (rewrite Htok, app_length in HF; lia). cbn [gbind].
  rewrite vSlice_V. destruct (Z.leb_spec 0 (zlen d)); [|lia].
  destruct (Z.leb_spec (zlen d) (zlen d + (0 + zlen t))); [|lia].
  destruct (Z.leb_spec (zlen d + (0 + zlen t)) (zlen tok + zlen spare)); [|lia]. cbn [andb gbind].
  do 3 f_equal. lia.
Qed.

Lemma skipn_skipn' {A} (l : list A) a b : skipn a (skipn b l) = skipn (b + a) l.
Proof. revert l; induction b as [|b IH]; intros [|x l]; cbn [skipn Nat.add]; auto. now destruct a. Qed.

(** The append of the second loop rewrites the array with what it holds. *)
Lemma append_same o n n' :
  0 <= o -> 0 <= n -> 0 <= n' -> o + n + n' <= zlen mem ->
  appendSl mem (SView o n) (SView (o + n) n') = (mem, SView o (n + n')).
Proof.
  intros Ho Hn Hn' Hle. unfold appendSl. cbn [slen].
  destruct (Z.leb_spec (o + n + n') (zlen mem)); [|lia]. f_equal.
  unfold writeAt, contents, window.
  set (m := mem) in *.
  assert (Hw : length (firstn (Z.to_nat n') (skipn (Z.to_nat (o + n)) m)) = Z.to_nat n').
  { rewrite firstn_length, skipn_length. unfold zlen in *. lia. }
  rewrite Hw.
  rewrite <- (firstn_skipn (Z.to_nat (o + n)) m) at 4.
  f_equal.
  rewrite <- (firstn_skipn (Z.to_nat n') (skipn (Z.to_nat (o + n)) m)) at 2.
  now rewrite skipn_skipn'.
Qed.

Definition overCond : Prop := cutShort u tok /\ forall items, ~ lexed u tok items.
Lemma over_intro its d ps first : tok = d ++ ESC :: 91 :: ps -> lexp its d (ESC :: 91 :: ps) -> params u ps first true -> overCond.
Proof.
  intros E (_ & _ & K) Hp. split; [exists d, ps, first; now split|]. intros items H. rewrite E in H. destruct (K _ H) as (isy & _ & Hy).
  eapply lexed_over; eassumption.
Qed.

Lemma rewind_V o s n : 0 <= o <= zlen tok -> slen s = n -> 0 <= n <= o -> rewind mem (V o) s = V (o - n).
Proof using Hmem.
  intros Ho Hs Hn. pose proof tok_small. unfold rewind. rewrite Hs, vSeek_cur by lia.
  replace (o + - n) with (o - n) by lia.
  destruct (Z.ltb_spec (o - n) 0); [lia|]. destruct (Z.ltb_spec (zlen tok) (o - n)); [lia|]. reflexivity.
Qed.

(** ** Parts *)
Lemma fresh_groups y isy : lexed u y isy -> groupsFrom Fresh [] isy = match y with [] => [] | _ => groups isy end.
Proof. intros H. destruct H; try reflexivity. destruct H; reflexivity. Qed.
Lemma csi_inv_head seq l k isy : csi u l seq k -> lexed u (seq ++ l) isy -> exists is', isy = Ctl k seq :: is' /\ lexed u l is'.
Proof. intros H1 H2. exact (lexed_csi_inv u seq l isy k H1 H2). Qed.
Lemma text_head y isy : (forall x, y <> ESC :: 91 :: x) -> lexed u y isy -> isy = [] /\ y = [] \/ exists l is', isy = Chr l :: is'.
Proof.
  intros H0 H. destruct H as [|r l is Hr H| |r l is Hr H|seq l is k Hc H]; eauto.
  exfalso. apply csi_head in Hc as [x ->]. eapply H0. reflexivity.
Qed.
Lemma groups_chars cs : Forall (fun i => exists l, i = Chr l) cs -> forall ph cur isy, ph <> Trailing ->
  groupsFrom ph cur (cs ++ isy) = match cs with [] => groupsFrom ph cur isy | _ => groupsFrom InText (cur ++ cs) isy end.
Proof.
  induction 1 as [|i cs [l ->] _ IH]; intros ph cur isy Hp; [reflexivity|]. cbn [app groupsFrom].
  assert (groupsFrom InText (cur ++ [Chr l]) (cs ++ isy) = groupsFrom InText (cur ++ Chr l :: cs) isy) as E.
  { rewrite IH by discriminate. destruct cs; [reflexivity|]. now rewrite <- app_assoc. }
  destruct ph; [exact E|exact E|exact E|contradiction].
Qed.

(** Outcome of one call to StripANSIFromRunes on the window. *)
Definition within (s : sl) : Prop :=
  match s with
  | SNil => True
  | SView o n => zlen pre <= o /\ 0 <= n /\ o + n <= zlen pre + zlen tok
  | SFresh _ => False
  end.
(** at most one rune further than the window *)
Definition past (s : sl) : Prop :=
  match s with
  | SNil => True
  | SView o n => zlen pre <= o /\ 0 <= n /\ o + n <= zlen pre + zlen tok + 1
  | SFresh _ => False
  end.
Lemma within_past s : within s -> past s.
Proof. destruct s; cbn [within past]; auto. lia. Qed.
Lemma window_over d y x sp' : tok = d ++ y -> spare = x :: sp' -> window mem (zlen pre + zlen d) (zlen y + 1) = y ++ [x].
Proof.
  intros E1 E2. unfold window. rewrite E1, E2.
  replace (pre ++ (d ++ y) ++ x :: sp') with ((pre ++ d) ++ (y ++ [x]) ++ sp') by (now rewrite <- !app_assoc).
  rewrite skipn_app_exact by (rewrite app_length; unfold zlen; lia). apply firstn_app_exact. rewrite app_length. cbn [length]. unfold zlen. lia.
Qed.
(** the last rune of a stop sequence *)
Definition stopEnd (r : rune) : Prop := r = 117 \/ r = 108 \/ r = 109.
Lemma stop_end rest sp : csi u rest sp Stop -> exists s0 r, sp = ESC :: s0 ++ [r] /\ stopEnd r.
Proof.
  intros H. inversion H as [rest0 ps first f k Hp Hd Hs Hf E1 E2 E3| |]; subst. exists (91 :: ps), f. split; [reflexivity|]. unfold stopEnd. inversion Hf; auto.
Qed.
(** [its] is the first part *)
Definition closed (its : list item) (y : list rune) : Prop :=
  forall isy, lexed u y isy -> groups (its ++ isy) = its :: match y with [] => [] | _ => groups isy end.
Inductive strip_out : go (list rune * stripped) -> Prop :=
| so_panic : spare = [] -> overCond -> strip_out Panic
| so_over st x sp' : spare = x :: sp' -> overCond -> s_rem st = SView (zlen pre + zlen tok) 0 ->
    past (s_start st) -> past (s_text st) -> past (s_stop st) ->
    contents mem (s_start st) ++ contents mem (s_text st) ++ contents mem (s_stop st) = tok ++ [x] -> strip_out (Ret (mem, st))
| so_back st x sp' a r (ps : list rune) first : spare = x :: sp' -> overCond -> tok = a ++ r :: ESC :: 91 :: ps -> params u ps first true -> stopEnd r -> a <> [] ->
    s_rem st = SView (zlen pre + zlen a) (zlen tok - zlen a) -> within (s_start st) -> within (s_text st) -> within (s_stop st) ->
    contents mem (s_start st) ++ contents mem (s_text st) ++ contents mem (s_stop st) = a ++ [r] -> strip_out (Ret (mem, st))
| so_good st x y its : tok = x ++ y -> (tok = [] \/ x <> []) -> closed its y ->
    s_rem st = SView (zlen pre + zlen x) (zlen y) -> lexp its x y ->
    within (s_start st) -> within (s_text st) -> within (s_stop st) ->
    covers its (contents mem (s_start st)) (contents mem (s_text st)) (contents mem (s_stop st)) ->
    strip_out (Ret (mem, st)).

Lemma covers_eq st tx sp a b c :
  (st = [] \/ exists l, st = [Ctl Start l]) -> Forall isText tx -> (sp = [] \/ exists l, sp = [Ctl Stop l]) ->
  a = concat (map runesIn st) -> b = concat (map runesIn tx) -> c = concat (map runesIn sp) ->
  covers (st ++ tx ++ sp) a b c.
Proof. intros H1 H2 H3 -> -> ->. now constructor. Qed.

(** A start sequence [st] as it is kept in groups[0]. *)
Inductive group0 : sl -> list rune -> list item -> Prop :=
| g0_nil : group0 SNil [] []
| g0_seq seq : zlen seq >= 2 -> group0 (SView (zlen pre) (zlen seq)) seq [Ctl Start seq].
Lemma group0_start g0 sq i0 : group0 g0 sq i0 -> i0 = [] \/ exists l, i0 = [Ctl Start l].
Proof. destruct 1; eauto. Qed.
Lemma group0_contents g0 sq i0 rest : group0 g0 sq i0 -> tok = sq ++ rest ->
  contents mem g0 = sq /\ within g0 /\ concat (map runesIn i0) = sq.
Proof.
  destruct 1; intros E; [repeat split; auto|].
  split; [|split].
  - cbn [contents]. apply (window_mid [] seq rest); auto. rewrite zlen_nil; lia.
  - cbn [within]. rewrite E, zlen_app. pose proof (zlen_nonneg rest); lia.
  - cbn. apply app_nil_r.
Qed.

Ltac inlen := repeat match goal with
  | |- context [zlen ?l] => lazymatch goal with H : 0 <= zlen l |- _ => fail | _ => pose proof (zlen_nonneg l) end end.

(** The text read so far, before [rest]. *)
Definition reading (its : list item) (rest : list rune) : Prop :=
  (rest = [] /\ groups its = [its]) \/
  exists ph, (forall isy, groups (its ++ isy) = groupsFrom ph its isy) /\
    (ph = Trailing \/ ph = InText /\ (rest = [] \/ exists x, rest = ESC :: 91 :: x)).
Lemma reading_stop its sp rest : csi u rest sp Stop -> reading its (sp ++ rest) -> closed (its ++ [Ctl Stop sp]) rest.
Proof.
  intros Hc [[E _]|(ph & H & Hp)] isy Hy.
  - apply app_eq_nil in E as [E _]. destruct (csi_runes _ _ _ _ Hc E).
  - rewrite <- app_assoc, H. cbn [app groupsFrom]. now rewrite (fresh_groups rest isy Hy).
Qed.
Lemma reading_done its rest : reading its rest -> rest = [] \/ (exists seq l, rest = seq ++ l /\ csi u l seq Start) \/ (forall x, rest <> ESC :: 91 :: x) ->
  closed its rest.
Proof.
  intros [[-> H]|(ph & H & Hp)] Hr isy Hy.
  - inversion Hy as [E|? ? ? ? ? E|E|? ? ? ? ? E|seq l is k Hc ? E]; subst; [now rewrite app_nil_r|].
    apply app_eq_nil in E as [E _]. destruct (csi_runes _ _ _ _ Hc E).
  - rewrite H. destruct Hr as [->|[(seq & l & -> & Hc)|Hn]].
    + inversion Hy as [E|? ? ? ? ? E|E|? ? ? ? ? E|seq l is k Hc ? E]; subst; [|apply app_eq_nil in E as [E _]; destruct (csi_runes _ _ _ _ Hc E)].
      destruct Hp as [->|[-> _]]; reflexivity.
    + destruct (csi_inv_head _ _ _ _ Hc Hy) as (is' & -> & Hl). pose proof (csi_runes _ _ _ _ Hc) as Hne. destruct seq; [contradiction|]. cbn [app].
      destruct Hp as [->|[-> _]]; reflexivity.
    + destruct (text_head _ _ Hn Hy) as [[-> ->]|(l & is' & ->)]; [destruct Hp as [->|[-> _]]; reflexivity|].
      destruct Hp as [->|[-> [->|[x ->]]]]; [destruct rest; [inversion Hy; subst|reflexivity]| |destruct (Hn x); reflexivity].
      all: inversion Hy as [E|? ? ? ? ? E|E|? ? ? ? ? E|]; discriminate.
Qed.
Lemma reading_other its seq l : csi u l seq Other -> reading its (seq ++ l) -> reading (its ++ [Ctl Other seq]) l.
Proof.
  intros Hc [[E _]|(ph & H & Hp)]; [apply app_eq_nil in E as [E _]; destruct (csi_runes _ _ _ _ Hc E)|].
  right. exists Trailing. split; [|now left]. intros isy. rewrite <- app_assoc, H. cbn [app groupsFrom]. destruct Hp as [->|[-> _]]; reflexivity.
Qed.
Lemma reading_start i0 cs rest rest' g0 sq : group0 g0 sq i0 -> Forall (fun i => exists l, i = Chr l) cs -> lexp cs rest rest' ->
  (forall x, rest ++ rest' <> ESC :: 91 :: x) -> (rest' = [] \/ exists x, rest' = ESC :: 91 :: x) -> reading (i0 ++ cs) rest'.
Proof.
  intros Hg Hc (Hl & _ & _) Hn He. destruct cs as [|c cs].
  - cbn [map concat] in Hl. subst rest. cbn [app] in Hn. destruct He as [->|[x ->]]; [|now destruct (Hn x)].
    left. split; [reflexivity|]. destruct Hg; reflexivity.
  - right. exists InText. split; [|now right]. intros isy. rewrite <- app_assoc. destruct Hg as [|seq Hs].
    + transitivity (groupsFrom Fresh [] ((c :: cs) ++ isy)); [reflexivity|]. now rewrite (groups_chars _ Hc) by discriminate.
    + transitivity (groupsFrom Started [Ctl Start seq] ((c :: cs) ++ isy)); [reflexivity|]. now rewrite (groups_chars _ Hc) by discriminate.
Qed.

(** After a stop sequence, the second loop ends at once. *)
Lemma stop_loop_stop g0 sq i0 t its sp rest : reading (i0 ++ its) (sp ++ rest) ->
  tok = sq ++ t ++ sp ++ rest -> group0 g0 sq i0 ->
  lexp i0 sq (t ++ sp ++ rest) -> lexp its t (sp ++ rest) -> Forall isText its -> csi u rest sp Stop ->
  exists out, strip_out out /\ forall F fuel', (length tok < F)%nat -> (0 < fuel')%nat ->
    stop_loop u F mem fuel' (V (zlen sq + zlen t + zlen sp)) g0
              (SView (zlen pre + zlen sq) (zlen t)) (SView (zlen pre + zlen sq + zlen t) (zlen sp)) = out.
Proof using Hmem.
  intros Hread Htok Hg Hl0 Hl1 Hit Hsp.
  assert (Hlen : zlen tok = zlen sq + zlen t + zlen sp + zlen rest) by (rewrite Htok, !zlen_app; lia).
  assert (Htok' : tok = (sq ++ t ++ sp) ++ rest) by (rewrite <- !app_assoc; exact Htok).
  assert (Hd : zlen (sq ++ t ++ sp) = zlen sq + zlen t + zlen sp) by (rewrite !zlen_app; lia).
  pose proof (csi_len _ _ _ Hsp) as Hsp2.
  pose proof (zlen_nonneg sq); pose proof (zlen_nonneg t); pose proof (zlen_nonneg rest).
  set (st := mkStripped (SView (zlen pre + zlen sq) (zlen t)) g0 (SView (zlen pre + zlen sq + zlen t) (zlen sp))
                        (SView (zlen pre + (zlen sq + zlen t + zlen sp)) (zlen tok - (zlen sq + zlen t + zlen sp)))).
  destruct (group0_contents _ _ _ _ Hg Htok) as (Hc0 & Hw0 & Hi0).
  assert (Hgood : strip_out (Ret (mem, st))).
  { apply so_good with (x := sq ++ t ++ sp) (y := rest) (its := i0 ++ its ++ [Ctl Stop sp]).
    - exact Htok'.
    - right. intros E. apply (f_equal zlen) in E. rewrite Hd, zlen_nil in E. lia.
    - rewrite app_assoc. now apply reading_stop.
    - cbn [s_rem st]. rewrite Hd. f_equal. lia.
    - apply lexp_app; [now rewrite <- app_assoc|]. apply lexp_app; [exact Hl1|]. now apply lexp_csi.
    - exact Hw0.
    - cbn [s_text st within]. lia.
    - cbn [s_stop st within]. lia.
    - cbn [s_start s_text s_stop st contents].
      rewrite (window_mid sq t (sp ++ rest)) by auto.
      rewrite (window_mid (sq ++ t) sp rest) by (rewrite ?zlen_app, <- ?app_assoc; auto; lia).
      rewrite Hc0, <- Hi0. destruct Hl1 as (-> & _ & _).
      replace sp with (concat (map runesIn [Ctl Stop sp])) at 2 by (cbn; apply app_nil_r).
      apply covers_intro; eauto. eapply group0_start; eauto. }
  assert (Hover : forall ps first, rest = ESC :: 91 :: ps -> params u ps first true -> overCond).
  { intros ps first E Hps. apply (over_intro (i0 ++ its ++ [Ctl Stop sp]) (sq ++ t ++ sp) ps first); [now rewrite Htok', E at 1| |exact Hps].
    rewrite <- E. apply lexp_app; [now rewrite <- app_assoc|]. apply lexp_app; [exact Hl1|]. now apply lexp_csi. }
  destruct (decode_spec (sq ++ t ++ sp) rest Htok') as [Hn Hdec|seq l k E Hcsi Hdec|ps first x sp' E Hps Hspare Hdec|ps first E Hps Hspare Hdec];
    rewrite Hd in Hdec.
  - exists (Ret (mem, st)). split; [exact Hgood|]. intros F [|f] HF Hf; [lia|]. cbn [stop_loop]. rewrite (Hdec F HF). cbn [gbind].
    rewrite vRunes_V by lia. reflexivity.
  - exists (Ret (mem, st)). split; [exact Hgood|]. intros F [|f] HF Hf; [lia|]. cbn [stop_loop]. rewrite (Hdec F HF). cbn [gbind].
    pose proof (csi_len _ _ _ Hcsi). assert (zlen rest = zlen seq + zlen l) by (rewrite E, zlen_app; lia).
    pose proof (zlen_nonneg l).
    assert (Hrew : rewind mem (V (zlen sq + zlen t + zlen sp + zlen seq))
                     (SView (zlen pre + (zlen sq + zlen t + zlen sp)) (zlen seq)) = V (zlen sq + zlen t + zlen sp)).
    { rewrite (rewind_V _ _ (zlen seq)) by (cbn [slen]; lia). f_equal; lia. }
    destruct k; cbn [asKind]; rewrite ?Hrew.
    + rewrite vRunes_V by lia. reflexivity.
    + cbn [slen]. destruct (Z.eqb_spec (zlen sp) 0); [lia|].
      destruct (Z.ltb_spec 0 (zlen seq)); [|lia]. rewrite vRunes_V by lia. reflexivity.
    + cbn [slen]. destruct (Z.eqb_spec (zlen sp) 0); [lia|]. rewrite vRunes_V by lia. reflexivity.
  - assert (Hrest2 : zlen rest >= 2) by (unfold zlen; rewrite E; cbn [length]; lia).
    set (o := zlen tok - (zlen rest + 1)).
    exists (Ret (mem, mkStripped (SView (zlen pre + zlen sq) (zlen t)) g0
                        (SView (zlen pre + zlen sq + zlen t) (zlen sp)) (SView (zlen pre + o) (zlen tok - o)))).
    destruct (stop_end _ _ Hsp) as (s0 & r & Esp & Hr).
    assert (Ha : zlen (sq ++ t ++ ESC :: s0) = o).
    { unfold o. rewrite Hlen, Esp. rewrite ?zlen_app, ?zlen_cons, ?zlen_app, ?zlen_cons, ?zlen_nil. lia. }
    split.
    { apply (so_back _ x sp' (sq ++ t ++ ESC :: s0) r ps first); auto.
      - apply (Hover ps first E Hps).
      - rewrite Htok, E, Esp. rewrite <- !app_assoc. cbn [app]. rewrite <- !app_assoc. reflexivity.
      - destruct sq; [destruct t|]; discriminate.
      - cbn [s_rem]. now rewrite Ha.
      - cbn [s_text within]. lia.
      - cbn [s_stop within]. lia.
      - cbn [s_start s_text s_stop contents].
        rewrite (window_mid sq t (sp ++ rest)) by auto.
        rewrite (window_mid (sq ++ t) sp rest) by (rewrite ?zlen_app, <- ?app_assoc; auto; lia).
        rewrite Hc0, Esp, <- !app_assoc. reflexivity. }
    intros F [|f] HF Hf; [lia|]. cbn [stop_loop]. rewrite (Hdec F HF). cbn [gbind slen].
    destruct (Z.eqb_spec (zlen sp) 0); [lia|].
    rewrite (rewind_V _ _ (zlen rest + 1)) by (cbn [slen]; lia). fold o. rewrite vRunes_V by (unfold o; lia). reflexivity.
  - exists Panic. split.
    { apply so_panic; [exact Hspare|]. apply (Hover ps first E Hps). }
    intros F [|f] HF Hf; [lia|]. cbn [stop_loop]. rewrite (Hdec F HF). reflexivity.
Qed.

(** The second loop before any stop sequence: text, then sequences that are neither start nor stop. *)
Lemma stop_loop_text n : forall g0 sq i0 t its rest, reading (i0 ++ its) rest ->
  (length rest <= n)%nat ->
  tok = sq ++ t ++ rest -> group0 g0 sq i0 ->
  lexp i0 sq (t ++ rest) -> lexp its t rest -> Forall isText its ->
  (tok = [] \/ sq ++ t <> []) ->
  exists out, strip_out out /\ forall F fuel', (length tok < F)%nat -> (n < fuel')%nat ->
    stop_loop u F mem fuel' (V (zlen sq + zlen t)) g0 (SView (zlen pre + zlen sq) (zlen t)) SNil = out.
Proof using Hmem.
  induction n as [n IH] using lt_wf_ind. intros g0 sq i0 t its rest Hread Hn Htok Hg Hl0 Hl1 Hit Hprog.
  assert (Hlen : zlen tok = zlen sq + zlen t + zlen rest) by (rewrite Htok, !zlen_app; lia).
  assert (Htok' : tok = (sq ++ t) ++ rest) by (rewrite <- !app_assoc; exact Htok).
  assert (Hd : zlen (sq ++ t) = zlen sq + zlen t) by (rewrite !zlen_app; lia).
  pose proof (zlen_nonneg sq); pose proof (zlen_nonneg t); pose proof (zlen_nonneg rest).
  pose proof (zlen_nonneg pre) as Hpre. pose proof (zlen_nonneg spare) as Hspa.
  set (st := mkStripped (SView (zlen pre + zlen sq) (zlen t)) g0 SNil
                        (SView (zlen pre + (zlen sq + zlen t)) (zlen tok - (zlen sq + zlen t)))).
  destruct (group0_contents _ _ _ _ Hg Htok) as (Hc0 & Hw0 & Hi0).
  assert (Hgood : rest = [] \/ (exists seq l, rest = seq ++ l /\ csi u l seq Start) \/ (forall x, rest <> ESC :: 91 :: x) -> strip_out (Ret (mem, st))).
  { intros Hr. apply so_good with (x := sq ++ t) (y := rest) (its := i0 ++ its ++ []).
    - exact Htok'.
    - exact Hprog.
    - rewrite app_nil_r. now apply reading_done.
    - cbn [s_rem st]. rewrite Hd. f_equal. lia.
    - rewrite app_nil_r. apply lexp_app; auto.
    - exact Hw0.
    - cbn [s_text st within]. lia.
    - exact I.
    - cbn [s_start s_text s_stop st contents].
      rewrite (window_mid sq t rest) by auto.
      rewrite Hc0, <- Hi0. destruct Hl1 as (-> & _ & _).
      change (@nil rune) with (concat (map runesIn [])) at 1.
      apply covers_intro; eauto. eapply group0_start; eauto. }
  assert (Hover : forall ps first, rest = ESC :: 91 :: ps -> params u ps first true -> overCond).
  { intros ps first E Hps. apply (over_intro (i0 ++ its) (sq ++ t) ps first); [now rewrite Htok', E at 1| |exact Hps].
    rewrite <- E. apply lexp_app; auto. }
  destruct (decode_spec (sq ++ t) rest Htok') as [Hno Hdec|seq l k E Hcsi Hdec|ps first x sp' E Hps Hspare Hdec|ps first E Hps Hspare Hdec];
    rewrite Hd in Hdec.
  - exists (Ret (mem, st)). split; [apply Hgood; right; right; exact Hno|]. intros F [|f] HF Hf; [lia|]. cbn [stop_loop]. rewrite (Hdec F HF). cbn [gbind].
    rewrite vRunes_V by lia. reflexivity.
  - pose proof (csi_len _ _ _ Hcsi) as Hseq2. assert (zlen rest = zlen seq + zlen l) by (rewrite E, zlen_app; lia).
    pose proof (zlen_nonneg l).
    assert (Hll : (length l < n)%nat).
    { rewrite E, app_length in Hn. unfold zlen in Hseq2. lia. }
    destruct k; cbn [asKind] in Hdec.
    + exists (Ret (mem, st)). split; [apply Hgood; right; left; now exists seq, l|]. intros F [|f] HF Hf; [lia|]. cbn [stop_loop]. rewrite (Hdec F HF). cbn [gbind].
      rewrite (rewind_V _ _ (zlen seq)) by (cbn [slen]; lia).
      replace (zlen sq + zlen t + zlen seq - zlen seq) with (zlen sq + zlen t) by lia.
      rewrite vRunes_V by lia. reflexivity.
    + destruct (stop_loop_stop g0 sq i0 t its seq l) as (out & Hout & Hloop); auto; try lia.
      { now rewrite <- E. } { now rewrite Htok, E. } { now rewrite <- E. } { now rewrite <- E. }
      exists out. split; [exact Hout|]. intros F [|f] HF Hf; [lia|]. cbn [stop_loop]. rewrite (Hdec F HF). cbn [gbind].
      cbn [slen]. rewrite Z.eqb_refl. rewrite <- (Hloop F f) by lia. f_equal. f_equal. lia.
    + destruct (IH (length l) Hll g0 sq i0 (t ++ seq) (its ++ [Ctl Other seq]) l) as (out & Hout & Hloop); auto.
      { rewrite app_assoc. apply reading_other; [exact Hcsi|]. now rewrite <- E. }
      { now rewrite Htok, E, <- !app_assoc. } { now rewrite <- app_assoc, <- E. }
      { apply lexp_app; [now rewrite <- E|now apply lexp_csi]. }
      { apply Forall_app; split; [exact Hit|repeat constructor]. }
      { destruct Hprog as [Hp|Hp]; [left; exact Hp|right]. intros Hx. apply Hp.
        rewrite app_assoc in Hx. now apply app_eq_nil in Hx. }
      exists out. split; [exact Hout|]. intros F [|f] HF Hf; [lia|]. cbn [stop_loop]. rewrite (Hdec F HF). cbn [gbind].
      cbn [slen]. rewrite Z.eqb_refl.
      replace (zlen pre + (zlen sq + zlen t)) with (zlen pre + zlen sq + zlen t) by lia.
      rewrite append_same by (rewrite ?zlen_app; lia). cbn iota beta.
      rewrite <- (Hloop F f) by lia. rewrite zlen_app. f_equal. f_equal. lia.
  - assert (Hrest2 : zlen rest >= 2) by (unfold zlen; rewrite E; cbn [length]; lia).
    assert (Hsp1 : zlen spare >= 1) by (rewrite Hspare, zlen_cons; pose proof (zlen_nonneg sp'); lia).
    exists (Ret (mem, mkStripped (SView (zlen pre + zlen sq) (zlen t + (zlen rest + 1))) g0 SNil
                        (SView (zlen pre + zlen tok) (zlen tok - zlen tok)))).
    split.
    { apply (so_over _ x sp'); cbn [s_rem s_start s_text s_stop]; eauto; [now rewrite Z.sub_diag|now apply within_past|cbn [past]; lia|exact I|].
      replace (zlen t + (zlen rest + 1)) with (zlen (t ++ rest) + 1) by (rewrite zlen_app; lia).
      cbn [contents]. rewrite (window_over sq (t ++ rest) x sp' Htok Hspare), Hc0, Htok, app_nil_r, <- !app_assoc. reflexivity. }
    intros F [|[|f]] HF Hf; [lia|unfold zlen in *; lia|].
    assert (Hend : decodeANSI u F mem (V (zlen tok)) = Ret (SNil, KOther, V (zlen tok))).
    { destruct (decode_spec tok []) as [Hno' Hdec'|seq l k E' Hcsi Hdec'|? ? ? ? E' _ _ _|? ? E' _ _ _];
        [now rewrite app_nil_r|exact (Hdec' F HF)| |discriminate|discriminate].
      apply csi_head in Hcsi as [x' ->]. discriminate. }
    cbn [stop_loop]. rewrite (Hdec F HF). cbn [gbind slen]. rewrite Z.eqb_refl.
    replace (zlen pre + (zlen sq + zlen t)) with (zlen pre + zlen sq + zlen t) by lia.
    rewrite append_same by (rewrite ?zlen_app; lia). cbn iota beta.
    rewrite Hend. cbn [gbind]. rewrite vRunes_V by lia. reflexivity.
  - exists Panic. split.
    { apply so_panic; eauto. }
    intros F [|f] HF Hf; [lia|]. cbn [stop_loop]. rewrite (Hdec F HF). reflexivity.
Qed.

(** The first loop. *)
Lemma start_loop_spec n : forall g0 sq i0 rest,
  (length rest <= n)%nat -> tok = sq ++ rest -> group0 g0 sq i0 -> lexp i0 sq rest ->
  exists out, (forall F fuel', (length tok < F)%nat -> (n < fuel')%nat -> start_loop u F mem fuel' (V (zlen sq)) g0 = out) /\
   match out with
   | Panic => spare = [] /\ overCond
   | Ret (inl st) => strip_out (Ret (mem, st))
   | Ret (inr (v1, g0')) => exists sq' i0' rest', tok = sq' ++ rest' /\ group0 g0' sq' i0' /\ v1 = V (zlen sq') /\
        lexp i0' sq' rest' /\ (forall x, rest' <> ESC :: 91 :: x)
   end.
Proof using Hmem.
  induction n as [n IH] using lt_wf_ind. intros g0 sq i0 rest Hn Htok Hg Hl0.
  assert (Hlen : zlen tok = zlen sq + zlen rest) by (rewrite Htok, !zlen_app; lia).
  pose proof (zlen_nonneg sq); pose proof (zlen_nonneg rest).
  pose proof (zlen_nonneg pre) as Hpre. pose proof (zlen_nonneg spare) as Hspa.
  destruct (group0_contents _ _ _ _ Hg Htok) as (Hc0 & Hw0 & Hi0).
  assert (Hover : forall ps first, rest = ESC :: 91 :: ps -> params u ps first true -> overCond).
  { intros ps first E Hps. apply (over_intro i0 sq ps first); [now rewrite Htok, E at 1| |exact Hps]. now rewrite <- E. }
  destruct (decode_spec sq rest Htok) as [Hno Hdec|seq l k E Hcsi Hdec|ps first x sp' E Hps Hspare Hdec|ps first E Hps Hspare Hdec].
  - eexists. split.
    { intros F [|f] HF Hf; [lia|]. cbn [start_loop]. rewrite (Hdec F HF). cbn [gbind]. reflexivity. }
    cbv beta iota. exists sq, i0, rest. auto.
  - pose proof (csi_len _ _ _ Hcsi) as Hseq2. assert (zlen rest = zlen seq + zlen l) by (rewrite E, zlen_app; lia).
    pose proof (zlen_nonneg l).
    assert (Hll : (length l < n)%nat).
    { rewrite E, app_length in Hn. unfold zlen in Hseq2. lia. }
    assert (Hseq : seq <> []) by (intros Hx; rewrite Hx, zlen_nil in Hseq2; lia).
    destruct k; cbn [asKind] in Hdec.
    + assert (Hg' := Hg). destruct Hg' as [|seq0 Hs0].
      * destruct (IH (length l) Hll (SView (zlen pre) (zlen seq)) seq [Ctl Start seq] l)
          as (out & Hloop & Hout); auto.
        { rewrite Htok. cbn [app]. exact E. } { constructor; lia. } { now apply lexp_csi. }
        exists out. split; [|exact Hout]. intros F [|f] HF Hf; [lia|]. cbn [start_loop]. rewrite (Hdec F HF). cbn [gbind slen].
        rewrite Z.eqb_refl. rewrite <- (Hloop F f) by lia. rewrite zlen_nil. f_equal; f_equal; lia.
      * eexists. split.
        { intros F [|f] HF Hf; [lia|]. cbn [start_loop]. rewrite (Hdec F HF). cbn [gbind slen].
          destruct (Z.eqb_spec (zlen seq0) 0); [lia|]. destruct (Z.ltb_spec 0 (zlen seq)); [|lia].
          rewrite (rewind_V _ _ (zlen seq)) by (cbn [slen]; lia).
          replace (zlen seq0 + zlen seq - zlen seq) with (zlen seq0) by lia.
          rewrite vRunes_V by lia. cbn [gbind]. reflexivity. }
        cbv beta iota. apply so_good with (x := seq0) (y := rest) (its := [Ctl Start seq0] ++ [] ++ []); auto.
        -- right. intros Hx. rewrite Hx, zlen_nil in Hs0. lia.
        -- intros isy Hy. rewrite E in Hy. destruct (csi_inv_head _ _ _ _ Hcsi Hy) as (is' & -> & Hl).
           destruct rest; [symmetry in E; apply app_eq_nil in E as [E _]; contradiction|]. reflexivity.
        -- cbn [s_rem]. f_equal; lia.
        -- exact I.
        -- exact I.
        -- cbn [s_start s_text s_stop contents]. cbn [contents] in Hc0. rewrite Hc0.
           replace seq0 with (concat (map runesIn [Ctl Start seq0])) at 2 by (cbn; apply app_nil_r).
           change (@nil rune) with (concat (map runesIn [])).
           apply covers_intro; eauto.
    + eexists. split.
      { intros F [|f] HF Hf; [lia|]. cbn [start_loop]. rewrite (Hdec F HF). cbn [gbind slen].
        rewrite vRunes_V by lia. cbn [gbind]. reflexivity. }
      cbv beta iota. apply so_good with (x := sq ++ seq) (y := l) (its := i0 ++ [] ++ [Ctl Stop seq]); auto.
      * now rewrite <- app_assoc, <- E.
      * right. intros Hx. apply app_eq_nil in Hx. tauto.
      * intros isy Hy. rewrite <- (fresh_groups _ _ Hy). destruct Hg; reflexivity.
      * cbn [s_rem]. rewrite zlen_app. f_equal; lia.
      * apply lexp_app; [now rewrite <- E|now apply lexp_csi].
      * exact I.
      * cbn [s_stop within]. lia.
      * cbn [s_start s_text s_stop contents]. rewrite (window_mid sq seq l) by (try lia; rewrite Htok, E; reflexivity).
        apply covers_eq; eauto; [eapply group0_start; eauto|congruence|cbn; now rewrite app_nil_r].
    + eexists. split.
      { intros F [|f] HF Hf; [lia|]. cbn [start_loop]. rewrite (Hdec F HF). cbn [gbind slen].
        rewrite vRunes_V by lia. cbn [gbind]. reflexivity. }
      cbv beta iota. apply so_good with (x := sq ++ seq) (y := l) (its := i0 ++ [Ctl Other seq] ++ []); auto.
      * now rewrite <- app_assoc, <- E.
      * right. intros Hx. apply app_eq_nil in Hx. tauto.
      * intros isy Hy. rewrite <- (fresh_groups _ _ Hy). destruct Hg; reflexivity.
      * cbn [s_rem]. rewrite zlen_app. f_equal; lia.
      * apply lexp_app; [now rewrite <- E|now apply lexp_csi].
      * cbn [s_text within]. lia.
      * exact I.
      * cbn [s_start s_text s_stop contents]. rewrite (window_mid sq seq l) by (try lia; rewrite Htok, E; reflexivity).
        apply covers_eq; eauto; [eapply group0_start; eauto|repeat constructor|congruence|cbn; now rewrite app_nil_r].
  - assert (Hrest2 : zlen rest >= 2) by (unfold zlen; rewrite E; cbn [length]; lia).
    eexists. split.
    { intros F [|f] HF Hf; [lia|]. cbn [start_loop]. rewrite (Hdec F HF). cbn [gbind slen].
      rewrite vRunes_V by lia. cbn [gbind]. reflexivity. }
    cbv beta iota. apply (so_over _ x sp'); cbn [s_rem s_start s_text s_stop]; eauto; [now rewrite Z.sub_diag|now apply within_past|cbn [past]; lia|exact I|].
    cbn [contents]. rewrite (window_over sq rest x sp' Htok Hspare), Hc0, Htok, app_nil_r, <- !app_assoc. reflexivity.
  - exists Panic. split; [|eauto].
    intros F [|f] HF Hf; [lia|]. cbn [start_loop]. rewrite (Hdec F HF). reflexivity.
Qed.

Lemma stripRunes_spec : exists out, strip_out out /\ forall F, (length tok < F)%nat ->
  stripRunes u F mem (zlen pre) (zlen tok) = out.
Proof using Hmem.
  unfold stripRunes.
  destruct (start_loop_spec (length tok) SNil [] [] tok) as (out & Hloop & Hout); [lia|reflexivity|constructor|apply lexp_nil|].
  rewrite zlen_nil in Hloop.
  destruct out as [[st|[v1 g0]]|].
  - exists (Ret (mem, st)). split; [exact Hout|]. intros F HF. rewrite (Hloop F F) by lia. reflexivity.
  - destruct Hout as (sq & i0 & rest & Htok & Hg & -> & Hl & Hno).
    destruct (decodeText_spec sq rest Htok) as (t & rest' & its & E & Hlt & Hc & Hend & Hdec).
    destruct (stop_loop_text (length rest') g0 sq i0 t its rest') as (out & Hso & Hst); auto.
    + eapply reading_start; try eassumption. now rewrite <- E.
    + now rewrite Htok, E.
    + now rewrite <- E.
    + eapply Forall_impl; [|exact Hc]. intros i [l ->]. exact I.
    + destruct Hend as [->|[x ->]].
      * rewrite app_nil_r in E. subst rest. rewrite <- Htok. destruct tok; [auto|right; discriminate].
      * right. intros Hx. apply app_eq_nil in Hx as [-> ->]. cbn [app] in E. now apply (Hno x).
    + exists out. split; [exact Hso|]. intros F HF. rewrite (Hloop F F) by lia. cbn [gbind].
      rewrite (Hdec F HF). cbn [gbind]. apply Hst; auto. rewrite Htok, E, !app_length in HF. lia.
  - destruct Hout as [Hs Ho]. exists Panic. split; [now apply so_panic|].
    intros F HF. rewrite (Hloop F F) by lia. reflexivity.
Qed.
(** What remains once the reader has gone back too far. *)
Lemma strip_last r (ps : list rune) first x sp' : tok = r :: ESC :: 91 :: ps -> r <> ESC -> params u ps first true -> spare = x :: sp' ->
  forall F, (length tok < F)%nat ->
  stripRunes u F mem (zlen pre) (zlen tok) = Ret (mem, mkStripped (SView (zlen pre) (zlen tok + 1)) SNil SNil (SView (zlen pre + zlen tok) 0)).
Proof using Hmem.
  intros Htok Hr Hp Hs F HF. pose proof tok_small as Hsm. pose proof (zlen_nonneg ps).
  assert (Hlen : zlen tok = 3 + zlen ps) by (rewrite Htok, !zlen_cons; lia).
  assert (Hsp1 : zlen spare = 1 + zlen sp') by (rewrite Hs, zlen_cons; lia). pose proof (zlen_nonneg sp'). pose proof (zlen_nonneg pre).
  assert (HF3 : (3 < F)%nat) by (rewrite Htok in HF; cbn [length] in HF; lia).
  unfold stripRunes. change (mkV (zlen pre) (zlen tok) 0) with (V 0).
  assert (E0 : start_loop u F mem F (V 0) SNil = Ret (inr (V 0, SNil))).
  { destruct (decode_spec [] tok eq_refl) as [_ Hd|seq l k E Hc _|ps' first' x' sp2 E _ _ _|ps' first' E _ _ _].
    - destruct F as [|f]; [lia|]. cbn [start_loop]. rewrite zlen_nil in Hd. rewrite (Hd (S f) HF). reflexivity.
    - exfalso. apply csi_head in Hc as [y ->]. rewrite Htok in E. cbn [app] in E. injection E as E _. contradiction.
    - exfalso. rewrite Htok in E. injection E as E _. contradiction.
    - exfalso. rewrite Htok in E. injection E as E _. contradiction. }
  rewrite E0. cbn [gbind].
  assert (E1 : decodeText F mem (V 0) = Ret (SView (zlen pre) 1, V 1)).
  { assert (E1 : text_loop mem F (V 0) 0 = Ret (V 1, 1)).
    { destruct F as [|[|f]]; [lia|lia|]. cbn [text_loop].
      rewrite (vRead_cons [] r (ESC :: 91 :: ps)) by auto. cbn [gbind]. destruct (Z.eqb_spec r esc); [contradiction|].
      rewrite (vRead_cons [r] ESC (91 :: ps)) by auto. cbn [gbind]. change (ESC =? esc) with true. cbn iota.
      rewrite (vRead_cons [r; ESC] 91 ps) by auto. cbn [gbind]. change (91 =? bracket) with true. cbn iota.
      change (0 + 1 + 1 + 1) with 3. rewrite (vSeek_cur 3 (-2)) by lia. change (3 + -2) with 1.
      destruct (Z.ltb_spec (zlen tok) 1); [lia|]. reflexivity. }
    unfold decodeText. rewrite vSeek_here by lia. cbn [fst snd]. rewrite E1. cbn [gbind]. rewrite vSlice_V.
    change (0 + 1) with 1. destruct (Z.leb_spec 1 (zlen tok + zlen spare)); [|lia]. cbn [andb Z.leb Z.compare gbind]. now rewrite Z.add_0_r. }
  rewrite E1. cbn [gbind].
  destruct (decode_spec [r] (ESC :: 91 :: ps) Htok) as [Hno _|seq l k E Hc _|ps' first' x' sp2 E _ _ Hd|ps' first' E _ E2 _].
  - now destruct (Hno ps).
  - exfalso. exact (csi_not_over u _ _ _ _ _ Hc (Logic.eq_sym E) Hp).
  - destruct F as [|[|f]]; [lia|lia|].
    assert (Hend : decodeANSI u (S (S f)) mem (V (zlen tok)) = Ret (SNil, KOther, V (zlen tok))).
    { destruct (decode_spec tok []) as [Hno' Hdec'|seq l k E' Hcsi Hdec'|? ? ? ? E' _ _ _|? ? E' _ _ _];
        [now rewrite app_nil_r|exact (Hdec' _ HF)| |discriminate|discriminate].
      apply csi_head in Hcsi as [x2 ->]. discriminate. }
    cbn [stop_loop]. specialize (Hd (S (S f)) HF). change (zlen [r]) with 1 in Hd. rewrite Hd. cbn [gbind slen]. rewrite Z.eqb_refl.
    rewrite append_same by (rewrite ?zlen_app, ?zlen_cons; lia). cbn iota beta. rewrite Hend. cbn [gbind]. rewrite vRunes_V by lia. cbn [gbind].
    rewrite Z.sub_diag. do 4 f_equal. rewrite !zlen_cons. lia.
  - congruence.
Qed.
End Win.

Lemma cutShort_suffix u a b : cutShort u b -> cutShort u (a ++ b).
Proof.
  intros (x & ps & first & -> & H). exists (a ++ x), ps, first. split; [apply app_assoc|exact H].
Qed.

Lemma overCond_suffix u its a b : lexp u its a b -> overCond u b -> overCond u (a ++ b).
Proof.
  intros (_ & _ & K) [H1 H2]. split; [now apply cutShort_suffix|]. intros items H. destruct (K _ H) as (isy & _ & Hy). now apply (H2 isy).
Qed.

(** Outcome of StripToken on a window. *)
Definition partWithin (pre tok : list rune) (p : stripped) : Prop :=
  within pre tok (s_start p) /\ within pre tok (s_text p) /\ within pre tok (s_stop p) /\ within pre tok (s_rem p).
Definition partCovers (mem : list rune) (i : list item) (p : stripped) : Prop :=
  covers i (contents mem (s_start p)) (contents mem (s_text p)) (contents mem (s_stop p)).
Definition joined (mem : list rune) (ps : list stripped) : list rune :=
  concat (map (fun p => contents mem (s_start p) ++ contents mem (s_text p) ++ contents mem (s_stop p)) ps).
Definition tok_out (u : unicode) (pre tok spare : list rune) (out : go (list rune * list stripped)) : Prop :=
  let mem := pre ++ tok ++ spare in
  match out with
  | Panic => spare = [] /\ overCond u tok
  | Ret (m, ps) => m = mem /\
      ((exists x sp', spare = x :: sp' /\ overCond u tok /\ Forall (partWithin pre (tok ++ [x])) ps /\
          (joined mem ps = tok ++ [x] \/
           exists a r qs first, tok = a ++ r :: ESC :: 91 :: qs /\ params u qs first true /\ stopEnd r /\
             joined mem ps = a ++ r :: r :: ESC :: 91 :: qs ++ [x])) \/
       (exists its, lexed u tok (concat its) /\ its = groups (concat its) /\ Forall2 (partCovers mem) its ps /\ Forall (partWithin pre tok) ps))
  end.

Lemma within_suffix pre x y s : within (pre ++ x) y s -> within pre (x ++ y) s.
Proof.
  destruct s as [|o n|l]; cbn [within]; auto. rewrite !zlen_app. pose proof (zlen_nonneg x). lia.
Qed.

Lemma past_within pre tok x s : past pre tok s -> within pre (tok ++ [x]) s.
Proof. destruct s; cbn [past within]; auto. rewrite zlen_app. change (zlen [x]) with 1. lia. Qed.
Lemma covers_concat i a b c : covers i a b c -> a ++ b ++ c = concat (map runesIn i).
Proof. destruct 1. now rewrite !map_app, !concat_app. Qed.
Lemma tokens_spec u n : forall pre tok spare, (length tok <= n)%nat -> zlen (pre ++ tok ++ spare) < 2 ^ 63 ->
  exists out, tok_out u pre tok spare out /\
    forall F fuel acc, (length tok < F)%nat -> (n < fuel)%nat ->
      stripToken_loop u F (pre ++ tok ++ spare) fuel (zlen pre) (zlen tok) acc =
      gbind out (fun p => Ret (fst p, acc ++ snd p)).
Proof.
  induction n as [n IH] using lt_wf_ind. intros pre tok spare Hn Hmem.
  destruct (stripRunes_spec u pre tok spare Hmem) as (out & Hout & Hrun).
  destruct Hout as [Hsp Hov|st x sp' Hsp Hov Hrem Hw1 Hw2 Hw3 Hcov|st x sp' a r ps first Hsp Hov Htok Hp Hr Ha Hrem Hw1 Hw2 Hw3 Hcov|st x y its Htok Hprog Hclo Hrem Hlex Hw1 Hw2 Hw3 Hcov].
  - exists Panic. split; [split; [exact Hsp|exact Hov]|].
    intros F [|f] acc HF Hf; [lia|]. cbn [stripToken_loop]. now rewrite (Hrun F HF).
  - exists (Ret (pre ++ tok ++ spare, [st])). split.
    { split; [reflexivity|]. left. exists x, sp'. split; [exact Hsp|]. split; [exact Hov|]. split.
      - constructor; [|constructor]. split; [now apply past_within|]. split; [now apply past_within|]. split; [now apply past_within|].
        rewrite Hrem. cbn [within]. rewrite zlen_app. pose proof (zlen_nonneg tok). pose proof (zlen_nonneg [x]). lia.
      - left. unfold joined. cbn [map concat]. now rewrite app_nil_r. }
    intros F [|f] acc HF Hf; [lia|]. cbn [stripToken_loop]. rewrite (Hrun F HF). cbn [gbind]. rewrite Hrem. reflexivity.
  - assert (Hmem' : pre ++ tok ++ spare = (pre ++ a) ++ (r :: ESC :: 91 :: ps) ++ spare) by (now rewrite Htok, <- !app_assoc).
    assert (Hl2 : zlen tok - zlen a = zlen (r :: ESC :: 91 :: ps)) by (rewrite Htok, zlen_app; lia).
    assert (Hr' : r <> ESC) by (destruct Hr as [-> | [-> | ->]]; discriminate).
    pose proof (strip_last u (pre ++ a) (r :: ESC :: 91 :: ps) spare) as Hlast. rewrite <- Hmem' in Hlast.
    specialize (Hlast Hmem r ps first x sp' eq_refl Hr' Hp Hsp). rewrite zlen_app in Hlast.
    set (st2 := mkStripped _ _ _ _) in Hlast.
    exists (Ret (pre ++ tok ++ spare, [st; st2])). split.
    { split; [reflexivity|]. left. exists x, sp'. split; [exact Hsp|]. split; [exact Hov|].
      assert (Hx : zlen (tok ++ [x]) = zlen a + zlen (r :: ESC :: 91 :: ps) + 1) by (rewrite zlen_app, zlen_cons, zlen_nil; lia).
      pose proof (zlen_nonneg a). pose proof (zlen_nonneg (r :: ESC :: 91 :: ps)). split.
      - constructor; [|constructor; [|constructor]].
        + split; [now apply past_within, within_past|]. split; [now apply past_within, within_past|]. split; [now apply past_within, within_past|].
          rewrite Hrem. cbn [within]. lia.
        + split; [exact I|]. split; [|split; [exact I|]]; unfold st2; cbn [s_text s_rem within]; lia.
      - right. exists a, r, ps, first. split; [exact Htok|]. split; [exact Hp|]. split; [exact Hr|].
        unfold joined. cbn [map concat]. rewrite Hcov. unfold st2. cbn [s_start s_text s_stop contents app]. rewrite !app_nil_r.
        rewrite Hmem'. rewrite <- zlen_app.
        pose proof (window_over (pre ++ a) (r :: ESC :: 91 :: ps) spare [] (r :: ESC :: 91 :: ps) x sp' eq_refl Hsp) as Hw.
        rewrite zlen_nil, Z.add_0_r in Hw. rewrite Hw. rewrite <- app_assoc. reflexivity. }
    intros F [|[|f]] acc HF Hf.
    + lia.
    + rewrite Htok, app_length in Hn. cbn [length] in Hn. lia.
    + cbn [stripToken_loop]. rewrite (Hrun F HF). cbn [gbind]. rewrite Hrem. cbn [slen].
      rewrite Hl2. destruct (Z.eqb_spec (zlen (r :: ESC :: 91 :: ps)) 0) as [Hz|Hz]; [rewrite zlen_cons in Hz; pose proof (zlen_nonneg (ESC :: 91 :: ps)); lia|].
      rewrite Hlast by (rewrite Htok, app_length in HF; lia). unfold st2. cbn [gbind s_rem slen Z.eqb]. now rewrite <- app_assoc.
  - destruct y as [|r y].
    + exists (Ret (pre ++ tok ++ spare, [st])). split.
      { split; [reflexivity|]. right. exists [its]. cbn [concat]. rewrite app_nil_r.
        split; [|split; [|split]].
        - rewrite Htok. rewrite <- (app_nil_r its). apply Hlex. constructor.
        - specialize (Hclo [] (lx_nil u)). rewrite app_nil_r in Hclo. now symmetry.
        - constructor; [exact Hcov|constructor].
        - constructor; [|constructor]. split; [|split; [|split]]; auto. rewrite Hrem. cbn [within].
          assert (zlen tok = zlen x) by (rewrite Htok, app_nil_r; reflexivity).
          change (zlen (@nil rune)) with 0. pose proof (zlen_nonneg x). lia. }
      intros F [|f] acc HF Hf; [lia|]. cbn [stripToken_loop]. rewrite (Hrun F HF). cbn [gbind].
      rewrite Hrem. reflexivity.
    + assert (Hx : (0 < length x)%nat).
      { destruct Hprog as [Hp|Hp]; [|destruct x; [contradiction|cbn; lia]].
        rewrite Hp in Htok. destruct x; discriminate. }
      assert (Hmem' : pre ++ tok ++ spare = (pre ++ x) ++ (r :: y) ++ spare).
      { now rewrite Htok, <- !app_assoc. }
      destruct (IH (length (r :: y))) with (pre := pre ++ x) (tok := r :: y) (spare := spare) as (out & Hout & Hloop).
      { rewrite Htok, app_length in Hn. lia. } { lia. } { now rewrite <- Hmem'. }
      rewrite <- Hmem', zlen_app in Hloop.
      exists (gbind out (fun p => Ret (fst p, st :: snd p))). split.
      { unfold tok_out in Hout. destruct out as [[m ps]|]; cbn [gbind tok_out fst snd].
        - destruct Hout as [-> Hout]. split; [now rewrite Hmem'|]. rewrite <- Hmem' in Hout.
          destruct Hout as [(z & sp' & Hsp & Hc & Hwi & Hj)|(itss & Hlx & Hgr & Hcv & Hwi)].
          + left. exists z, sp'. split; [exact Hsp|]. split; [rewrite Htok; now apply (overCond_suffix u its)|].
            assert (Hst : contents (pre ++ tok ++ spare) (s_start st) ++ contents (pre ++ tok ++ spare) (s_text st) ++ contents (pre ++ tok ++ spare) (s_stop st) = x).
            { rewrite (covers_concat _ _ _ _ Hcov). destruct Hlex as (-> & _ & _). reflexivity. }
            split.
            * constructor.
              { split; [|split; [|split]]; [now apply past_within, within_past..|]. rewrite Hrem. cbn [within]. rewrite Htok, !zlen_app.
                pose proof (zlen_nonneg x). pose proof (zlen_nonneg (r :: y)). pose proof (zlen_nonneg [z]). lia. }
              { rewrite Htok, <- app_assoc. eapply Forall_impl; [|exact Hwi].
                intros p (H1 & H2 & H3 & H4). split; [|split; [|split]]; now apply within_suffix. }
            * unfold joined in *. cbn [map concat]. rewrite Hst. destruct Hj as [Hj|(a & r1 & qs & first & Ha & Hp & Hr & Hj)].
              { left. rewrite Hj, Htok, <- app_assoc. reflexivity. }
              { right. exists (x ++ a), r1, qs, first. split; [rewrite Htok, Ha; apply app_assoc|]. split; [exact Hp|]. split; [exact Hr|].
                rewrite Hj. apply app_assoc. }
          + right. exists (its :: itss). split; [|split; [|split]].
            * cbn [concat]. rewrite Htok. now apply Hlex.
            * cbn [concat]. rewrite (Hclo _ Hlx). now f_equal.
            * constructor; assumption.
            * constructor.
              { split; [|split; [|split]]; auto. rewrite Hrem. cbn [within]. rewrite Htok, zlen_app.
                pose proof (zlen_nonneg x). pose proof (zlen_nonneg (r :: y)). lia. }
              { rewrite Htok. eapply Forall_impl; [|exact Hwi].
                intros p (H1 & H2 & H3 & H4). split; [|split; [|split]]; now apply within_suffix. }
        - destruct Hout as [Hsp Hc]. split; [exact Hsp|]. rewrite Htok. now apply (overCond_suffix u its). }
      intros F [|f] acc HF Hf; [lia|]. cbn [stripToken_loop]. rewrite (Hrun F HF). cbn [gbind].
      rewrite Hrem. cbn [slen].
      destruct (Z.eqb_spec (zlen (r :: y)) 0) as [Hz|Hz]; [rewrite zlen_cons in Hz; pose proof (zlen_nonneg y); lia|].
      assert (length tok = length x + length (r :: y))%nat by (rewrite Htok, app_length; reflexivity).
      rewrite Hloop by lia.
      destruct out as [[m ps]|]; cbn [gbind fst snd]; [|reflexivity]. now rewrite <- app_assoc.
Qed.

Definition mcap (l : list rune) : Prop := zlen l < 2 ^ 63.

Lemma stripToken_spec u tok spare : mcap (tok ++ spare) ->
  exists out, tok_out u [] tok spare out /\
    forall F, (length tok < F)%nat -> stripTokenWith u F (tok ++ spare) (zlen tok) = out.
Proof.
  intros Hm. destruct (tokens_spec u (length tok) [] tok spare) as (out & Hout & Hloop); auto.
  exists out. split; [exact Hout|]. intros F HF. unfold stripTokenWith.
  specialize (Hloop F F [] HF HF). rewrite zlen_nil in Hloop. cbn [app] in Hloop. rewrite Hloop.
  destruct out as [[m ps]|]; reflexivity.
Qed.

Lemma stripToken_terminates u tok spare F : mcap (tok ++ spare) -> (length tok < F)%nat ->
  stripTokenWith u F (tok ++ spare) (zlen tok) = stripToken u (tok ++ spare) (zlen tok).
Proof.
  intros Hm HF. destruct (stripToken_spec u tok spare Hm) as (out & _ & Hrun).
  unfold stripToken. rewrite !Hrun; auto. rewrite app_length. lia.
Qed.

Lemma stripToken_out u tok spare : mcap (tok ++ spare) -> tok_out u [] tok spare (stripToken u (tok ++ spare) (zlen tok)).
Proof.
  intros Hm. destruct (stripToken_spec u tok spare Hm) as (out & Hout & Hrun).
  unfold stripToken. rewrite Hrun; auto. rewrite app_length. lia.
Qed.



Lemma lexed_runes u l is : lexed u l is -> concat (map runesIn is) = l.
Proof.
  induction 1; cbn [map concat runesIn app]; auto.
  - now rewrite IHlexed.
  - now rewrite IHlexed.
  - now rewrite IHlexed.
Qed.

Lemma stripToken_good u tok spare items : mcap (tok ++ spare) -> lexed u tok items ->
  exists ps its, stripToken u (tok ++ spare) (zlen tok) = Ret (tok ++ spare, ps) /\
    lexed u tok (concat its) /\ Forall2 (partCovers (tok ++ spare)) its ps /\ Forall (partWithin [] tok) ps /\ its = groups (concat its).
Proof.
  intros Hm Hc. pose proof (stripToken_out u tok spare Hm) as H. unfold tok_out in H. cbn [app] in H.
  destruct (stripToken u (tok ++ spare) (zlen tok)) as [[m ps]|].
  - destruct H as [-> [(_ & _ & _ & H & _)|(its & H1 & H2 & H3 & H4)]]; [now destruct (proj2 H items)|]. exists ps, its. auto.
  - destruct H as [_ H]. now destruct (proj2 H items).
Qed.

Lemma covers_joined mem its ps : Forall2 (partCovers mem) its ps -> joined mem ps = concat (map runesIn (concat its)).
Proof.
  unfold joined. induction 1 as [|i p its ps H HF IH]; [reflexivity|]. cbn [map concat].
  rewrite map_app, concat_app, IH. f_equal. now apply covers_concat.
Qed.

Lemma stripToken_lossless u tok spare items : mcap (tok ++ spare) -> lexed u tok items ->
  exists ps, stripToken u (tok ++ spare) (zlen tok) = Ret (tok ++ spare, ps) /\ joined (tok ++ spare) ps = tok.
Proof.
  intros Hm Hc. destruct (stripToken_good u tok spare items Hm Hc) as (ps & its & H1 & H2 & H3 & _).
  exists ps. split; [exact H1|]. rewrite (covers_joined _ _ _ H3). now apply (lexed_runes u).
Qed.

Lemma stripToken_untouched u tok spare m ps : mcap (tok ++ spare) ->
  stripToken u (tok ++ spare) (zlen tok) = Ret (m, ps) -> m = tok ++ spare.
Proof.
  intros Hm E. pose proof (stripToken_out u tok spare Hm) as H. rewrite E in H. now destruct H.
Qed.

(** StripANSIFromRunes on a text that begins with a given sequence. *)
Lemma decode_start u seq rest spare k F : mcap ((seq ++ rest) ++ spare) -> csi u rest seq k ->
  (length (seq ++ rest) < F)%nat ->
  decodeANSI u F ((seq ++ rest) ++ spare) (mkV 0 (zlen (seq ++ rest)) 0) =
    Ret (SView 0 (zlen seq), asKind k, mkV 0 (zlen (seq ++ rest)) (zlen seq)).
Proof.
  intros Hm Hc HF. destruct (csi_head _ _ _ _ Hc) as [z Hz].
  destruct (decode_spec u [] (seq ++ rest) spare Hm [] (seq ++ rest) eq_refl)
    as [Hno _|s l k' E Hc' Hdec|ps first x sp' E Hps Hspare Hdec|ps first E Hps Hspare Hdec].
  - exfalso. apply (Hno (z ++ rest)). now rewrite Hz.
  - destruct (csi_fun u rest l seq s k k' Hc Hc' E) as (<- & <- & <-). exact (Hdec F HF).
  - exfalso. eapply csi_not_over; eauto.
  - exfalso. eapply csi_not_over; eauto.
Qed.

Lemma start_loop_keeps u F mem fuel v g0 out : slen g0 <> 0 -> start_loop u F mem fuel v g0 = Ret out ->
  match out with inl st => s_start st = g0 | inr (_, g) => g = g0 end.
Proof.
  intros Hg. destruct fuel as [|fuel]; [discriminate|]. cbn [start_loop].
  destruct (decodeANSI u F mem v) as [[[s k] v1]|]; [|discriminate]. cbn [gbind].
  destruct (Z.eqb_spec (slen g0) 0); [contradiction|].
  destruct s as [|o n'|l]; [intros E; injection E as <-; reflexivity| |];
    destruct k; unfold gbind;
    match goal with |- context [vRunes ?a ?b] => destruct (vRunes a b) end; intros E; try discriminate;
    injection E as <-; reflexivity.
Qed.

Lemma stop_loop_keeps u F g0 fuel : forall mem v g1 g2 m st,
  stop_loop u F mem fuel v g0 g1 g2 = Ret (m, st) -> s_start st = g0.
Proof.
  induction fuel as [|fuel IH]; [discriminate|]. intros mem v g1 g2 m st. cbn [stop_loop].
  destruct (decodeANSI u F mem v) as [[[s k] v1]|]; [|discriminate]. cbn [gbind].
  assert (HF : forall v2, (let! rem := vRunes mem v2 in Ret (mem, mkStripped g1 g0 g2 rem)) = Ret (m, st) -> s_start st = g0).
  { intros v2. unfold gbind. destruct (vRunes mem v2); [|discriminate]. intros E. injection E as _ <-. reflexivity. }
  destruct s as [|o n|l]; [apply HF| |];
    (destruct k; [destruct (slen g2 =? 0); [|apply HF]|apply HF|destruct (slen g2 =? 0); [apply IH|apply HF]];
     match goal with |- context [match ?g with SNil => _ | SView _ _ => _ | SFresh _ => _ end] => destruct g eqn:? end;
     [apply IH| |]; match goal with |- context [appendSl ?a ?b ?c] => destruct (appendSl a b c) end; apply IH).
Qed.

Lemma stripRunes_top u tok spare : mcap (tok ++ spare) ->
  strip_out u [] tok spare (stripANSIFromRunes u tok spare).
Proof.
  intros Hm. destruct (stripRunes_spec u [] tok spare Hm) as (out & Hout & Hrun).
  unfold stripANSIFromRunes. cbn [app] in Hrun. change (zlen []) with 0 in Hrun. rewrite Hrun; [exact Hout|].
  rewrite app_length. lia.
Qed.

Lemma stripRunes_total u tok spare items : mcap (tok ++ spare) -> lexed u tok items ->
  exists st, stripANSIFromRunes u tok spare = Ret (tok ++ spare, st).
Proof.
  intros Hm Hc. pose proof (stripRunes_top u tok spare Hm) as H. cbn [app] in H.
  destruct H as [_ Hov|st|st|st]; [|eauto..]. now destruct (proj2 Hov items).
Qed.

Lemma contents_prefix a b c : contents ((a ++ b) ++ c) (SView 0 (zlen a)) = a.
Proof.
  cbn [contents]. unfold window. cbn [Z.to_nat skipn]. rewrite <- app_assoc.
  apply firstn_app_exact. unfold zlen; lia.
Qed.
Lemma contents_suffix a b c n : n = zlen (a ++ b) - zlen a -> contents ((a ++ b) ++ c) (SView (zlen a) n) = b.
Proof.
  intros ->. cbn [contents]. unfold window. rewrite <- app_assoc.
  rewrite skipn_app_exact by (unfold zlen; lia). apply firstn_app_exact. rewrite zlen_app; unfold zlen; lia.
Qed.

Lemma vRunes_top tok spare o : 0 <= o <= zlen tok ->
  vRunes (tok ++ spare) (mkV 0 (zlen tok) o) = Ret (SView o (zlen tok - o)).
Proof. intros Ho. exact (vRunes_V [] tok spare o Ho). Qed.

Lemma strip_stop u seq rest spare : mcap ((seq ++ rest) ++ spare) -> csi u rest seq Stop ->
  exists st, stripANSIFromRunes u (seq ++ rest) spare = Ret ((seq ++ rest) ++ spare, st) /\
    let m := (seq ++ rest) ++ spare in
    contents m (s_start st) = [] /\ contents m (s_text st) = [] /\ contents m (s_stop st) = seq /\ contents m (s_rem st) = rest.
Proof.
  intros Hm Hc. unfold stripANSIFromRunes, stripRunes. cbn [start_loop].
  rewrite (decode_start u seq rest spare Stop) by (auto; rewrite !app_length; lia). cbn [gbind asKind].
  pose proof (zlen_nonneg seq); pose proof (zlen_nonneg rest).
  rewrite vRunes_top by (rewrite zlen_app; lia). cbn [gbind].
  eexists. split; [reflexivity|]. cbn [s_start s_text s_stop s_rem contents].
  split; [reflexivity|]. split; [reflexivity|]. split; [apply contents_prefix|now apply contents_suffix].
Qed.

Lemma strip_start u seq rest spare m st : mcap ((seq ++ rest) ++ spare) -> csi u rest seq Start ->
  stripANSIFromRunes u (seq ++ rest) spare = Ret (m, st) -> contents m (s_start st) = seq.
Proof.
  intros Hm Hc E. pose proof (stripRunes_top u _ spare Hm) as Ho. rewrite E in Ho.
  assert (Hmm : m = (seq ++ rest) ++ spare) by (inversion Ho; reflexivity). clear Ho.
  pose proof (csi_len u rest seq Start Hc) as Hl.
  assert (Hk : s_start st = SView 0 (zlen seq)).
  { revert E. unfold stripANSIFromRunes, stripRunes. cbn [start_loop].
    rewrite (decode_start u seq rest spare Start) by (auto; rewrite !app_length; lia). cbn [gbind asKind slen Z.eqb].
    match goal with |- context [start_loop ?u ?F ?mem ?fuel ?v ?g] =>
      pose proof (start_loop_keeps u F mem fuel v g) as HK; destruct (start_loop u F mem fuel v g) as [[s|[v1 g1]]|] end;
      cbn [gbind]; [| |discriminate].
    - intros E. injection E as _ <-. apply (HK (inl s)); auto. cbn [slen]. lia.
    - specialize (HK (inr (v1, g1))). cbn beta iota in HK. rewrite HK; [|cbn [slen]; lia|reflexivity].
      unfold gbind. destruct (decodeText _ _ v1) as [[s v2]|]; [|discriminate]. intros E. now apply stop_loop_keeps in E. }
  rewrite Hk, Hmm. apply contents_prefix.
Qed.

(** Text without ESC [. *)
Lemma strip_plain u tok spare : mcap (tok ++ spare) -> ~ hasCSI tok ->
  exists st, stripToken u (tok ++ spare) (zlen tok) = Ret (tok ++ spare, [st]) /\
    s_start st = SNil /\ contents (tok ++ spare) (s_text st) = tok /\ s_stop st = SNil.
Proof.
  intros Hm Hno.
  assert (Hd1 : forall F, (length tok < F)%nat -> decodeANSI u F (tok ++ spare) (mkV 0 (zlen tok) 0) = Ret (SNil, KOther, mkV 0 (zlen tok) 0)).
  { destruct (decode_spec u [] tok spare Hm [] tok eq_refl) as [_ Hdec|s l k' E Hc' Hdec|ps first x sp' E Hps Hspare Hdec|ps first E Hps Hspare Hdec];
      [exact Hdec|exfalso; apply Hno..].
    - apply csi_head in Hc' as [x ->]. exists [], (x ++ l). exact E.
    - exists [], ps. exact E.
    - exists [], ps. exact E. }
  destruct (decodeText_spec u [] tok spare Hm [] tok eq_refl) as (t & rest' & its & E & Hlt & Hc & Hend & Hdec).
  destruct Hend as [->|[x ->]].
  2: { exfalso. apply Hno. exists t, x. exact E. }
  rewrite app_nil_r in E. subst t. change (zlen []) with 0 in Hdec. cbn [app Z.add] in Hdec.
  assert (Hd2 : forall F, (length tok < F)%nat -> decodeANSI u F (tok ++ spare) (mkV 0 (zlen tok) (zlen tok)) = Ret (SNil, KOther, mkV 0 (zlen tok) (zlen tok))).
  { destruct (decode_spec u [] tok spare Hm tok [] ) as [_ Hdec'|s l k' E Hc' Hdec'|ps first x sp' E Hps Hspare Hdec'|ps first E Hps Hspare Hdec'];
      [now rewrite app_nil_r|exact Hdec'| |discriminate|discriminate].
    apply csi_runes in Hc'. symmetry in E. apply app_eq_nil in E. tauto. }
  assert (HF : (length tok < S (length (tok ++ spare)))%nat) by (rewrite app_length; lia).
  assert (HS : stripRunes u (S (length (tok ++ spare))) (tok ++ spare) 0 (zlen tok) =
     Ret (tok ++ spare, mkStripped (SView 0 (zlen tok)) SNil SNil (SView (zlen tok) (zlen tok - zlen tok)))).
  { unfold stripRunes. cbn [start_loop]. rewrite (Hd1 _ HF). cbn [gbind]. rewrite (Hdec _ HF). cbn [gbind stop_loop].
    rewrite (Hd2 _ HF). cbn [gbind]. rewrite vRunes_top by (pose proof (zlen_nonneg tok); lia). reflexivity. }
  eexists. split.
  - unfold stripToken, stripTokenWith. cbn [stripToken_loop]. rewrite HS. cbn [gbind s_rem slen]. rewrite Z.sub_diag.
    cbn [Z.eqb app]. reflexivity.
  - cbn [s_start s_text s_stop]. split; [reflexivity|]. split; [|reflexivity].
    pose proof (contents_prefix tok [] spare) as H. now rewrite app_nil_r in H.
Qed.

Lemma stripToken_in_bounds u tok spare items : mcap (tok ++ spare) -> lexed u tok items ->
  exists ps, stripToken u (tok ++ spare) (zlen tok) = Ret (tok ++ spare, ps) /\ Forall (partWithin [] tok) ps.
Proof. intros Hm Hc. destruct (stripToken_good u tok spare items Hm Hc) as (ps & its & H1 & _ & _ & H4 & _). eauto. Qed.

Lemma stripToken_panic u tok spare : mcap (tok ++ spare) ->
  stripToken u (tok ++ spare) (zlen tok) = Panic <-> spare = [] /\ forall items, ~ lexed u tok items.
Proof.
  intros Hm. pose proof (stripToken_out u tok spare Hm) as H. destruct (stripToken u (tok ++ spare) (zlen tok)) as [[m ps]|].
  - split; [discriminate|]. intros [E Hl]. destruct H as [_ [(x & sp' & H & _)|(its & H1 & _)]]; [congruence|]. now destruct (Hl (concat its)).
  - split; [|reflexivity]. intros _. destruct H as [H1 H2]. split; [exact H1|apply H2].
Qed.

(** A token cut short, with spare capacity: one rune more is read, and one may be repeated. *)
Lemma stripToken_cut u tok x spare : mcap (tok ++ x :: spare) -> (forall items, ~ lexed u tok items) ->
  exists ps, stripToken u (tok ++ x :: spare) (zlen tok) = Ret (tok ++ x :: spare, ps) /\ Forall (partWithin [] (tok ++ [x])) ps /\
  (joined (tok ++ x :: spare) ps = tok ++ [x] \/
   exists a r qs first, tok = a ++ r :: ESC :: 91 :: qs /\ params u qs first true /\ stopEnd r /\
     joined (tok ++ x :: spare) ps = a ++ r :: r :: ESC :: 91 :: qs ++ [x]).
Proof.
  intros Hm Hl. pose proof (stripToken_out u tok (x :: spare) Hm) as H. unfold tok_out in H. cbn [app] in H.
  destruct (stripToken u (tok ++ x :: spare) (zlen tok)) as [[m ps]|]; [|destruct H; discriminate].
  destruct H as [-> [(y & sp' & E & _ & Hw & Hj)|(its & H & _)]]; [|now destruct (Hl _ H)]. injection E as <- <-. exists ps. auto.
Qed.

Lemma stripToken_groups u tok spare items : mcap (tok ++ spare) -> lexed u tok items ->
  exists ps its, stripToken u (tok ++ spare) (zlen tok) = Ret (tok ++ spare, ps) /\
    lexed u tok (concat its) /\
    Forall2 (fun g p => covers g (contents (tok ++ spare) (s_start p)) (contents (tok ++ spare) (s_text p))
                                 (contents (tok ++ spare) (s_stop p))) its ps.
Proof. intros Hm Hc. destruct (stripToken_good u tok spare items Hm Hc) as (ps & its & H1 & H2 & H3 & _). eauto 6. Qed.

Lemma covers_partOf g a b c : covers g a b c -> partOf g = (a, b, c).
Proof.
  destruct 1 as [st tx sp Hst Htx Hsp]. unfold partOf. rewrite !flat_map_app.
  assert (flat_map (fun i => match i with Ctl Start l => l | _ => [] end) tx = [] /\
          flat_map (fun i => match i with Chr l | Ctl Other l => l | _ => [] end) tx = concat (map runesIn tx) /\
          flat_map (fun i => match i with Ctl Stop l => l | _ => [] end) tx = []) as (-> & -> & ->).
  { induction Htx as [|i tx Hi _ (IH1 & IH2 & IH3)]; [now repeat split|]. cbn [flat_map map concat].
    rewrite IH1, IH2, IH3. destruct i as [l|[| |] l]; try contradiction; now repeat split. }
  destruct Hst as [->|[l1 ->]], Hsp as [->|[l2 ->]]; cbn [flat_map map concat runesIn app]; now rewrite ?app_nil_r.
Qed.
Lemma stripToken_exact u tok spare items : mcap (tok ++ spare) -> lexed u tok items ->
  exists ps, stripToken u (tok ++ spare) (zlen tok) = Ret (tok ++ spare, ps) /\
    map (fun p => (contents (tok ++ spare) (s_start p), contents (tok ++ spare) (s_text p), contents (tok ++ spare) (s_stop p))) ps =
    map partOf (groups items).
Proof.
  intros Hm Hl. destruct (stripToken_good u tok spare items Hm Hl) as (ps & its & H1 & H2 & H3 & _ & H5).
  exists ps. split; [exact H1|]. rewrite (lexed_fun u tok items Hl _ H2), <- H5. clear - H3.
  induction H3 as [|g p its ps H _ IH]; [reflexivity|]. cbn [map]. now rewrite IH, (covers_partOf _ _ _ _ H).
Qed.
Lemma lexed_total u tok : mcap tok -> ~ cutShort u tok -> exists items, lexed u tok items.
Proof.
  intros Hm Hc. assert (mcap (tok ++ [])) as Hm' by now rewrite app_nil_r. pose proof (stripToken_out u tok [] Hm') as H. unfold tok_out in H.
  destruct (stripToken u (tok ++ []) (zlen tok)) as [[m ps]|].
  - destruct H as [_ [(x & sp' & H & _)|(its & H1 & _)]]; [discriminate|eauto].
  - destruct H as [_ H]. now destruct H.
Qed.

Lemma lexed_unique u l is1 is2 : lexed u l is1 -> lexed u l is2 -> is1 = is2.
Proof. intros H1 H2. eapply lexed_fun; eauto. Qed.

Lemma csi_of u ps first f rest k : params u ps first false -> finalKind first f k -> k <> Other ->
  csi u rest (ESC :: 91 :: ps ++ [f]) k.
Proof.
  intros Hp Hk Hn. eapply csi_done; eauto; destruct Hk; try contradiction;
    try discriminate; intros [Hx|Hx]; discriminate.
Qed.

Lemma sgr_stop u ps first f rest spare :
  let seq := ESC :: 91 :: ps ++ [f] in let m := (seq ++ rest) ++ spare in
  mcap m -> params u ps first false -> finalKind first f Stop ->
  exists st, stripANSIFromRunes u (seq ++ rest) spare = Ret (m, st) /\
    contents m (s_start st) = [] /\ contents m (s_text st) = [] /\ contents m (s_stop st) = seq /\
    contents m (s_rem st) = rest.
Proof. intros seq m Hm Hp Hk. apply strip_stop; auto. eapply csi_of; eauto. discriminate. Qed.

Lemma sgr_start u ps first f rest spare items :
  let seq := ESC :: 91 :: ps ++ [f] in let m := (seq ++ rest) ++ spare in
  mcap m -> params u ps first false -> finalKind first f Start -> lexed u rest items ->
  exists st, stripANSIFromRunes u (seq ++ rest) spare = Ret (m, st) /\ contents m (s_start st) = seq.
Proof.
  intros seq m Hm Hp Hk Hl. assert (csi u rest seq Start) as Hc by (eapply csi_of; eauto; discriminate).
  destruct (stripRunes_total u (seq ++ rest) spare (Ctl Start seq :: items) Hm (lx_csi u seq rest items Start Hc Hl)) as [st E].
  exists st. split; [exact E|]. eapply strip_start; eauto.
Qed.
