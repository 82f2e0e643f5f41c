(** Reading the Unicode database and printing tables. *)
From Verif Require Import Base Unicode Utf8 SpecUtf8 Text Tables Width SpecWidth WidthProofs Dict FileProofs Strip BuildTables SpecTables BuildProofs Ucd SpecUcd.
Local Open Scope Z_scope.

Lemma digit_hex r v : digit r v -> hexDigit r = Some v.
Proof.
  unfold digit, hexDigit. intros H.
  repeat match goal with |- context [(?a <=? ?b)%Z] => destruct (Z.leb_spec a b) end; cbn [andb]; try (f_equal; lia); exfalso; lia.
Qed.
Lemma digit_range r v : digit r v -> 0 <= v < 16.
Proof. unfold digit. lia. Qed.
Lemma digit_notSpace r v : digit r v -> isSpace r = false.
Proof.
  intros H. unfold digit in H. assert (exists k : nat, r = Z.of_nat k + 48 /\ (k < 55)%nat) as (k & -> & Hk).
  { exists (Z.to_nat (r - 48)). lia. }
  clear H. do 55 (destruct k as [|k]; [reflexivity|]). lia.
Qed.
Lemma numeral_nonneg l z : numeral l z -> 0 <= z.
Proof. induction 1 as [r v H|l z r v H IH Hd]; [apply digit_range in H|apply digit_range in Hd]; lia. Qed.
(** reading a numeral *)
Definition noDigit (rest : list rune) : Prop := match rest with [] => True | r :: _ => hexDigit r = None end.
Lemma takeHex_app l z : numeral l z -> forall acc rest, takeHex acc (l ++ rest) = takeHex (16 ^ zlen l * acc + z) rest.
Proof.
  induction 1 as [r v H|l z r v H IH Hd]; intros acc rest.
  - cbn [app takeHex]. rewrite (digit_hex _ _ H). reflexivity.
  - rewrite <- app_assoc, IH. cbn [app takeHex]. rewrite (digit_hex _ _ Hd). f_equal.
    unfold zlen. rewrite app_length. cbn [length]. rewrite Nat2Z.inj_add, Z.pow_add_r by lia. change (16 ^ Z.of_nat 1) with 16. ring.
Qed.
Lemma takeHex_stop acc rest : noDigit rest -> takeHex acc rest = (acc, rest).
Proof. destruct rest as [|r rest]; cbn [noDigit takeHex]; [reflexivity|]. now intros ->. Qed.
Lemma numeral_head l z : numeral l z -> exists r v l', l = r :: l' /\ digit r v.
Proof.
  induction 1 as [r v H|l z r v H (r' & v' & l' & -> & Hd') Hd]; [now exists r, v, []|]. exists r', v', (l' ++ [r]). split; [reflexivity|assumption].
Qed.
Lemma scanHex_code l z rest : codePoint l z -> noDigit rest -> scanHex (l ++ rest) = Some (z, rest).
Proof.
  intros [H Hz] Hr. pose proof (takeHex_app l z H 0 rest) as E. rewrite Z.mul_0_r, Z.add_0_l, (takeHex_stop z) in E by exact Hr.
  pose proof (numeral_nonneg _ _ H) as Hp. destruct (numeral_head _ _ H) as (r & v & l' & -> & Hd). unfold scanHex. cbn [app dropSpaces].
  rewrite (digit_notSpace _ _ Hd). cbn [app] in E.
  assert (takeSign (r :: l' ++ rest) = (false, r :: l' ++ rest)) as ->.
  { unfold digit in Hd. cbn [takeSign]. destruct (Z.eqb_spec r 45); [lia|]. destruct (Z.eqb_spec r 43); [lia|reflexivity]. }
  rewrite (digit_hex _ _ Hd), E. destruct (Z.leb_spec (-2147483648) z); [|lia]. destruct (Z.leb_spec z 2147483647); [|lia]. reflexivity.
Qed.
Lemma takeWord_app w rest : Forall (fun r => isSpace r = false) w -> apart rest -> takeWord (w ++ rest) = (w, rest).
Proof.
  induction 1 as [|r w Hr Hw IH]; intros Ha; cbn [app].
  - destruct rest as [|r rest]; [reflexivity|]. cbn [apart] in Ha. cbn [takeWord]. now rewrite Ha.
  - cbn [takeWord]. rewrite Hr, IH by assumption. reflexivity.
Qed.
Lemma scanWord_app w rest : word w -> apart rest -> scanWord (w ++ rest) = Some (w, rest).
Proof.
  intros [Hn Hw] Ha. unfold scanWord. destruct w as [|r w]; [congruence|]. pose proof Hw as Hw'. inversion Hw'; subst.
  cbn [app dropSpaces]. rewrite H1. change (r :: w ++ rest) with ((r :: w) ++ rest). now rewrite takeWord_app.
Qed.
Lemma space_apart rest : apart rest -> sscanf [FSpace] rest = ([], true).
Proof. destruct rest as [|r rest]; cbn [sscanf apart]; [reflexivity|]. now intros ->. Qed.
Lemma apart_noDigit rest : apart rest -> noDigit rest.
Proof.
  destruct rest as [|r rest]; cbn [apart noDigit]; [auto|]. intros H. destruct (hexDigit r) as [v|] eqn:E; [|reflexivity].
  exfalso. assert (digit r v) as Hd.
  { revert E. unfold hexDigit, digit. repeat match goal with |- context [(?a <=? ?b)%Z] => destruct (Z.leb_spec a b) end; cbn [andb]; intros [= <-]; lia. }
  rewrite (digit_notSpace _ _ Hd) in H. discriminate.
Qed.

Lemma hasPrefix_app p l : hasPrefix (p ++ l) p = true.
Proof. induction p as [|c p IH]; cbn [app hasPrefix]; [destruct l; reflexivity|]. now rewrite Z.eqb_refl, IH. Qed.
Lemma hasPrefix_split p : forall l, hasPrefix l p = true -> exists b, l = p ++ b.
Proof.
  induction p as [|c p IH]; intros l H; [now exists l|]. destruct l as [|r l]; cbn [hasPrefix] in H; [discriminate|].
  apply andb_prop in H. destruct H as [H1 H2]. apply Z.eqb_eq in H1. destruct (IH _ H2) as (b & ->). exists b. now subst.
Qed.
Lemma contains_mentions t l : contains l (ascii t) = true <-> mentions l t.
Proof.
  unfold mentions. generalize (ascii t) as p. intros p. split.
  - induction l as [|r l IH]; cbn [contains]; intros H; apply Bool.orb_true_iff in H; destruct H as [H|H]; try discriminate.
    + apply hasPrefix_split in H. destruct H as (b & H). now exists [], b.
    + apply hasPrefix_split in H. destruct H as (b & H). now exists [], b.
    + destruct (IH H) as (a & b & ->). now exists (r :: a), b.
  - intros (a & b & ->). induction a as [|r a IH]; cbn [app].
    + destruct (p ++ b) eqn:E; cbn [contains]; rewrite <- E, hasPrefix_app; reflexivity.
    + cbn [contains]. rewrite IH. apply Bool.orb_true_r.
Qed.

(** one line *)
Lemma entry_head l iv rest : range l iv -> hasPrefix (l ++ rest) (str_ "#") = false.
Proof.
  intros H. assert (exists r v l', l = r :: l' /\ digit r v) as (r & v & l' & -> & Hd).
  { destruct H as [l z [H _]|l z l' z' [H _] _]; destruct (numeral_head _ _ H) as (r & v & l'' & -> & Hd); eauto. exists r, v, (l'' ++ ascii ".." ++ l'). auto. }
  cbn [app]. change (str_ "#") with [35]. cbn [hasPrefix]. unfold digit in Hd. destruct (Z.eqb_spec 35 r); [lia|reflexivity].
Qed.
Lemma eastasianLine_entry line iv c : widthEntry line iv c ->
  eastasianLine line = Some (mkLine iv (classOf c) (contains line (ascii "COMBINING"))).
Proof.
  intros (l & rest & Hl & Hc & Ha & ->). unfold eastasianLine. rewrite (entry_head _ _ _ Hl). cbn zeta.
  change (str_ "COMBINING") with (ascii "COMBINING"). set (con := contains _ _). clearbody con.
  destruct Hl as [l z H|l z l' z' H H']; unfold fRangeClass, fOneClass.
  - assert (sscanf [FHex; FLit 46; FLit 46; FHex; FLit 59; FStr; FSpace] (l ++ ascii ";" ++ c ++ rest) = ([VNum z], false)) as ->.
    { cbn [sscanf]. rewrite (scanHex_code _ _ _ H) by reflexivity. reflexivity. }
    cbn [sscanf]. rewrite (scanHex_code _ _ _ H) by reflexivity. change (ascii ";") with [59]. cbn [app sscanf]. rewrite Z.eqb_refl.
    rewrite scanWord_app by assumption. fold (sscanf [FSpace] rest). change (match rest with [] => _ | _ => _ end) with (sscanf [FSpace] rest).
    rewrite space_apart by assumption. reflexivity.
  - rewrite <- !app_assoc. cbn [sscanf]. rewrite (scanHex_code _ _ _ H) by reflexivity. change (ascii "..") with [46; 46]. cbn [app]. rewrite !Z.eqb_refl.
    rewrite (scanHex_code _ _ _ H') by reflexivity. change (ascii ";") with [59]. cbn [app]. rewrite Z.eqb_refl.
    rewrite scanWord_app by assumption. change (match rest with [] => _ | _ => _ end) with (sscanf [FSpace] rest).
    rewrite space_apart by assumption. reflexivity.
Qed.
Lemma eastasianLine_comment line : comment line -> eastasianLine line = None.
Proof. intros [->|(l & ->)]; [reflexivity|]. unfold eastasianLine. change (str_ "#") with (ascii "#"). now rewrite hasPrefix_app. Qed.
Lemma emojiLine_entry line iv : emojiEntry line iv -> emojiLine line = if contains line (ascii "Extended_Pictographic") then Some iv else None.
Proof.
  intros (l & rest & Hl & Ha & ->). unfold emojiLine. rewrite (entry_head _ _ _ Hl).
  change (str_ "Extended_Pictographic") with (ascii "Extended_Pictographic"). destruct (contains _ _); cbn [negb]; [|reflexivity].
  destruct Hl as [l z H|l z l' z' H H']; unfold fRange, fOne.
  - pose proof (apart_noDigit _ Ha) as Hd.
    assert (snd (sscanf [FHex; FLit 46; FLit 46; FHex; FSpace] (l ++ rest)) = false) as E.
    { cbn [sscanf]. rewrite (scanHex_code _ _ _ H) by assumption. destruct rest as [|r rest]; [reflexivity|]. cbn [apart] in Ha.
      destruct (Z.eqb_spec r 46); [subst r; discriminate Ha|reflexivity]. }
    destruct (sscanf [FHex; FLit 46; FLit 46; FHex; FSpace] (l ++ rest)) as [vs ok]. cbn [snd] in E. subst ok.
    assert (sscanf [FHex; FSpace] (l ++ rest) = ([VNum z], true)) as ->.
    { cbn [sscanf]. rewrite (scanHex_code _ _ _ H) by assumption. change (match rest with [] => _ | _ => _ end) with (sscanf [FSpace] rest).
      rewrite space_apart by assumption. reflexivity. }
    destruct vs as [|[] [|[] [|? ?]]]; reflexivity.
  - rewrite <- !app_assoc. cbn [sscanf]. rewrite (scanHex_code _ _ _ H) by reflexivity. change (ascii "..") with [46; 46]. cbn [app]. rewrite !Z.eqb_refl.
    rewrite (scanHex_code _ _ _ H') by (now apply apart_noDigit). change (match rest with [] => _ | _ => _ end) with (sscanf [FSpace] rest).
    rewrite space_apart by assumption. reflexivity.
Qed.
Lemma emojiLine_comment line : comment line -> emojiLine line = None.
Proof. intros [->|(l & ->)]; [reflexivity|]. unfold emojiLine. change (str_ "#") with (ascii "#"). now rewrite hasPrefix_app. Qed.

(** classes *)
Lemma classOf_W c : classOf c = ClassW <-> c = ascii "W".
Proof. unfold classOf. repeat destruct (list_eq_dec _ _ _); subst; split; intros E; try discriminate; try reflexivity; contradiction. Qed.
Lemma classOf_F c : classOf c = ClassF <-> c = ascii "F".
Proof. unfold classOf. repeat destruct (list_eq_dec _ _ _); subst; split; intros E; try discriminate; try reflexivity; contradiction. Qed.
Lemma classOf_A c : classOf c = ClassA <-> c = ascii "A".
Proof. unfold classOf. repeat destruct (list_eq_dec _ _ _); subst; split; intros E; try discriminate; try reflexivity; contradiction. Qed.
Lemma classOf_Na c : classOf c = ClassNa <-> c = ascii "Na".
Proof. unfold classOf. repeat destruct (list_eq_dec _ _ _); subst; split; intros E; try discriminate; try reflexivity; contradiction. Qed.
Lemma classOf_N c : classOf c = ClassN <-> c = ascii "N".
Proof. unfold classOf. repeat destruct (list_eq_dec _ _ _); subst; split; intros E; try discriminate; try reflexivity; contradiction. Qed.

(** files *)
Lemma keep_given {X Y Z} (f : X -> option Y) (g : Z -> Y) (P : X -> option Z -> Prop) ls es :
  Forall2 P ls es -> (forall l, P l None -> f l = None) -> (forall l z, P l (Some z) -> f l = Some (g z)) -> keep f ls = map g (given es).
Proof.
  intros H Hn Hs. induction H as [|l e ls es He H IH]; [reflexivity|]. unfold keep in *. cbn [flat_map given]. rewrite IH.
  destruct e as [z|]; [rewrite (Hs _ _ He)|rewrite (Hn _ He)]; reflexivity.
Qed.
Lemma keep_in {X Y} (f : X -> option Y) ls y : In y (keep f ls) <-> exists l, In l ls /\ f l = Some y.
Proof.
  unfold keep. rewrite in_flat_map. split; intros (l & H & E); exists l; (split; [exact H|]).
  - destruct (f l) as [y'|]; [|contradiction]. destruct E as [->|[]]. reflexivity.
  - rewrite E. now left.
Qed.
Lemma width_ranges lines es : Forall2 widthLine lines es -> map pl_range (keep eastasianLine lines) = map fst (given es).
Proof.
  induction 1 as [|l e ls es He H IH]; [reflexivity|]. unfold keep in *. cbn [flat_map given]. rewrite map_app, IH.
  destruct e as [[iv c]|]; cbn [widthLine] in He; [rewrite (eastasianLine_entry _ _ _ He)|rewrite (eastasianLine_comment _ He)]; reflexivity.
Qed.
Lemma width_in lines es pl : Forall2 widthLine lines es -> In pl (keep eastasianLine lines) ->
  exists l iv c, In l lines /\ widthEntry l iv c /\ pl = mkLine iv (classOf c) (contains l (ascii "COMBINING")).
Proof.
  intros H Hp. apply keep_in in Hp. destruct Hp as (l & Hl & E).
  assert (exists e, widthLine l e) as (e & He).
  { clear - H Hl. induction H as [|x e ls es He H IH]; [contradiction|]. destruct Hl as [<-|Hl]; [now exists e|auto]. }
  destruct e as [[iv c]|]; cbn [widthLine] in He; [|rewrite (eastasianLine_comment _ He) in E; discriminate].
  rewrite (eastasianLine_entry _ _ _ He) in E. injection E as <-. eauto 6.
Qed.

Theorem widths_read lines es bs : Forall lineOk lines -> utf8s (flat_map (fun l => l ++ [10]) lines) bs -> Forall2 widthLine lines es ->
  sorted (map fst (given es)) ->
  let t := eastasianFile bs in
  Forall gapped [wt_combining t; wt_doublewidth t; wt_ambiguous t; wt_narrow t; wt_neutral t] /\
  ForallOrdPairs disjoint [wt_doublewidth t; wt_ambiguous t; wt_narrow t; wt_neutral t] /\
  forall r,
    (member r (wt_combining t) <-> listedAs lines r (fun line _ => mentions line "COMBINING")) /\
    (member r (wt_doublewidth t) <-> listedAs lines r (fun _ class => class = ascii "W" \/ class = ascii "F")) /\
    (member r (wt_ambiguous t) <-> listedAs lines r (fun _ class => class = ascii "A")) /\
    (member r (wt_narrow t) <-> listedAs lines r (fun _ class => class = ascii "Na")) /\
    (member r (wt_neutral t) <-> listedAs lines r (fun _ class => class = ascii "N")).
Proof.
  intros Hok Hbs Hl Hs t. subst t. unfold eastasianFile. rewrite (scanLines_text lines Hok bs Hbs).
  pose proof (eastasian_spec (keep eastasianLine lines)) as E. rewrite (width_ranges _ _ Hl) in E. specialize (E Hs).
  destruct E as (E1 & E2 & E3). split; [exact E1|]. split; [exact E2|]. intros r. specialize (E3 r).
  assert (forall (Q : propLine -> Prop) (P : list rune -> list rune -> Prop),
    (forall l iv c, widthEntry l iv c -> (Q (mkLine iv (classOf c) (contains l (ascii "COMBINING"))) <-> P l c)) ->
    (exists l, In l (keep eastasianLine lines) /\ inInterval r (pl_range l) /\ Q l) <-> listedAs lines r P) as K.
  { intros Q P HQ. unfold listedAs. split.
    - intros (pl & H1 & H2 & H3). destruct (width_in _ _ _ Hl H1) as (l & iv & c & H4 & H5 & ->). exists l, iv, c.
      split; [exact H4|]. split; [exact H5|]. split; [exact H2|]. now apply (HQ l iv c H5).
    - intros (l & iv & c & H1 & H2 & H3 & H4). exists (mkLine iv (classOf c) (contains l (ascii "COMBINING"))).
      split; [apply keep_in; exists l; split; [exact H1|now apply eastasianLine_entry]|]. split; [exact H3|]. now apply (HQ l iv c H2). }
  destruct E3 as (F1 & F2 & F3 & F4 & F5). rewrite F1, F2, F3, F4, F5.
  split; [|split; [|split; [|split]]].
  - refine (K (fun l => pl_combining l = true) (fun line _ => mentions line "COMBINING") _); intros l iv c _; apply contains_mentions.
  - refine (K (fun l => pl_class l = ClassW \/ pl_class l = ClassF) (fun _ class => class = ascii "W" \/ class = ascii "F") _); intros l iv c _; cbn [pl_class]. now rewrite classOf_W, classOf_F.
  - refine (K (fun l => pl_class l = ClassA) (fun _ class => class = ascii "A") _); intros l iv c _; apply classOf_A.
  - refine (K (fun l => pl_class l = ClassNa) (fun _ class => class = ascii "Na") _); intros l iv c _; apply classOf_Na.
  - refine (K (fun l => pl_class l = ClassN) (fun _ class => class = ascii "N") _); intros l iv c _; apply classOf_N.
Qed.
Lemma emojiLine_none line : ~ mentions line "Extended_Pictographic" -> emojiLine line = None.
Proof.
  intros H. unfold emojiLine. destruct (hasPrefix line (str_ "#")); [reflexivity|].
  change (str_ "Extended_Pictographic") with (ascii "Extended_Pictographic").
  destruct (contains line (ascii "Extended_Pictographic")) eqn:E; [|reflexivity]. exfalso. now apply H, contains_mentions.
Qed.
Lemma emojiLine_some line iv : emojiEntry line iv -> mentions line "Extended_Pictographic" -> emojiLine line = Some iv.
Proof. intros H Hm. rewrite (emojiLine_entry _ _ H). apply contains_mentions in Hm. now rewrite Hm. Qed.
Theorem emojis_read lines es bs : Forall lineOk lines -> utf8s (flat_map (fun l => l ++ [10]) lines) bs -> Forall2 emojiText lines es -> sorted (given es) ->
  gapped (emojiFile bs) /\
  forall r, member r (emojiFile bs) <->
    listedEmoji lines r.
Proof.
  intros Hok Hbs Hl Hs. unfold emojiFile. rewrite (scanLines_text lines Hok bs Hbs).
  assert (keep emojiLine lines = given es) as E.
  { rewrite <- (map_id (given es)). apply (keep_given _ _ emojiText); [exact Hl| |].
    - intros l [H|H]; [now apply emojiLine_comment|now apply emojiLine_none].
    - intros l iv [H Hm]. now apply emojiLine_some. }
  pose proof (emoji_spec (keep emojiLine lines)) as K. rewrite E in K at 1. specialize (K Hs). destruct K as [K1 K2]. split; [exact K1|].
  intros r. rewrite K2. split.
  - intros (iv & H1 & H2 & H3). apply keep_in in H1. destruct H1 as (l & H1 & H4).
    assert (exists e, emojiText l e) as (e & He).
    { clear - Hl H1. induction Hl as [|x e ls es He H IH]; [contradiction|]. destruct H1 as [<-|H1]; [now exists e|auto]. }
    destruct e as [iv'|]; cbn [emojiText] in He.
    + destruct He as [He Hm]. rewrite (emojiLine_some _ _ He Hm) in H4. injection H4 as ->. exists l, iv. auto 6.
    + exfalso. destruct He as [He|He]; [rewrite (emojiLine_comment _ He) in H4|rewrite (emojiLine_none _ He) in H4]; discriminate.
  - intros (l & iv & H1 & H2 & H3 & H4 & H5). exists iv. split; [|auto]. apply keep_in. exists l. split; [exact H1|]. now apply emojiLine_some.
Qed.

(** the tables are determined by the classes of the runes *)
Theorem tables_determined wlines wes wbs elines ees ebs w e :
  Forall lineOk wlines -> utf8s (flat_map (fun l => l ++ [10]) wlines) wbs -> Forall2 widthLine wlines wes -> sorted (map fst (given wes)) ->
  Forall lineOk elines -> utf8s (flat_map (fun l => l ++ [10]) elines) ebs -> Forall2 emojiText elines ees -> sorted (given ees) ->
  Forall gapped [wt_combining w; wt_doublewidth w; wt_ambiguous w; wt_narrow w; wt_neutral w; e] ->
  (forall r, (member r (wt_combining w) <-> listedAs wlines r (fun line _ => mentions line "COMBINING")) /\
    (member r (wt_doublewidth w) <-> listedAs wlines r (fun _ class => class = ascii "W" \/ class = ascii "F")) /\
    (member r (wt_ambiguous w) <-> listedAs wlines r (fun _ class => class = ascii "A")) /\
    (member r (wt_narrow w) <-> listedAs wlines r (fun _ class => class = ascii "Na")) /\
    (member r (wt_neutral w) <-> listedAs wlines r (fun _ class => class = ascii "N")) /\
    (member r e <-> listedEmoji elines r)) ->
  buildTables wbs ebs = sourceOf w e.
Proof.
  intros H1 H2 H3 H4 H5 H6 H7 H8 G HM. destruct (widths_read _ _ _ H1 H2 H3 H4) as (W1 & _ & W2). destruct (emojis_read _ _ _ H5 H6 H7 H8) as (E1 & E2).
  unfold buildTables. destruct (eastasianFile wbs) as [t1 t2 t3 t4 t5], w as [w1 w2 w3 w4 w5]. cbn [wt_combining wt_doublewidth wt_ambiguous wt_narrow wt_neutral] in *.
  repeat match goal with H : Forall _ (_ :: _) |- _ => inversion H; subst; clear H end.
  assert (forall a b, gapped a -> gapped b -> (forall r, member r a <-> member r b) -> a = b) as U by (intros; now apply gapped_unique).
  replace t1 with w1; [replace t2 with w2; [replace t3 with w3; [replace t4 with w4; [replace t5 with w5; [replace (emojiFile ebs) with e; [reflexivity|]|]|]|]|]|];
    apply U; try assumption; intros r; specialize (HM r); try specialize (W2 r); try specialize (E2 r); tauto.
Qed.

(** printing *)
Lemma upperDigit_digit d : 0 <= d < 16 -> digit (upperDigit d) d.
Proof. intros H. unfold upperDigit, digit. destruct (Z.ltb_spec d 10); lia. Qed.
Lemma hexDigits_numeral fuel : forall z acc, 0 <= z < 16 ^ Z.of_nat fuel -> (0 < fuel)%nat -> exists l, hexDigits fuel z acc = l ++ acc /\ numeral l z.
Proof.
  induction fuel as [|fuel IH]; intros z acc Hz Hf; [lia|]. cbn [hexDigits].
  pose proof (Z.mod_pos_bound z 16 ltac:(lia)) as Hm. pose proof (Z.div_mod z 16 ltac:(lia)) as Hd.
  destruct (Z.eqb_spec (z / 16) 0) as [E|E].
  - exists [upperDigit (z mod 16)]. split; [reflexivity|]. replace z with (z mod 16) at 2 by lia. apply num_one, upperDigit_digit, Hm.
  - destruct fuel as [|fuel]; [change (16 ^ Z.of_nat 1) with 16 in Hz; rewrite Z.div_small in E by lia; congruence|].
    destruct (IH (z / 16) (upperDigit (z mod 16) :: acc)) as (l & El & Hl).
    + split; [apply Z.div_pos; lia|]. apply Z.div_lt_upper_bound; [lia|]. rewrite <- Z.pow_succ_r by lia. rewrite <- Nat2Z.inj_succ. lia.
    + lia.
    + exists (l ++ [upperDigit (z mod 16)]). rewrite El, <- app_assoc. split; [reflexivity|].
      replace z with (16 * (z / 16) + z mod 16) at 2 by lia. apply num_more; [exact Hl|]. now apply upperDigit_digit.
Qed.
Lemma numeral_zero l z : numeral l z -> numeral (48 :: l) z.
Proof.
  assert (digit 48 0) as D by (left; lia).
  induction 1 as [r v H|l z r v H IH Hd].
  - change (numeral ([48] ++ [r]) v). replace v with (16 * 0 + v) by lia. apply num_more; [now apply num_one|exact H].
  - change (numeral ((48 :: l) ++ [r]) (16 * z + v)). now apply num_more.
Qed.
Lemma print04X_numeral z : 0 <= z < 2 ^ 31 -> numeral (print04X z) z.
Proof.
  intros H. unfold print04X. destruct (Z.ltb_spec z 0); [lia|]. destruct (hexDigits_numeral 8 z []) as (l & -> & Hl); [change (16 ^ Z.of_nat 8) with (2 ^ 32); lia|lia|].
  rewrite app_nil_r. unfold padded. induction (4 - length l)%nat as [|k IH]; [exact Hl|]. cbn [repeat app]. now apply numeral_zero.
Qed.
Lemma dense_app a b : dense (a ++ b) = dense a ++ dense b.
Proof. apply filter_app. Qed.
Lemma dense_numeral l z : numeral l z -> dense l = l.
Proof.
  induction 1 as [r v H|l z r v H IH Hd]; [|rewrite dense_app, IH; f_equal]; unfold dense; cbn [filter];
    [rewrite (digit_notSpace _ _ H)|rewrite (digit_notSpace _ _ Hd)]; reflexivity.
Qed.
Definition printable (t : table) : Prop := Forall (fun iv => 0 <= fst iv < 2 ^ 31 /\ 0 <= snd iv < 2 ^ 31) t.
Lemma printRange_source iv : 0 <= fst iv < 2 ^ 31 -> 0 <= snd iv < 2 ^ 31 -> rangeSource iv (dense (printRange iv)).
Proof.
  intros H1 H2. pose proof (print04X_numeral _ H1) as N1. pose proof (print04X_numeral _ H2) as N2.
  exists (print04X (fst iv)), (print04X (snd iv)). split; [exact N1|]. split; [exact N2|]. unfold printRange.
  rewrite !dense_app, (dense_numeral _ _ N1), (dense_numeral _ _ N2). reflexivity.
Qed.
Lemma generate_source arr : printable arr -> forall i, exists es, Forall2 rangeSource arr es /\ dense (generate_loop i arr) = concat es.
Proof.
  induction 1 as [|iv arr [H1 H2] H IH]; intros i; [exists []; split; [constructor|reflexivity]|].
  destruct (IH (S i)) as (es & Hes & E). exists (dense (printRange iv) :: es). split; [constructor; [now apply printRange_source|exact Hes]|].
  cbn [concat]. rewrite <- E. destruct arr as [|iv' arr]; [cbn [generate_loop]; now rewrite app_nil_r|].
  change (generate_loop i (iv :: iv' :: arr)) with (printRange iv ++ (if (i mod 3 =? 2)%nat then [10; 9] else [32]) ++ generate_loop (S i) (iv' :: arr)).
  rewrite !dense_app. f_equal. destruct (i mod 3 =? 2)%nat; reflexivity.
Qed.
Theorem table_printed v t : dense (ascii v) = ascii v -> printable t -> tableSource v t (generate (ascii v) t).
Proof.
  intros Hv Ht. destruct (generate_source t Ht 0) as (es & H1 & H2). exists es. split; [exact H1|]. unfold generate. rewrite !dense_app, H2, Hv. reflexivity.
Qed.

(** for examples *)
Lemma takeHex_numeral : forall l acc k z, numeral k acc -> takeHex acc l = (z, []) -> numeral (k ++ l) z.
Proof.
  induction l as [|r l IH]; intros acc k z Hk; cbn [takeHex]; [intros [= <-]; now rewrite app_nil_r|].
  destruct (hexDigit r) as [d|] eqn:E; [|discriminate]. intros H. change (r :: l) with ([r] ++ l). rewrite app_assoc. eapply IH; [|exact H]. apply num_more; [exact Hk|].
  revert E. unfold hexDigit, digit. repeat match goal with |- context [(?a <=? ?b)%Z] => destruct (Z.leb_spec a b) end; cbn [andb]; intros [= <-]; lia.
Qed.
Lemma codePoint_of r d l z : digit r d -> takeHex d l = (z, []) -> z <= 0x10ffff -> codePoint (r :: l) z.
Proof. intros H E Hz. split; [|exact Hz]. change (r :: l) with ([r] ++ l). eapply takeHex_numeral; [apply num_one; exact H|exact E]. Qed.
