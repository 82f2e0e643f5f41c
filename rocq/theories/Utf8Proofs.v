From Coq Require Import ZifyBool.
From Verif Require Import Base Tables Width SpecWidth WidthProofs Utf8 SpecUtf8.
Ltac Zify.zify_post_hook ::= Z.div_mod_to_equations.

(* ---------- bit operations as arithmetic (finite sweeps) ---------- *)

Fixpoint upto (n : nat) : list Z := match n with O => [] | S k => upto k ++ [Z.of_nat k] end.
Lemma in_upto n x : 0 <= x < Z.of_nat n -> In x (upto n).
Proof.
  induction n as [|n IH]; intros H; [lia|]. cbn [upto]. apply in_or_app.
  destruct (Z.eq_dec x (Z.of_nat n)) as [->|]; [right; left; reflexivity|left; apply IH; lia].
Qed.
Lemma sweep n (P : Z -> bool) : forallb P (upto n) = true -> forall x, 0 <= x < Z.of_nat n -> P x = true.
Proof. intros H x Hx. rewrite forallb_forall in H. apply H. now apply in_upto. Qed.

Lemma land3f x : Z.land x 0x3f = x mod 64.
Proof. change 0x3f with (Z.ones 6). rewrite Z.land_ones by lia. reflexivity. Qed.
Lemma land1f x : Z.land x 0x1f = x mod 32.
Proof. change 0x1f with (Z.ones 5). rewrite Z.land_ones by lia. reflexivity. Qed.
Lemma land0f x : Z.land x 0x0f = x mod 16.
Proof. change 0x0f with (Z.ones 4). rewrite Z.land_ones by lia. reflexivity. Qed.
Lemma land07 x : Z.land x 0x07 = x mod 8.
Proof. change 0x07 with (Z.ones 3). rewrite Z.land_ones by lia. reflexivity. Qed.

Lemma lor80 x : 0 <= x < 64 -> Z.lor 0x80 x = 0x80 + x.
Proof. intros H. apply Z.eqb_eq. apply (sweep 64 (fun x => Z.lor 0x80 x =? 0x80 + x)); [vm_compute; reflexivity|exact H]. Qed.
Lemma lorc0 x : 0 <= x < 32 -> Z.lor 0xc0 x = 0xc0 + x.
Proof. intros H. apply Z.eqb_eq. apply (sweep 32 (fun x => Z.lor 0xc0 x =? 0xc0 + x)); [vm_compute; reflexivity|exact H]. Qed.
Lemma lore0 x : 0 <= x < 16 -> Z.lor 0xe0 x = 0xe0 + x.
Proof. intros H. apply Z.eqb_eq. apply (sweep 16 (fun x => Z.lor 0xe0 x =? 0xe0 + x)); [vm_compute; reflexivity|exact H]. Qed.
Lemma lorf0 x : 0 <= x < 8 -> Z.lor 0xf0 x = 0xf0 + x.
Proof. intros H. apply Z.eqb_eq. apply (sweep 8 (fun x => Z.lor 0xf0 x =? 0xf0 + x)); [vm_compute; reflexivity|exact H]. Qed.

Lemma lor_disjoint n a b : 0 <= n -> 0 <= b < 2 ^ n -> Z.lor (Z.shiftl a n) b = a * 2 ^ n + b.
Proof.
  intros Hn Hb. rewrite <- Z.shiftl_mul_pow2 by exact Hn.
  assert (L : Z.land (Z.shiftl a n) b = 0); [|rewrite Z.add_nocarry_lxor, Z.lxor_lor by exact L; reflexivity].
  apply Z.bits_inj'. intros k Hk. rewrite Z.land_spec, Z.bits_0, Z.shiftl_spec by exact Hk.
  destruct (Z_lt_dec k n).
  - rewrite Z.testbit_neg_r by lia. reflexivity.
  - rewrite (Z.testbit_eqb b) by exact Hk.
    rewrite Z.div_small; [cbn; apply andb_false_r|].
    split; [lia|]. apply Z.lt_le_trans with (2 ^ n); [lia|]. apply Z.pow_le_mono_r; lia.
Qed.

Lemma lor_shift_lt n m a b : 0 <= n -> 0 <= m -> 0 <= a -> 0 <= b < 2 ^ n ->
  Z.lor (Z.shiftl a (n + m)) (Z.shiftl b m) = Z.shiftl (a * 2 ^ n + b) m.
Proof.
  intros Hn Hm Ha Hb. rewrite <- Z.shiftl_shiftl by lia. rewrite <- Z.shiftl_lor.
  rewrite lor_disjoint by assumption. reflexivity.
Qed.

(* ---------- encoding ---------- *)

Lemma scalar_dec r : {scalar r} + {~ scalar r}.
Proof.
  unfold scalar. destruct (Z_le_dec 0 r), (Z_le_dec r 0x10ffff), (Z_le_dec 0xd800 r), (Z_le_dec r 0xdfff);
    (left; lia) || (right; lia).
Defined.

Lemma validRune_scalar r : validRune r = true <-> scalar r.
Proof. unfold validRune, scalar. lia. Qed.

Lemma u32_small r : 0 <= r < 2147483648 -> u32 r = r.
Proof. unfold u32. lia. Qed.
Lemma u32_neg r : -2147483648 <= r < 0 -> 0x10ffff < u32 r.
Proof. unfold u32. lia. Qed.

Lemma encode3_utf8 r : 0x800 <= r < 0x10000 -> ~ (0xd800 <= r <= 0xdfff) -> utf8 r (encode3 r).
Proof.
  intros H1 H2. unfold encode3, u8. rewrite !land3f.
  rewrite !Z.shiftr_div_pow2 by lia. change (2 ^ 12) with 4096. change (2 ^ 6) with 64.
  rewrite lore0 by lia. rewrite !lor80 by lia.
  replace r with ((r / 4096) * 4096 + (r / 64 mod 64) * 64 + r mod 64) at 1 by lia.
  replace (r / 4096 mod 256) with (r / 4096) by lia.
  replace (r / 64 mod 256 mod 64) with (r / 64 mod 64) by lia.
  replace (r mod 256 mod 64) with (r mod 64) by lia.
  apply utf8_3; unfold six; lia.
Qed.

Lemma encodeRune_utf8 r : scalar r -> utf8 r (encodeRune r).
Proof.
  intros [H1 H2]. unfold encodeRune. rewrite u32_small by lia.
  destruct (Z.leb_spec r 0x7f).
  { replace (u8 r) with r by (unfold u8; lia). apply utf8_1; lia. }
  destruct (Z.leb_spec r 0x7ff).
  { unfold u8. rewrite land3f, Z.shiftr_div_pow2 by lia. change (2 ^ 6) with 64.
    rewrite lorc0, lor80 by lia.
    replace r with ((r / 64) * 64 + r mod 64) at 1 by lia.
    replace (r / 64 mod 256) with (r / 64) by lia.
    replace (r mod 256 mod 64) with (r mod 64) by lia.
    apply utf8_2; unfold six; lia. }
  assert ((0x10ffff <? r) || ((0xd800 <=? r) && (r <=? 0xdfff)) = false) as -> by lia.
  destruct (Z.leb_spec r 0xffff); [apply encode3_utf8; lia|].
  unfold u8. rewrite !land3f, !Z.shiftr_div_pow2 by lia.
  change (2 ^ 18) with 262144. change (2 ^ 12) with 4096. change (2 ^ 6) with 64.
  rewrite lorf0 by lia. rewrite !lor80 by lia.
  replace (r / 262144 mod 256) with (r / 262144) by lia.
  replace (r / 4096 mod 256 mod 64) with (r / 4096 mod 64) by lia.
  replace (r / 64 mod 256 mod 64) with (r / 64 mod 64) by lia.
  replace (r mod 256 mod 64) with (r mod 64) by lia.
  replace r with ((r / 262144) * 262144 + (r / 4096 mod 64) * 4096 + (r / 64 mod 64) * 64 + r mod 64) at 1 by lia.
  apply utf8_4; unfold six; lia.
Qed.

Lemma encodeRune_invalid r : int32 r -> ~ scalar r -> encodeRune r = encodeRune 0xfffd.
Proof.
  intros H32 Hs. change (encodeRune 0xfffd) with (encode3 0xfffd).
  unfold encodeRune, scalar, int32 in *.
  destruct (Z_lt_dec r 0).
  - pose proof (u32_neg r ltac:(lia)).
    destruct (Z.leb_spec (u32 r) 0x7f); [lia|]. destruct (Z.leb_spec (u32 r) 0x7ff); [lia|].
    assert ((0x10ffff <? u32 r) = true) as -> by lia. reflexivity.
  - rewrite u32_small by lia.
    destruct (Z.leb_spec r 0x7f); [lia|]. destruct (Z.leb_spec r 0x7ff); [lia|].
    assert ((0x10ffff <? r) || ((0xd800 <=? r) && (r <=? 0xdfff)) = true) as -> by lia. reflexivity.
Qed.

Definition clean (r : rune) : rune := if scalar_dec r then r else 0xfffd.

Lemma clean_scalar r : scalar (clean r).
Proof. unfold clean. destruct (scalar_dec r); [assumption|unfold scalar; lia]. Qed.
Lemma clean_replaced r : replaced r (clean r).
Proof. unfold clean, replaced. destruct (scalar_dec r); auto. Qed.
Lemma replaced_clean r r' : replaced r r' -> r' = clean r.
Proof. unfold clean. intros [[H ->]|[H ->]]; destruct (scalar_dec r); tauto. Qed.

Lemma encodeRune_clean r : int32 r -> encodeRune r = encodeRune (clean r).
Proof. intros H. unfold clean. destruct (scalar_dec r); [reflexivity|now apply encodeRune_invalid]. Qed.

Lemma runeBytes_encode r : runeBytes r = encodeRune r.
Proof.
  unfold runeBytes, encodeRune. destruct (Z.ltb_spec (u32 r) 0x80); [|reflexivity].
  destruct (Z.leb_spec (u32 r) 0x7f); [reflexivity|lia].
Qed.

Lemma runesBytes_concat : forall rs buf, runesBytes rs buf = buf ++ concat (map encodeRune rs).
Proof.
  induction rs as [|r rs IH]; intros buf; cbn [runesBytes map concat]; [now rewrite app_nil_r|].
  assert (E : (if u32 r <? 0x80 then runesBytes rs (buf ++ [u8 r]) else runesBytes rs (buf ++ encodeRune r))
     = runesBytes rs (buf ++ encodeRune r)).
  { pose proof (runeBytes_encode r) as H. unfold runeBytes in H. destruct (u32 r <? 0x80); [now rewrite <- H|reflexivity]. }
  rewrite E, IH, app_assoc. reflexivity.
Qed.

Lemma encode_all_utf8s rs : Forall int32 rs -> utf8s (map clean rs) (concat (map encodeRune rs)).
Proof.
  induction 1 as [|r rs H Hs IH]; cbn [map concat]; [constructor|].
  rewrite encodeRune_clean by exact H. constructor; [apply encodeRune_utf8, clean_scalar|exact IH].
Qed.

(* writing one at a time *)
Fixpoint writeEach (w : iowriter) (s : w_state w) (rs : list rune) : w_state w :=
  match rs with [] => s | r :: rs' => writeEach w (fst (writeRune w s r)) rs' end.

(* a writer that accepts everything and records its Write calls *)
Definition recorder : iowriter :=
  mkWriter (list (list byte)) unit (fun s p => (s ++ [p], (zlen p, None))).

Lemma writeEach_recorder : forall rs s, 
  writeEach recorder s rs = s ++ map encodeRune rs.
Proof.
  induction rs as [|r rs IH]; intros s; cbn [writeEach map]; [now rewrite app_nil_r|].
  rewrite IH. cbn. rewrite <- app_assoc. cbn. now rewrite runeBytes_encode.
Qed.

Lemma writeRunes_spec (w : iowriter) (s : w_state w) rs : Forall int32 rs ->
  exists rs' bs, Forall2 replaced rs rs' /\ utf8s rs' bs /\ writeRunes w s rs = w_write w s bs.
Proof.
  intros H. exists (map clean rs), (concat (map encodeRune rs)). repeat split.
  - clear H. induction rs; constructor; [apply clean_replaced|assumption].
  - now apply encode_all_utf8s.
  - unfold writeRunes. rewrite runesBytes_concat. reflexivity.
Qed.

Lemma writeRunes_same_as_each rs s :
  exists bs, writeRunes recorder s rs = (s ++ [bs], (zlen bs, None)) /\
    concat (writeEach recorder s rs) = concat s ++ bs.
Proof.
  exists (concat (map encodeRune rs)). unfold writeRunes. rewrite runesBytes_concat. split; [reflexivity|].
  rewrite writeEach_recorder, concat_app. reflexivity.
Qed.

(* ---------- decoding ---------- *)

Ltac arith2 :=
  rewrite ?land3f, ?land1f, ?land0f, ?land07.

Lemma lor2 a b : 0 <= a -> 0 <= b < 64 -> Z.lor (Z.shiftl a 6) b = a * 64 + b.
Proof. intros Ha Hb. rewrite lor_disjoint by (change (2^6) with 64; lia). reflexivity. Qed.

Lemma lor3 a b c : 0 <= a -> 0 <= b < 64 -> 0 <= c < 64 ->
  Z.lor (Z.lor (Z.shiftl a 12) (Z.shiftl b 6)) c = a * 4096 + b * 64 + c.
Proof.
  intros Ha Hb Hc. change 12 with (6 + 6).
  rewrite lor_shift_lt by (change (2^6) with 64; lia). rewrite lor2 by (change (2^6) with 64; lia).
  change (2 ^ 6) with 64. lia.
Qed.

Lemma lor4 a b c d : 0 <= a -> 0 <= b < 64 -> 0 <= c < 64 -> 0 <= d < 64 ->
  Z.lor (Z.lor (Z.lor (Z.shiftl a 18) (Z.shiftl b 12)) (Z.shiftl c 6)) d = a * 262144 + b * 4096 + c * 64 + d.
Proof.
  intros Ha Hb Hc Hd. change 18 with (6 + 12).
  rewrite lor_shift_lt by (change (2^6) with 64; lia). rewrite lor3 by (change (2^6) with 64; lia).
  change (2 ^ 6) with 64. lia.
Qed.

Lemma decode_utf8 r bs rest : utf8 r bs -> decodeRune (bs ++ rest) = (r, length bs).
Proof.
  intros H. destruct H as [a Ha|a b Hb Hr|a b c Hb Hc Hr Hs|a b c d Hb Hc Hd Hr]; unfold six in *; cbn [app length decodeRune].
  - destruct (Z.ltb_spec a 0x80); [reflexivity|lia].
  - destruct (Z.ltb_spec (0xc0 + a) 0x80); [lia|].
    assert (inB 0xc2 0xdf (0xc0 + a) = true) as -> by (unfold inB; lia).
    assert (inB 0x80 0xbf (0x80 + b) = true) as -> by (unfold inB; lia).
    rewrite land1f, land3f. rewrite lor2 by lia. f_equal. lia.
  - destruct (Z.ltb_spec (0xe0 + a) 0x80); [lia|].
    assert (inB 0xc2 0xdf (0xe0 + a) = false) as -> by (unfold inB; lia).
    assert (inB 0xe0 0xef (0xe0 + a) = true) as -> by (unfold inB; lia).
    assert (inB (if 0xe0 + a =? 0xe0 then 0xa0 else 0x80) (if 0xe0 + a =? 0xed then 0x9f else 0xbf) (0x80 + b) = true) as ->.
    { unfold inB. destruct (Z.eqb_spec (0xe0 + a) 0xe0), (Z.eqb_spec (0xe0 + a) 0xed); lia. }
    assert (inB 0x80 0xbf (0x80 + c) = true) as -> by (unfold inB; lia).
    cbn [andb]. rewrite land0f, !land3f. rewrite lor3 by lia. f_equal. lia.
  - destruct (Z.ltb_spec (0xf0 + a) 0x80); [lia|].
    assert (inB 0xc2 0xdf (0xf0 + a) = false) as -> by (unfold inB; lia).
    assert (inB 0xe0 0xef (0xf0 + a) = false) as -> by (unfold inB; lia).
    assert (inB 0xf0 0xf4 (0xf0 + a) = true) as -> by (unfold inB; lia).
    assert (inB (if 0xf0 + a =? 0xf0 then 0x90 else 0x80) (if 0xf0 + a =? 0xf4 then 0x8f else 0xbf) (0x80 + b) = true) as ->.
    { unfold inB. destruct (Z.eqb_spec (0xf0 + a) 0xf0), (Z.eqb_spec (0xf0 + a) 0xf4); lia. }
    assert (inB 0x80 0xbf (0x80 + c) = true) as -> by (unfold inB; lia).
    assert (inB 0x80 0xbf (0x80 + d) = true) as -> by (unfold inB; lia).
    cbn [andb]. rewrite land07, !land3f. rewrite lor4 by lia. f_equal. lia.
Qed.

Lemma utf8_nonempty r bs : utf8 r bs -> (0 < length bs)%nat.
Proof. destruct 1; cbn; lia. Qed.
Lemma utf8_scalar r bs : utf8 r bs -> scalar r.
Proof. destruct 1; unfold scalar, six in *; lia. Qed.
Lemma utf8_bytes r bs : utf8 r bs -> Forall isByte bs.
Proof. destruct 1; unfold six in *; repeat constructor; unfold isByte; lia. Qed.

Lemma runesOf_fuel_utf8s : forall rs bs, utf8s rs bs -> forall fuel, (length bs <= fuel)%nat -> runesOf_fuel fuel bs = rs.
Proof.
  induction 1 as [|r rs bs bss Hu Hs IH]; intros fuel Hf.
  - destruct fuel; reflexivity.
  - pose proof (utf8_nonempty _ _ Hu). rewrite app_length in Hf.
    destruct fuel as [|fuel]; [lia|]. cbn [runesOf_fuel].
    destruct (bs ++ bss) as [|x l] eqn:E; [destruct bs; [cbn in *; lia|discriminate]|].
    rewrite <- E. rewrite (decode_utf8 _ _ bss Hu).
    rewrite skipn_app_exact by reflexivity. f_equal. apply IH. lia.
Qed.

Lemma runesOf_utf8s rs bs : utf8s rs bs -> runesOf bs = rs.
Proof. intros H. unfold runesOf. now apply runesOf_fuel_utf8s. Qed.

Lemma utf8s_unique rs1 rs2 bs : utf8s rs1 bs -> utf8s rs2 bs -> rs1 = rs2.
Proof. intros H1 H2. apply runesOf_utf8s in H1, H2. congruence. Qed.

(* decoding any bytes *)
Lemma decodeRune_sound p : Forall isByte p -> p <> [] ->
  let (r, n) := decodeRune p in
  scalar r /\ (1 <= n <= length p)%nat /\ (r = 0xfffd /\ n = 1%nat \/ utf8 r (firstn n p)).
Proof.
  intros Hb Hne. destruct p as [|b0 p1]; [congruence|]. clear Hne.
  assert (Herr : scalar runeError /\ (1 <= 1 <= length (b0 :: p1))%nat /\
    (runeError = 0xfffd /\ 1%nat = 1%nat \/ utf8 runeError (firstn 1 (b0 :: p1)))).
  { unfold scalar, runeError. repeat split; cbn [length]; try lia; auto. }
  inversion Hb as [|? ? B0 Hb1]; subst. unfold isByte in B0.
  unfold decodeRune.
  destruct (Z.ltb_spec b0 0x80).
  { repeat split; unfold scalar; cbn [length firstn]; try lia. right. apply utf8_1; lia. }
  destruct (inB 0xc2 0xdf b0) eqn:E2.
  { destruct p1 as [|b1 p2]; [exact Herr|]. destruct (inB 0x80 0xbf b1) eqn:E3; [|exact Herr].
    unfold inB in *. rewrite land1f, land3f, lor2 by lia.
    assert (U : utf8 (b0 mod 32 * 64 + b1 mod 64) [b0; b1]).
    { replace b0 with (0xc0 + b0 mod 32) at 2 by lia. replace b1 with (0x80 + b1 mod 64) at 2 by lia.
      apply utf8_2; unfold six; lia. }
    split; [eapply utf8_scalar; eauto|]. split; [cbn [length]; lia|]. right. exact U. }
  destruct (inB 0xe0 0xef b0) eqn:E3.
  { destruct p1 as [|b1 [|b2 p2]]; [exact Herr|exact Herr|].
    destruct (_ && _) eqn:E4; [|exact Herr].
    unfold inB in *. apply andb_prop in E4 as [E4 E5].
    rewrite land0f, !land3f, lor3 by lia.
    assert (R1 : 0x80 <= b1 <= 0xbf /\ (b0 = 0xe0 -> 0xa0 <= b1) /\ (b0 = 0xed -> b1 <= 0x9f)).
    { destruct (Z.eqb_spec b0 0xe0), (Z.eqb_spec b0 0xed); lia. }
    assert (U : utf8 (b0 mod 16 * 4096 + b1 mod 64 * 64 + b2 mod 64) [b0; b1; b2]).
    { replace b0 with (0xe0 + b0 mod 16) at 2 by lia. replace b1 with (0x80 + b1 mod 64) at 2 by lia.
      replace b2 with (0x80 + b2 mod 64) at 2 by lia.
      apply utf8_3; unfold six; lia. }
    split; [eapply utf8_scalar; eauto|]. split; [cbn [length]; lia|]. right. exact U. }
  destruct (inB 0xf0 0xf4 b0) eqn:E4; [|exact Herr].
  destruct p1 as [|b1 [|b2 [|b3 p2]]]; [exact Herr|exact Herr|exact Herr|].
  destruct (_ && _ && _) eqn:E5; [|exact Herr].
  unfold inB in *. apply andb_prop in E5 as [E5 E6]. apply andb_prop in E5 as [E5 E7].
  rewrite land07, !land3f, lor4 by lia.
  assert (R1 : 0x80 <= b1 <= 0xbf /\ (b0 = 0xf0 -> 0x90 <= b1) /\ (b0 = 0xf4 -> b1 <= 0x8f)).
  { destruct (Z.eqb_spec b0 0xf0), (Z.eqb_spec b0 0xf4); lia. }
  assert (U : utf8 (b0 mod 8 * 262144 + b1 mod 64 * 4096 + b2 mod 64 * 64 + b3 mod 64) [b0; b1; b2; b3]).
  { replace b0 with (0xf0 + b0 mod 8) at 2 by lia. replace b1 with (0x80 + b1 mod 64) at 2 by lia.
    replace b2 with (0x80 + b2 mod 64) at 2 by lia. replace b3 with (0x80 + b3 mod 64) at 2 by lia.
    apply utf8_4; unfold six; lia. }
  split; [eapply utf8_scalar; eauto|]. split; [cbn [length]; lia|]. right. exact U.
Qed.

Lemma forall_skipn {A} (P : A -> Prop) n l : Forall P l -> Forall P (skipn n l).
Proof. revert l; induction n as [|n IH]; intros l H; [exact H|]. destruct H; cbn [skipn]; [constructor|auto]. Qed.

Lemma runesOf_fuel_scalar : forall fuel p, Forall isByte p -> Forall scalar (runesOf_fuel fuel p).
Proof.
  induction fuel as [|fuel IH]; intros p H; cbn [runesOf_fuel]; [constructor|].
  destruct p as [|b p]; [constructor|].
  pose proof (decodeRune_sound (b :: p) H ltac:(discriminate)) as D.
  destruct (decodeRune (b :: p)) as [r n]. constructor; [tauto|]. apply IH. now apply forall_skipn.
Qed.

Lemma runesOf_scalar p : Forall isByte p -> Forall scalar (runesOf p).
Proof. apply runesOf_fuel_scalar. Qed.

Lemma utf8_fun r b1 b2 : utf8 r b1 -> utf8 r b2 -> b1 = b2.
Proof.
  intros H1 H2. destruct H1 as [a Ha|a b Hb Hr|a b c Hb Hc Hr Hs|a b c d Hb Hc Hd Hr];
  inversion H2 as [a' Ha' E|a' b' Hb' Hr' E|a' b' c' Hb' Hc' Hr' Hs' E|a' b' c' d' Hb' Hc' Hd' Hr' E];
  unfold six in *; try (exfalso; lia).
  - subst; reflexivity.
  - assert (a' = a) by lia. assert (b' = b) by lia. subst; reflexivity.
  - assert (a' = a) by lia. assert (b' = b) by lia. assert (c' = c) by lia. subst; reflexivity.
  - assert (a' = a) by lia. assert (b' = b) by lia. assert (c' = c) by lia. assert (d' = d) by lia. subst; reflexivity.
Qed.

Lemma utf8_encode r bs : utf8 r bs -> encodeRune r = bs.
Proof.
  intros H. eapply utf8_fun; [|exact H]. apply encodeRune_utf8. eapply utf8_scalar; eauto.
Qed.

Lemma reencode bs rs : utf8s rs bs -> concat (map encodeRune (runesOf bs)) = bs.
Proof.
  intros H. rewrite (runesOf_utf8s _ _ H).
  induction H as [|r rs b bss Hu Hs IH]; cbn [map concat]; [reflexivity|].
  rewrite IH. f_equal. now apply utf8_encode.
Qed.

Lemma roundtrip rs : Forall int32 rs ->
  exists rs', Forall2 replaced rs rs' /\ runesOf (runesBytes rs []) = rs'.
Proof.
  intros H. exists (map clean rs). split.
  - clear H. induction rs; constructor; [apply clean_replaced|assumption].
  - rewrite runesBytes_concat. cbn [app]. apply runesOf_utf8s. now apply encode_all_utf8s.
Qed.

Lemma reencode_written bs rs : utf8s rs bs -> runesBytes (runesOf bs) [] = bs.
Proof. intros H. rewrite runesBytes_concat. cbn [app]. eapply reencode; eauto. Qed.

Lemma runeLen_utf8 r bs : utf8 r bs -> runeLen r = zlen bs.
Proof.
  intros H. unfold runeLen. destruct H; unfold six in *; unfold zlen; cbn [length];
  repeat match goal with |- context [if ?b then _ else _] => let E := fresh "E" in destruct b eqn:E end; lia.
Qed.

Lemma runeLen_valid r : scalar r -> runeLen r = zlen (encodeRune r) /\ 1 <= runeLen r <= 4.
Proof.
  intros H. split; [apply runeLen_utf8; now apply encodeRune_utf8|].
  unfold runeLen, scalar in *.
  repeat match goal with |- context [if ?b then _ else _] => let E := fresh "E" in destruct b eqn:E end; lia.
Qed.
Lemma runeLen_invalid r : ~ scalar r -> runeLen r = -1.
Proof.
  intros H. unfold runeLen, scalar in *.
  repeat match goal with |- context [if ?b then _ else _] => let E := fresh "E" in destruct b eqn:E end; lia.
Qed.

Lemma stringWidth_total s opts : Forall isByte s -> exists w, stringWidth s opts = Ret w.
Proof.
  intros H. unfold stringWidth. destruct (widths (runesOf s) opts) as [w|] eqn:E; [eauto|].
  apply widths_panic_iff in E as [_ [r [Hin Hr]]].
  pose proof (runesOf_scalar s H) as F. rewrite Forall_forall in F. specialize (F r Hin). unfold scalar in F. lia.
Qed.
