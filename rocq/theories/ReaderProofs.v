From Coq Require Import ZifyBool ZifyNat.
From Verif Require Import Base Tables Width Utf8 SpecUtf8 Utf8Proofs Reader SpecReader.
Ltac Zify.zify_post_hook ::= Z.div_mod_to_equations.

(* ---------- slices and ranges ---------- *)

Lemma cslice_range {A} (s : gslice A) a b :
  (forall g, cslice s a b = Ret g -> range (s_data s ++ s_spare s) a b (s_data g)) /\
  (cslice s a b = Panic <-> ~ (0 <= a <= b /\ b <= zlen (s_data s ++ s_spare s))).
Proof.
  unfold cslice. set (arr := s_data s ++ s_spare s).
  destruct ((0 <=? a) && (a <=? b) && (b <=? zlen arr)) eqn:E.
  - assert (H : 0 <= a <= b /\ b <= zlen arr) by lia. split.
    + intros g Hg. injection Hg as <-. cbn [s_data].
      apply (range_intro arr a b (firstn (Z.to_nat a) arr) _ (skipn (Z.to_nat (b - a)) (skipn (Z.to_nat a) arr))).
      * rewrite firstn_skipn, firstn_skipn. reflexivity.
      * unfold zlen in *. rewrite firstn_length. lia.
      * unfold zlen in *. rewrite !firstn_length, skipn_length. lia.
    + split; [discriminate|tauto].
  - split; [discriminate|]. split; [intros _; lia|reflexivity].
Qed.

Lemma cslice_view {A} (s : gslice A) a b g : cslice s a b = Ret g -> view (s_data s ++ s_spare s) a b g.
Proof.
  unfold cslice. set (arr := s_data s ++ s_spare s).
  destruct ((0 <=? a) && (a <=? b) && (b <=? zlen arr)) eqn:E; [|discriminate]. intros H. injection H as <-.
  apply (view_intro arr a b _ (firstn (Z.to_nat a) arr)); cbn [s_data s_spare].
  - replace (skipn (Z.to_nat b) arr) with (skipn (Z.to_nat (b - a)) (skipn (Z.to_nat a) arr)).
    + rewrite firstn_skipn, firstn_skipn. reflexivity.
    + assert (Z.to_nat b = Z.to_nat a + Z.to_nat (b - a))%nat as -> by lia. generalize (Z.to_nat (b - a)). intros k.
      generalize arr. induction (Z.to_nat a) as [|n IH]; intros l; [reflexivity|]. destruct l as [|x l]; [now rewrite !skipn_nil|]. cbn [skipn Nat.add]. apply IH.
  - unfold zlen in *. rewrite firstn_length. lia.
  - unfold zlen in *. rewrite !firstn_length, skipn_length. lia.
Qed.
Lemma readerSlices_views r l gs : readerSlices r l = Ret gs -> views (s_data (rd_runes r) ++ s_spare (rd_runes r)) l gs.
Proof.
  unfold readerSlices. destruct (Nat.odd (length l)) eqn:Eo; [discriminate|]. revert l Eo gs. fix IH 1. intros [|a [|b l]] Eo gs; [|discriminate|].
  - intros H. injection H as <-. constructor.
  - cbn [slices_loop]. destruct (cslice (rd_runes r) a b) as [g|] eqn:E; [|discriminate]. cbn [gbind].
    destruct (slices_loop (rd_runes r) l) as [gs'|] eqn:El; [|discriminate]. cbn [gbind]. intros H. injection H as <-.
    constructor; [now apply cslice_view|]. apply IH; [exact Eo|exact El].
Qed.
Lemma readerSlice_views r a b g : readerSlice r a b = Ret g -> view (s_data (rd_runes r) ++ s_spare (rd_runes r)) a b g.
Proof. apply cslice_view. Qed.
Lemma readerRunes_views r g : readerRunes r = Ret g -> view (s_data (rd_runes r) ++ s_spare (rd_runes r)) (rd_offset r) (zlen (s_data (rd_runes r))) g.
Proof. apply cslice_view. Qed.
Lemma byteSlices_views r l gs : sliceFromByteOffsets r l = Ret gs -> exists offs, views (s_data (rd_runes r) ++ s_spare (rd_runes r)) offs gs.
Proof.
  unfold sliceFromByteOffsets. destruct (Nat.odd (length l)) eqn:Eo; [discriminate|]. revert l Eo gs. fix IH 1. intros [|a [|b l]] Eo gs; [|discriminate|].
  - intros H. injection H as <-. exists []. constructor.
  - cbn [byteSlices_loop]. destruct (byteOffsets_loop _ a b 0 0 0) as [sr er]. destruct (cslice (rd_runes r) sr er) as [g|] eqn:E; [|discriminate]. cbn [gbind].
    destruct (byteSlices_loop (rd_runes r) l) as [gs'|] eqn:El; [|discriminate]. cbn [gbind]. intros H. injection H as <-.
    destruct (IH l Eo gs' El) as (offs & V). exists (sr :: er :: offs). constructor; [now apply cslice_view|exact V].
Qed.

Lemma range_fun {A} (l : list A) a b y1 y2 : range l a b y1 -> range l a b y2 -> y1 = y2.
Proof.
  intros [x1 y z1 E1 Ea1 Eb1] [x2 y' z2 E2 Ea2 Eb2].
  assert (x1 = x2).
  { assert (firstn (Z.to_nat a) l = x1) by (rewrite E1; apply firstn_app_exact; unfold zlen in *; lia).
    assert (firstn (Z.to_nat a) l = x2) by (rewrite E2; apply firstn_app_exact; unfold zlen in *; lia). congruence. }
  subst x2. rewrite E1 in E2. apply app_inv_head in E2.
  assert (firstn (Z.to_nat (b - a)) (y ++ z1) = y) by (apply firstn_app_exact; unfold zlen in *; lia).
  assert (firstn (Z.to_nat (b - a)) (y' ++ z2) = y') by (apply firstn_app_exact; unfold zlen in *; lia).
  congruence.
Qed.

Lemma range_exists_iff {A} (l : list A) a b : (exists y, range l a b y) <-> 0 <= a <= b /\ b <= zlen l.
Proof.
  split.
  - intros [y [x y' z E Ea Eb]]. rewrite E, !zlen_app.
    pose proof (zlen_nonneg x); pose proof (zlen_nonneg y'); pose proof (zlen_nonneg z). lia.
  - intros H. destruct (cslice (mkSlice l []) a b) as [g|] eqn:E.
    + destruct (cslice_range (mkSlice l []) a b) as [R _]. specialize (R g E). cbn in R. rewrite app_nil_r in R. eauto.
    + apply cslice_range in E. cbn in E. rewrite app_nil_r in E. tauto.
Qed.

Lemma pair_ind {A} (P : list A -> Prop) : P [] -> (forall a, P [a]) -> (forall a b l, P l -> P (a :: b :: l)) -> forall l, P l.
Proof.
  intros H0 H1 H2. assert (forall l, P l /\ forall a, P (a :: l)).
  { induction l as [|b l [IH1 IH2]]; split; auto. } intros l; apply H.
Qed.

Lemma slices_loop_spec s : forall l, Nat.odd (length l) = false ->
  (forall gs, slices_loop s l = Ret gs -> ranges (s_data s ++ s_spare s) l (map s_data gs)) /\
  (slices_loop s l = Panic -> forall out, ~ ranges (s_data s ++ s_spare s) l out).
Proof.
  intros l. pattern l. apply pair_ind; clear l.
  - intros _. split; [intros gs H; injection H as <-; constructor|discriminate].
  - discriminate.
  - intros a b l IH H. cbn [length Nat.odd] in H.
    assert (H' : Nat.odd (length l) = false) by (exact H). destruct (IH H') as [I1 I2].
    cbn [slices_loop]. destruct (cslice s a b) as [g|] eqn:E; cbn [gbind].
    + destruct (slices_loop s l) as [gs|] eqn:El; cbn [gbind].
      * split; [|discriminate]. intros gs' Hg. injection Hg as <-. cbn [map]. constructor; [|now apply I1].
        now apply cslice_range.
      * split; [discriminate|]. intros _ out R. inversion R; subst. eapply I2; eauto.
    + split; [discriminate|]. intros _ out R. inversion R; subst.
      apply cslice_range in E. apply E. apply range_exists_iff. eauto.
Qed.

Lemma ranges_even {A} (l : list A) offs out : ranges l offs out -> Nat.odd (length offs) = false.
Proof. induction 1; cbn [length]; [reflexivity|exact IHranges]. Qed.

Lemma ranges_fun {A} (l : list A) offs o1 o2 : ranges l offs o1 -> ranges l offs o2 -> o1 = o2.
Proof.
  intros H; revert o2. induction H as [|a b y offs out Hr H IH]; intros o2 H2; inversion H2; subst; [reflexivity|].
  f_equal; [eapply range_fun; eauto|auto].
Qed.

Lemma readerSlices_spec r l out :
  (exists gs, readerSlices r l = Ret gs /\ map s_data gs = out) <->
  ranges (s_data (rd_runes r) ++ s_spare (rd_runes r)) l out.
Proof.
  unfold readerSlices. destruct (Nat.odd (length l)) eqn:Eo.
  - split; [intros [gs [H _]]; discriminate|]. intros R. apply ranges_even in R. congruence.
  - destruct (slices_loop_spec (rd_runes r) l Eo) as [S1 S2]. split.
    + intros [gs [H <-]]. now apply S1.
    + intros R. destruct (slices_loop (rd_runes r) l) as [gs|] eqn:E.
      * exists gs. split; [reflexivity|]. eapply ranges_fun; [apply S1; reflexivity|exact R].
      * exfalso. eapply S2; eauto.
Qed.

Lemma ranges_pairsOk {A} (l : list A) offs : (exists out, ranges l offs out) <-> pairsOk (zlen l) offs.
Proof.
  split.
  - intros [out H]. induction H as [|a b y offs out Hr H IH]; [constructor|].
    assert (0 <= a <= b /\ b <= zlen l) by (apply range_exists_iff; eauto). constructor; tauto.
  - induction 1 as [|a b offs Hab Hb H [out IH]]; [exists []; constructor|].
    destruct (proj2 (range_exists_iff l a b) (conj Hab Hb)) as [y Hy]. exists (y :: out). now constructor.
Qed.

Lemma readerSlices_panic r l :
  readerSlices r l = Panic <-> ~ pairsOk (zlen (s_data (rd_runes r)) + zlen (s_spare (rd_runes r))) l.
Proof.
  rewrite <- zlen_app, <- ranges_pairsOk. split.
  - intros E [out R]. apply readerSlices_spec in R as [gs [E2 _]]. congruence.
  - intros N. destruct (readerSlices r l) as [gs|] eqn:E; [|reflexivity]. exfalso. apply N.
    exists (map s_data gs). apply readerSlices_spec. eauto.
Qed.

(* ---------- byte offsets ---------- *)

Definition bsum (l : list rune) : Z := fold_right Z.add 0 (map runeLen l).
Lemma bsum_app a b : bsum (a ++ b) = bsum a + bsum b.
Proof. unfold bsum. rewrite map_app. induction (map runeLen a) as [|x l IH]; cbn [app fold_right]; [reflexivity|]. lia. Qed.
Lemma bsum_cons r l : bsum (r :: l) = runeLen r + bsum l.
Proof. reflexivity. Qed.
Lemma bsum_nonneg l : Forall scalar l -> 0 <= bsum l.
Proof. induction 1 as [|r l H Hl IH]; [cbn; lia|]. rewrite bsum_cons. pose proof (runeLen_valid r H). lia. Qed.

Lemma inside_after first last : forall rs pos, Forall scalar rs -> last <= pos ->
  insideBytes runeLen first last pos rs = [].
Proof.
  induction rs as [|r rs IH]; intros pos Hs H; cbn [insideBytes]; [reflexivity|].
  inversion Hs as [|? ? Hr Hrs]; subst. pose proof (runeLen_valid r Hr).
  assert ((first <=? pos) && (pos + runeLen r <=? last) = false) as -> by lia. cbn [app].
  apply IH; [assumption|lia].
Qed.

(* at or past the first byte: only the end moves *)
Lemma byteOffsets_tail first last : forall rs sr er off, Forall scalar rs -> first <= off ->
  exists k, (k <= length rs)%nat /\
    byteOffsets_loop rs first last sr er off = (sr, er + Z.of_nat k) /\
    insideBytes runeLen first last off rs = firstn k rs.
Proof.
  induction rs as [|r rs IH]; intros sr er off Hs Hf; cbn [byteOffsets_loop insideBytes].
  - exists 0%nat. repeat split; [cbn; lia|f_equal; lia].
  - inversion Hs as [|? ? Hr Hrs]; subst. pose proof (runeLen_valid r Hr).
    destruct (Z.ltb_spec off first); [lia|].
    destruct (Z.ltb_spec last (off + runeLen r)).
    + exists 0%nat. repeat split; [lia|f_equal; lia|].
      assert ((first <=? off) && (off + runeLen r <=? last) = false) as -> by lia. cbn [app firstn].
      apply inside_after; [assumption|lia].
    + destruct (IH sr (er + 1) (off + runeLen r) Hrs ltac:(lia)) as [k [Hk [E I]]].
      exists (S k). repeat split; [cbn [length]; lia|rewrite E; f_equal; lia|].
      assert ((first <=? off) && (off + runeLen r <=? last) = true) as -> by lia. cbn [app firstn]. now rewrite I.
Qed.

Definition covered (first last off : Z) (rs : list rune) : Prop :=
  exists a r b, rs = a ++ r :: b /\ off + bsum a < first /\ last < off + bsum a + runeLen r.

Lemma covered_tail first last off rs : Forall scalar rs -> first <= off -> ~ covered first last off rs.
Proof.
  intros Hs Hf [a [r [b [E [H1 H2]]]]]. subst rs. apply Forall_app in Hs as [Ha _].
  pose proof (bsum_nonneg a Ha). lia.
Qed.

Lemma byteOffsets_spec first last : forall rs n off, Forall scalar rs ->
  (covered first last off rs /\ exists m, byteOffsets_loop rs first last n n off = (m + 1, m)) \/
  (~ covered first last off rs /\ exists i k, (i + k <= length rs)%nat /\
     byteOffsets_loop rs first last n n off = (n + Z.of_nat i, n + Z.of_nat i + Z.of_nat k) /\
     insideBytes runeLen first last off rs = firstn k (skipn i rs)).
Proof.
  induction rs as [|r rs IH]; intros n off Hs.
  - right. split; [intros [a [r [b [E _]]]]; destruct a; discriminate|].
    exists 0%nat, 0%nat. cbn. repeat split; [lia|f_equal; lia].
  - destruct (Z_lt_dec off first) as [Hlt|Hge].
    + inversion Hs as [|? ? Hr Hrs]; subst. pose proof (runeLen_valid r Hr) as [_ HL].
      cbn [byteOffsets_loop insideBytes]. destruct (Z.ltb_spec off first); [|lia].
      destruct (Z.ltb_spec last (off + runeLen r)) as [Hc|Hn].
      * left. split; [|eauto]. exists [], r, rs. cbn. repeat split; lia.
      * assert (EC : covered first last off (r :: rs) <-> covered first last (off + runeLen r) rs).
        { split.
          - intros [a [r0 [b [E [H1 H2]]]]]. destruct a as [|x a]; injection E as -> E.
            + cbn in H2. lia.
            + exists a, r0, b. rewrite bsum_cons in *. repeat split; [exact E|lia|lia].
          - intros [a [r0 [b [E [H1 H2]]]]]. exists (r :: a), r0, b. rewrite bsum_cons. rewrite E.
            repeat split; lia. }
        assert ((first <=? off) && (off + runeLen r <=? last) = false) as -> by lia. cbn [app].
        destruct (IH (n + 1) (off + runeLen r) Hrs) as [[C R]|[C [i [k [Hik [E I]]]]]].
        -- left. split; [now apply EC|exact R].
        -- right. split; [now rewrite EC|]. exists (S i), k. cbn [length skipn].
           repeat split; [lia|rewrite E; f_equal; lia|exact I].
    + right. split; [apply covered_tail; [exact Hs|lia]|].
      destruct (byteOffsets_tail first last (r :: rs) n n off Hs ltac:(lia)) as [k [Hk [E I]]].
      exists 0%nat, k. cbn [skipn]. repeat split; [lia|rewrite E; f_equal; lia|exact I].
Qed.

Lemma usize_runeLen r : scalar r -> usize r = runeLen r.
Proof.
  unfold usize, runeLen, scalar. intros H.
  repeat match goal with |- context [if ?b then _ else _] => let E := fresh "E" in destruct b eqn:E end; lia.
Qed.
Lemma map_usize l : Forall scalar l -> map usize l = map runeLen l.
Proof. induction 1 as [|r l H Hl IH]; cbn [map]; [reflexivity|]. now rewrite IH, usize_runeLen. Qed.
Lemma inside_usize first last : forall rs pos, Forall scalar rs ->
  insideBytes usize first last pos rs = insideBytes runeLen first last pos rs.
Proof. induction rs as [|r rs IH]; intros pos H; cbn [insideBytes]; [reflexivity|]. inversion H; subst. rewrite usize_runeLen, IH by assumption. reflexivity. Qed.
Lemma covers_usize first last rs : Forall scalar rs -> (coversBytes usize first last rs <-> coversBytes runeLen first last rs).
Proof.
  intros H. unfold coversBytes. split; intros [a [r [b [E C]]]]; exists a, r, b; (split; [exact E|]);
  rewrite E in H; apply Forall_app in H as [Ha Hr]; inversion Hr; subst;
  rewrite ?map_usize, ?usize_runeLen in * by assumption; exact C.
Qed.

Lemma covered_covers first last rs : covered first last 0 rs <-> coversBytes runeLen first last rs.
Proof. unfold covered, coversBytes, bsum. cbn. reflexivity. Qed.

(* one pair of offsets *)
Lemma sliceBytes_one0 r first last : Forall scalar (s_data (rd_runes r)) ->
  let rs := s_data (rd_runes r) in
  (coversBytes runeLen first last rs /\ sliceFromByteOffsets r [first; last] = Panic) \/
  (~ coversBytes runeLen first last rs /\
     exists g, sliceFromByteOffsets r [first; last] = Ret [g] /\ s_data g = insideBytes runeLen first last 0 rs).
Proof.
  intros Hs rs. unfold sliceFromByteOffsets. cbn [length Nat.odd byteSlices_loop]. cbn [Nat.even negb].
  rewrite <- covered_covers. fold rs.
  destruct (byteOffsets_spec first last rs 0 0 Hs) as [[C [m E]]|[C [i [k [Hik [E I]]]]]]; rewrite E.
  - left. split; [exact C|]. unfold cslice.
    assert ((0 <=? m + 1) && (m + 1 <=? m) = false) as -> by lia. reflexivity.
  - right. split; [exact C|]. unfold cslice. fold rs.
    assert (Hc : (0 <=? 0 + Z.of_nat i) && (0 + Z.of_nat i <=? 0 + Z.of_nat i + Z.of_nat k)
      && (0 + Z.of_nat i + Z.of_nat k <=? zlen (rs ++ s_spare (rd_runes r))) = true).
    { rewrite zlen_app. pose proof (zlen_nonneg (s_spare (rd_runes r))). unfold zlen at 1. lia. }
    rewrite Hc. cbn [gbind]. eexists. split; [reflexivity|]. cbn [s_data]. rewrite I.
    replace (Z.to_nat (0 + Z.of_nat i + Z.of_nat k - (0 + Z.of_nat i))) with k by lia.
    replace (Z.to_nat (0 + Z.of_nat i)) with i by lia.
    rewrite skipn_app, firstn_app, skipn_length.
    replace (k - (length rs - i))%nat with 0%nat by lia. cbn [firstn]. now rewrite app_nil_r.
Qed.

Lemma sliceBytes_one r first last : Forall scalar (s_data (rd_runes r)) ->
  let rs := s_data (rd_runes r) in
  (coversBytes usize first last rs /\ sliceFromByteOffsets r [first; last] = Panic) \/
  (~ coversBytes usize first last rs /\
     exists g, sliceFromByteOffsets r [first; last] = Ret [g] /\ s_data g = insideBytes usize first last 0 rs).
Proof.
  intros Hs rs. unfold rs. rewrite covers_usize, inside_usize by exact Hs. now apply sliceBytes_one0.
Qed.

Lemma sliceBytes_all r : Forall scalar (s_data (rd_runes r)) -> forall l out,
  (exists gs, sliceFromByteOffsets r l = Ret gs /\ map s_data gs = out) <-> byteGroups (s_data (rd_runes r)) l out.
Proof.
  intros Hs l. pattern l. apply pair_ind; clear l.
  - intros out. split.
    + intros [gs [E <-]]. injection E as <-. constructor.
    + intros H. inversion H; subst. exists []. auto.
  - intros a out. split; [intros [gs [E _]]; discriminate|intros H; inversion H].
  - intros a b l IH out.
    assert (Hu : sliceFromByteOffsets r (a :: b :: l) =
       let! g1 := sliceFromByteOffsets r [a; b] in let! gs := sliceFromByteOffsets r l in Ret (g1 ++ gs)).
    { unfold sliceFromByteOffsets. cbn [length]. change (Nat.odd (S (S (length l)))) with (Nat.odd (length l)).
      change (Nat.odd 2) with false. destruct (Nat.odd (length l)).
      - destruct (byteSlices_loop _ [a; b]); reflexivity.
      - cbn [byteSlices_loop]. destruct (byteOffsets_loop _ _ _ _ _ _) as [sr er].
        destruct (cslice _ sr er); cbn [gbind]; [|reflexivity].
        destruct (byteSlices_loop _ l); reflexivity. }
    rewrite Hu.
    destruct (sliceBytes_one r a b Hs) as [[C E]|[C [g [E D]]]]; rewrite E; cbn [gbind].
    + split; [intros [gs [E2 _]]; discriminate|]. intros H. inversion H; subst. contradiction.
    + split.
      * intros [gs [E2 <-]]. destruct (sliceFromByteOffsets r l) as [gs'|] eqn:El; [|discriminate].
        cbn in E2. injection E2 as <-. cbn [map]. rewrite D. constructor; [exact C|].
        apply IH. eauto.
      * intros H. inversion H as [|? ? ? out' _ H']; subst. apply IH in H' as [gs [El <-]].
        rewrite El. cbn [gbind]. exists (g :: gs). cbn [map app]. rewrite D. auto.
Qed.

(* offsets on rune boundaries *)
Lemma inside_exact : forall x first last pos y z, Forall scalar (x ++ y ++ z) ->
  first = pos + bsum x -> last = first + bsum y ->
  insideBytes runeLen first last pos (x ++ y ++ z) = y.
Proof.
  induction x as [|r x IH]; intros first last pos y z Hs Hf Hl.
  - cbn [app] in *. cbn in Hf. assert (pos = first) by lia. subst pos. clear Hf.
    assert (forall y pos, Forall scalar (y ++ z) -> first <= pos -> last = pos + bsum y ->
       insideBytes runeLen first last pos (y ++ z) = y) as G.
    { clear. induction y as [|r y IH]; intros pos Hs Hf Hl.
      - cbn [app]. apply inside_after; [exact Hs|cbn in Hl; lia].
      - cbn [app insideBytes] in *. inversion Hs as [|? ? Hr Hrs]; subst. apply Forall_app in Hrs as Hys.
        pose proof (bsum_nonneg y (proj1 Hys)). rewrite bsum_cons in *. pose proof (runeLen_valid r Hr).
        assert ((first <=? pos) && (pos + runeLen r <=? pos + (runeLen r + bsum y)) = true) as -> by lia.
        cbn [app]. f_equal. apply IH; [exact Hrs|lia|lia]. }
    apply G; [exact Hs|lia|exact Hl].
  - cbn [app insideBytes] in *. inversion Hs as [|? ? Hr Hrs]; subst. rewrite bsum_cons in *.
    apply Forall_app in Hrs as Hx. pose proof (bsum_nonneg x (proj1 Hx)). pose proof (runeLen_valid r Hr).
    assert (forall q, (pos + (runeLen r + bsum x) <=? pos) && q = false) as -> by (intros; lia).
    cbn [app]. apply IH; [exact Hrs|lia|lia].
Qed.

Lemma not_covered_boundary x y z : Forall scalar (x ++ y ++ z) ->
  ~ covered (bsum x) (bsum x + bsum y) 0 (x ++ y ++ z).
Proof.
  intros Hs [a [r [b [E [H1 H2]]]]].
  apply Forall_app in Hs as [Hx Hyz]. apply Forall_app in Hyz as [Hy Hz].
  (* a is a strict prefix of x, so r lies in x *)
  assert (exists q, x = a ++ r :: q) as [q ->].
  { clear H2. revert x Hx E H1. induction a as [|c a IH]; intros x Hx E H1.
    - destruct x as [|c x]; [cbn in H1; lia|]. cbn in E. injection E as -> E. exists x; reflexivity.
    - destruct x as [|d x].
      + assert (0 <= bsum (c :: a)).
        { cbn [app] in E. assert (Hyz : Forall scalar (y ++ z)) by (apply Forall_app; auto).
          rewrite E in Hyz. cbn [app] in Hyz. rewrite app_comm_cons in Hyz. apply Forall_app in Hyz as [Hca _]. now apply bsum_nonneg. }
        change (bsum []) with 0 in H1. lia.
      + cbn [app] in E. injection E as -> E. inversion Hx; subst.
        destruct (IH x) as [q ->]; [assumption|exact E|rewrite !bsum_cons in H1; lia|]. exists q. reflexivity. }
  rewrite bsum_app, bsum_cons in H2.
  apply Forall_app in Hx as [_ Hq]. inversion Hq as [|? ? Hr Hq']; subst.
  pose proof (bsum_nonneg q Hq'). pose proof (bsum_nonneg y Hy). lia.
Qed.

Lemma sliceBytes_boundary r x y z : Forall scalar (s_data (rd_runes r)) -> s_data (rd_runes r) = x ++ y ++ z ->
  exists g, sliceFromByteOffsets r [zlen (concat (map encodeRune x));
                                    zlen (concat (map encodeRune x)) + zlen (concat (map encodeRune y))] = Ret [g]
    /\ s_data g = y.
Proof.
  intros Hs E.
  assert (L : forall l, Forall scalar l -> zlen (concat (map encodeRune l)) = bsum l).
  { induction 1 as [|c l Hc Hl IH]; [reflexivity|]. cbn [map concat]. rewrite zlen_app, IH, bsum_cons.
    destruct (runeLen_valid c Hc) as [-> _]. reflexivity. }
  pose proof Hs as Hs'. rewrite E in Hs. apply Forall_app in Hs as Hx. destruct Hx as [Hx Hyz].
  apply Forall_app in Hyz as [Hy Hz]. rewrite !L by assumption.
  destruct (sliceBytes_one r (bsum x) (bsum x + bsum y) Hs') as [[C _]|[_ [g [R D]]]].
  - exfalso. rewrite covers_usize in C by exact Hs'. rewrite <- covered_covers, E in C. revert C. now apply not_covered_boundary.
  - exists g. split; [exact R|]. rewrite D, E, inside_usize by exact Hs. apply inside_exact; [exact Hs|lia|reflexivity].
Qed.

Lemma sliceBytes_panics_refuted :
  exists r first last, Forall scalar (s_data (rd_runes r)) /\ first <= last /\
    sliceFromByteOffsets r [first; last] = Panic.
Proof.
  exists (newReader (mkSlice [0xe9] [])), 1, 1. repeat split; [|lia].
  constructor; [unfold scalar; lia|constructor].
Qed.

(* ---------- the cursor ---------- *)

Definition rel (r : reader) (c : cursor) : Prop :=
  rd_offset r = zlen (behind c) /\ s_data (rd_runes r) = whole c.

Lemma wrap64_range x : -2^63 <= wrap64 x < 2^63.
Proof. unfold wrap64. change (2^63) with 9223372036854775808. change (2^64) with 18446744073709551616. lia. Qed.
Lemma wrap64_small x : -2^63 <= x < 2^63 -> wrap64 x = x.
Proof. unfold wrap64. change (2^63) with 9223372036854775808. change (2^64) with 18446744073709551616. lia. Qed.
(* a sum that overflows wraps to a negative number when one term is a length *)
Lemma wrap64_sum l off : 0 <= l < 2^63 -> -2^63 <= off < 2^63 ->
  wrap64 (l + off) = l + off \/ (l + off >= 2^63 /\ wrap64 (l + off) < 0).
Proof. unfold wrap64. change (2^63) with 9223372036854775808. change (2^64) with 18446744073709551616. lia. Qed.

Lemma seek_spec r c off wh : rel r c -> zlen (whole c) < 2^63 -> int64 off ->
  let (r', p) := seek r off wh in
  match seekTarget c off wh with
  | Some t => (0 <= t <= zlen (whole c) /\ p = Some t /\ exists c', rel r' c' /\ moved c t c' /\ rd_runes r' = rd_runes r)
              \/ (~ (0 <= t <= zlen (whole c)) /\ p = None /\ r' = r)
  | None => p = Some (zlen (behind c)) /\ r' = r
  end.
Proof.
  intros [Ho Hd] Hlen Hoff. unfold seek, rlen. rewrite Hd, Ho.
  pose proof (zlen_nonneg (whole c)). pose proof (zlen_nonneg (behind c)).
  assert (Hbl : zlen (behind c) <= zlen (whole c)) by (unfold whole; rewrite zlen_app; pose proof (zlen_nonneg (ahead c)); lia).
  assert (Hc : forall t, 0 <= t <= zlen (whole c) ->
     exists c', rel (mkReader t (rd_runes r)) c' /\ moved c t c' /\ rd_runes (mkReader t (rd_runes r)) = rd_runes r).
  { intros t Ht. exists (mkCursor (firstn (Z.to_nat t) (whole c)) (skipn (Z.to_nat t) (whole c))).
    assert (W : whole (mkCursor (firstn (Z.to_nat t) (whole c)) (skipn (Z.to_nat t) (whole c))) = whole c)
      by (unfold whole at 1; cbn [behind ahead]; apply firstn_skipn).
    unfold rel, moved. rewrite W. cbn [behind rd_offset rd_runes].
    assert (zlen (firstn (Z.to_nat t) (whole c)) = t) as -> by (unfold zlen in *; rewrite firstn_length; lia).
    auto. }
  unfold int64 in Hoff.
  pose proof (wrap64_sum (zlen (whole c)) off ltac:(lia) Hoff) as W2.
  pose proof (wrap64_sum (zlen (behind c)) off ltac:(lia) Hoff) as W1.
  destruct (Z.eqb_spec wh 0) as [->|N0].
  { cbn [seekTarget]. destruct ((off <? 0) || (zlen (whole c) <? off)) eqn:E.
    - right. split; [lia|auto].
    - left. split; [lia|]. split; [reflexivity|]. apply Hc; lia. }
  destruct (Z.eqb_spec wh 2) as [->|N2].
  { cbn [seekTarget].
    destruct ((wrap64 (zlen (whole c) + off) <? 0) || (zlen (whole c) <? wrap64 (zlen (whole c) + off))) eqn:E.
    - right. split; [|auto]. destruct W2 as [W2|W2]; lia.
    - destruct W2 as [W2|W2]; [|lia]. rewrite W2 in *.
      left. split; [lia|]. split; [reflexivity|]. apply Hc; lia. }
  destruct (Z.eqb_spec wh 1) as [->|N1].
  { cbn [seekTarget].
    destruct ((wrap64 (zlen (behind c) + off) <? 0) || (zlen (whole c) <? wrap64 (zlen (behind c) + off))) eqn:E.
    - right. split; [|auto]. destruct W1 as [W1|W1]; lia.
    - destruct W1 as [W1|W1]; [|lia]. rewrite W1 in *.
      left. split; [lia|]. split; [reflexivity|]. apply Hc; lia. }
  assert (seekTarget c off wh = None) as ->.
  { unfold seekTarget. destruct wh as [|[q|[q|q|]|]|q]; try reflexivity; lia. }
  assert ((zlen (behind c) <? 0) || (zlen (whole c) <? zlen (behind c)) = false) as -> by lia.
  split; [reflexivity|]. destruct r; cbn in *. congruence.
Qed.

Definition opOk (o : rop) : Prop := match o with OSeek off _ => int64 off | _ => True end.

Lemma utf8size_runeLen r : utf8size r (runeLen r).
Proof.
  destruct (scalar_dec r) as [H|H].
  - left. exists (encodeRune r). split; [now apply encodeRune_utf8|]. now apply runeLen_valid.
  - right. split; [exact H|now apply runeLen_invalid].
Qed.

Lemma rstep_answers r c o : rel r c -> zlen (whole c) < 2^63 -> opOk o ->
  let (r', x) := rstep r o in
  exists c', answers (s_spare (rd_runes r)) c o x c' /\ rel r' c' /\ whole c' = whole c /\ rd_runes r' = rd_runes r.
Proof.
  intros R Hlen Hop. pose proof R as [Ho Hd].
  pose proof (zlen_nonneg (behind c)). pose proof (zlen_nonneg (ahead c)).
  destruct o as [|off wh| |a b|l|l]; cbn [rstep].
  - unfold readRune, rlen. rewrite Hd, Ho. unfold whole at 1 2. rewrite zlen_app.
    destruct (ahead c) as [|x a] eqn:Ea.
    + rewrite zlen_nil. destruct (Z.leb_spec (zlen (behind c) + 0) (zlen (behind c))); [|lia].
      exists c. repeat split; auto. now constructor.
    + rewrite zlen_cons. pose proof (zlen_nonneg a).
      destruct (Z.leb_spec (zlen (behind c) + (1 + zlen a)) (zlen (behind c))); [lia|].
      destruct (Z.ltb_spec (zlen (behind c)) 0); [lia|].
      assert (nth_error (behind c ++ x :: a) (Z.to_nat (zlen (behind c))) = Some x) as ->.
      { rewrite nth_error_app2 by (unfold zlen; lia).
        replace (Z.to_nat (zlen (behind c)) - length (behind c))%nat with 0%nat by (unfold zlen; lia). reflexivity. }
      exists (mkCursor (behind c ++ [x]) a).
      assert (W : whole (mkCursor (behind c ++ [x]) a) = whole c).
      { unfold whole. cbn [behind ahead]. rewrite Ea, <- app_assoc. reflexivity. }
      repeat split.
      * apply an_read; [exact Ea|apply utf8size_runeLen].
      * cbn [rd_offset behind]. rewrite zlen_app, zlen_cons, zlen_nil. lia.
      * cbn [rd_runes]. rewrite W. exact Hd.
      * exact W.
  - pose proof (seek_spec r c off wh R Hlen Hop) as S. destruct (seek r off wh) as [r' p].
    destruct (seekTarget c off wh) as [t|] eqn:Et.
    + destruct S as [[Hr [-> [c' [R' [M E]]]]]|[Hr [-> ->]]].
      * exists c'. repeat split; auto; try apply M; try apply R'. eapply an_seek; eauto.
      * exists c. repeat split; auto. eapply an_seek_err; eauto.
    + destruct S as [-> ->]. exists c. repeat split; auto. now apply an_seek_odd.
  - unfold readerRunes, rlen. destruct (cslice_range (rd_runes r) (rd_offset r) (zlen (s_data (rd_runes r)))) as [C1 C2].
    destruct (cslice _ _ _) as [g|].
    + assert (s_data g = ahead c) as ->.
      { eapply range_fun; [exact (C1 g eq_refl)|]. rewrite Ho, Hd.
        apply (range_intro _ _ _ (behind c) (ahead c) (s_spare (rd_runes r))).
        - unfold whole. now rewrite app_assoc.
        - reflexivity.
        - unfold whole. now rewrite zlen_app. }
      exists c. repeat split; auto. constructor.
    + exfalso. apply (proj1 C2); [reflexivity|]. rewrite Ho, zlen_app, Hd. unfold whole. rewrite zlen_app.
      pose proof (zlen_nonneg (s_spare (rd_runes r))). lia.
  - unfold readerSlice. destruct (cslice_range (rd_runes r) a b) as [C1 C2]. rewrite Hd in C1, C2.
    destruct (cslice (rd_runes r) a b) as [g|]; exists c; repeat split; auto.
    + constructor. now apply C1.
    + apply an_slice_panic. intros y Y. apply (proj1 C2); [reflexivity|]. apply range_exists_iff. eauto.
  - destruct (readerSlices r l) as [gs|] eqn:E; exists c; repeat split; auto.
    + constructor. rewrite <- Hd. apply readerSlices_spec. eauto.
    + apply an_slices_panic. intros out O. rewrite <- Hd in O. apply readerSlices_spec in O as [gs [E2 _]]. congruence.
  - assert (D : {Forall scalar (whole c)} + {~ Forall scalar (whole c)}) by (apply Forall_dec, scalar_dec).
    destruct D as [D|D].
    + rewrite <- Hd in D.
      destruct (sliceFromByteOffsets r l) as [gs|] eqn:E; exists c; repeat split; auto.
      * rewrite Hd in D. constructor; [exact D|]. rewrite <- Hd in D |- *. apply sliceBytes_all; eauto.
      * apply an_bytes_panic; [now rewrite <- Hd|]. intros out O. rewrite <- Hd in O.
        apply sliceBytes_all in O as [gs [E2 _]]; [congruence|exact D].
    + destruct (sliceFromByteOffsets r l); exists c; repeat split; auto; now apply an_bytes_any.
Qed.

Lemma rrun_trace : forall ops r c, rel r c -> zlen (whole c) < 2^63 -> Forall opOk ops ->
  let (r', xs) := rrun r ops in
  exists c', traceOk (s_spare (rd_runes r)) c ops xs c' /\ rel r' c' /\ whole c' = whole c /\ rd_runes r' = rd_runes r.
Proof.
  induction ops as [|o ops IH]; intros r c R Hl Ho; cbn [rrun].
  - exists c. repeat split; auto; try apply R. constructor.
  - inversion Ho as [|? ? Ho1 Ho2]; subst.
    pose proof (rstep_answers r c o R Hl Ho1) as S. destruct (rstep r o) as [r1 x].
    destruct S as [c1 [A [R1 [W1 E1]]]].
    specialize (IH r1 c1 R1 ltac:(rewrite W1; exact Hl) Ho2).
    destruct (rrun r1 ops) as [r2 xs]. destruct IH as [c2 [T [R2 [W2 E2]]]].
    exists c2. repeat split; try apply R2; try congruence. econstructor; [exact A|]. rewrite <- E1. exact T.
Qed.

Lemma rrun_new s ops : zlen (s_data s) < 2^63 -> Forall opOk ops ->
  let (r', xs) := rrun (newReader s) ops in
  rd_runes r' = s /\ 0 <= rd_offset r' <= zlen (s_data s) /\
  exists c', traceOk (s_spare s) (mkCursor [] (s_data s)) ops xs c' /\
    whole c' = s_data s /\ rd_offset r' = zlen (behind c').
Proof.
  intros Hl Ho.
  assert (R : rel (newReader s) (mkCursor [] (s_data s))) by (split; reflexivity).
  pose proof (rrun_trace ops (newReader s) (mkCursor [] (s_data s)) R Hl Ho) as T.
  destruct (rrun (newReader s) ops) as [r' xs]. destruct T as [c' [T [[R1 R2] [W E]]]].
  cbn in *. split; [exact E|]. split.
  - rewrite R1. rewrite <- W. unfold whole. rewrite zlen_app.
    pose proof (zlen_nonneg (behind c')); pose proof (zlen_nonneg (ahead c')). lia.
  - exists c'. auto.
Qed.
