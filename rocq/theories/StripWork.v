(** What stripping costs: ansi.go with a counter of the calls of ReadRune. *)
From Verif Require Import Base Unicode Reader Ansi SpecAnsi AnsiProofs.

(** [vRead] (slice_reader.go:31-40) after [n] calls. *)
Definition vReadN (mem : list rune) (v : vreader) (n : Z) : go (vreader * rune * bool * Z) :=
  let! x := vRead mem v in Ret (x, n + 1).

(** The functions of Ansi.v, line by line, with the number of calls made so far. *)
Fixpoint digitsN (u : unicode) (mem : list rune) (k : nat) (d : dstate) (n : Z) : go (dstate * Z) :=
  match k with
  | O => Ret (d, n)
  | S k' =>
      let! x := vReadN mem (d_v d) n in
      let '(v', r', eof, n1) := x in
      if eof then Ret (mkD v' r' true (d_count d) (d_next d) (d_zero d), n1)
      else if negb (isDigit u r') then Ret (mkD v' r' false (d_count d) (d_next d) (d_zero d), n1)
      else digitsN u mem k' (mkD v' r' false (d_count d + 1) (d_next d + 1) (if r' =? 48 then d_zero d else false)) n1
  end.
Fixpoint sectionsN (u : unicode) (mem : list rune) (fuel : nat) (d : dstate) (n : Z) : go (dstate * Z) :=
  match fuel with
  | O => Panic
  | S fuel' =>
      if isSep (d_r d)
      then
        let! x := digitsN u mem 3 (mkD (d_v d) (d_r d) (d_err d) (d_count d + 1) (d_next d + 1) (d_zero d)) n in
        let (d1, n1) := x in
        sectionsN u mem fuel' (mkD (d_v d1) (d_r d1) (d_err d1) (d_count d1) (d_next d1) (d_zero d)) n1
      else Ret (d, n)
  end.
Definition decodeN (u : unicode) (F : nat) (mem : list rune) (v : vreader) (n : Z) : go (sl * kind * vreader * Z) :=
  let current := match snd (vSeek mem v 0 1) with Some p => p | None => -1 end in
  let v0 := fst (vSeek mem v 0 1) in
  let giveUp v' m := Ret (SNil, KOther, fst (vSeek mem v' current 0), m) in
  let! x1 := vReadN mem v0 n in
  let '(v1, r1, e1, n1) := x1 in
  if e1 then giveUp v1 n1
  else if negb (r1 =? esc) then giveUp v1 n1
  else
    let! x2 := vReadN mem v1 n1 in
    let '(v2, r2, e2, n2) := x2 in
    if e2 then giveUp v2 n2
    else if negb (r2 =? bracket) then giveUp v2 n2
    else
      let nextStart := match snd (vSeek mem v2 0 1) with Some p => p | None => -1 end in
      let v3 := fst (vSeek mem v2 0 1) in
      let! x3 := digitsN u mem 3 (mkD v3 r2 false 2 nextStart true) n2 in
      let (d, n3) := x3 in
      let! x4 := sectionsN u mem F d n3 in
      let (d2, n4) := x4 in
      let k := kindOf (d_r d2) (d_zero d2) in
      let count := if d_err d2 then d_count d2 else d_count d2 + 1 in
      let next := if d_err d2 then d_next d2 else d_next d2 + 1 in
      let! s := vSlice mem (d_v d2) current (current + count) in
      let v4 := if 0 <? next then fst (vSeek mem (d_v d2) next 0) else d_v d2 in
      Ret (s, k, v4, n4).
Fixpoint textN (mem : list rune) (fuel : nat) (v : vreader) (count n : Z) : go (vreader * Z * Z) :=
  match fuel with
  | O => Panic
  | S fuel' =>
      let! x := vReadN mem v n in
      let '(v1, r, e, n1) := x in
      if e then Ret (v1, count, n1)
      else if r =? esc
      then
        let! y := vReadN mem v1 n1 in
        let '(v2, r2, e2, n2) := y in
        if e2 then Ret (v2, count + 1, n2)
        else if r2 =? bracket then Ret (fst (vSeek mem v2 (-2) 1), count, n2)
        else textN mem fuel' v2 (count + 1 + 1) n2
      else textN mem fuel' v1 (count + 1) n1
  end.
Definition decodeTextN (F : nat) (mem : list rune) (v : vreader) (n : Z) : go (sl * vreader * Z) :=
  let current := match snd (vSeek mem v 0 1) with Some p => p | None => -1 end in
  let v0 := fst (vSeek mem v 0 1) in
  let! x := textN mem F v0 0 n in
  let '(v1, count, n1) := x in
  let! s := vSlice mem v1 current (current + count) in
  Ret (s, v1, n1).
Fixpoint startN (u : unicode) (F : nat) (mem : list rune) (fuel : nat) (v : vreader) (g0 : sl) (n : Z)
  : go ((stripped + (vreader * sl)) * Z) :=
  match fuel with
  | O => Panic
  | S fuel' =>
      let! x := decodeN u F mem v n in
      let '(s, k, v1, n1) := x in
      match s with
      | SNil => Ret (inr (v1, g0), n1)
      | _ =>
        match k with
        | KOther => let! rem := vRunes mem v1 in Ret (inl (mkStripped s g0 SNil rem), n1)
        | KStart =>
            if slen g0 =? 0 then startN u F mem fuel' v1 s n1
            else let v2 := if 0 <? slen s then rewind mem v1 s else v1 in
                 let! rem := vRunes mem v2 in Ret (inl (mkStripped SNil g0 SNil rem), n1)
        | KStop => let! rem := vRunes mem v1 in Ret (inl (mkStripped SNil g0 s rem), n1)
        end
      end
  end.
Fixpoint stopN (u : unicode) (F : nat) (mem : list rune) (fuel : nat) (v : vreader) (g0 g1 g2 : sl) (n : Z)
  : go (list rune * stripped * Z) :=
  match fuel with
  | O => Panic
  | S fuel' =>
      let! x := decodeN u F mem v n in
      let '(s, k, v1, n1) := x in
      let finish v2 := let! rem := vRunes mem v2 in Ret (mem, mkStripped g1 g0 g2 rem, n1) in
      match s with
      | SNil => finish v1
      | _ =>
        match k with
        | KOther =>
            if slen g2 =? 0
            then match g1 with
                 | SNil => stopN u F mem fuel' v1 g0 s g2 n1
                 | _ => let (mem', g1') := appendSl mem g1 s in stopN u F mem' fuel' v1 g0 g1' g2 n1
                 end
            else finish (rewind mem v1 s)
        | KStop =>
            if slen g2 =? 0 then stopN u F mem fuel' v1 g0 g1 s n1
            else finish (if 0 <? slen s then rewind mem v1 s else v1)
        | KStart => finish (rewind mem v1 s)
        end
      end
  end.
Definition stripRunesN (u : unicode) (F : nat) (mem : list rune) (base len n : Z) : go (list rune * stripped * Z) :=
  let v := mkV base len 0 in
  let! x := startN u F mem F v SNil n in
  let (a, n1) := x in
  match a with
  | inl st => Ret (mem, st, n1)
  | inr (v1, g0) =>
      let! t := decodeTextN F mem v1 n1 in
      let '(s, v2, n2) := t in
      stopN u F mem F v2 g0 s SNil n2
  end.
Fixpoint stripTokenN_loop (u : unicode) (F : nat) (mem : list rune) (fuel : nat) (base len : Z) (acc : list stripped) (n : Z)
  : go (list rune * list stripped * Z) :=
  match fuel with
  | O => Panic
  | S fuel' =>
      let! x := stripRunesN u F mem base len n in
      let '(mem', st, n1) := x in
      if slen (s_rem st) =? 0 then Ret (mem', acc ++ [st], n1)
      else match s_rem st with
           | SView o k => stripTokenN_loop u F mem' fuel' o k (acc ++ [st]) n1
           | _ => Panic
           end
  end.
(** StripToken with the number of runes it reads. *)
Definition stripTokenN (u : unicode) (mem : list rune) (len : Z) : go (list rune * list stripped * Z) :=
  stripTokenN_loop u (S (length mem)) mem (S (length mem)) 0 len [] 0.

(** ** The same function *)
Definition counted {A} (x : go (A * Z)) (y : go A) (P : A -> Z -> Prop) : Prop :=
  match x, y with
  | Ret (a, m), Ret b => a = b /\ P a m
  | Panic, Panic => True
  | _, _ => False
  end.
Lemma counted_ret {A} (a : A) m (P : A -> Z -> Prop) : P a m -> counted (Ret (a, m)) (Ret a) P.
Proof. intros H. now split. Qed.
Lemma counted_bind {A B} (x : go (A * Z)) (y : go A) (f : A * Z -> go (B * Z)) (g : A -> go B) (P : A -> Z -> Prop) (Q : B -> Z -> Prop) :
  counted x y P -> (forall a m, P a m -> y = Ret a -> counted (f (a, m)) (g a) Q) -> counted (gbind x f) (gbind y g) Q.
Proof.
  intros H K. destruct x as [[a m]|], y as [b|]; cbn [counted gbind] in *; try contradiction; auto.
  destruct H as [-> H]. now apply K.
Qed.
Lemma counted_go {A B} (y : go A) (f : A -> go (B * Z)) (g : A -> go B) (Q : B -> Z -> Prop) :
  (forall a, y = Ret a -> counted (f a) (g a) Q) -> counted (gbind y f) (gbind y g) Q.
Proof. intros K. destruct y as [b|]; cbn [gbind]; [now apply K|exact I]. Qed.
Lemma counted_imp {A} (x : go (A * Z)) y (P Q : A -> Z -> Prop) : counted x y P -> (forall a m, P a m -> y = Ret a -> Q a m) -> counted x y Q.
Proof. destruct x as [[a m]|], y as [b|]; cbn [counted]; auto. intros [-> H] K. split; auto. Qed.
Lemma counted_read mem v n : counted (vReadN mem v n) (vRead mem v) (fun _ m => m = n + 1).
Proof. unfold vReadN. destruct (vRead mem v) as [x|]; cbn [gbind counted]; auto. Qed.

Lemma digitsN_ok u mem k : forall d n,
  counted (digitsN u mem k d n) (digits u mem k d) (fun d' m => m <= n + (d_count d' - d_count d) + 1).
Proof.
  induction k as [|k IH]; intros d n; cbn [digitsN digits].
  - apply counted_ret. lia.
  - eapply counted_bind; [apply counted_read|]. intros [[v' r'] eof] m -> _. cbv beta iota.
    destruct eof; [apply counted_ret; cbn [d_count]; lia|].
    destruct (negb _); [apply counted_ret; cbn [d_count]; lia|].
    eapply counted_imp; [apply IH|]. cbn [d_count]. intros a m H _. cbv beta in H. lia.
Qed.
Lemma sectionsN_ok u mem fuel : forall d n,
  counted (sectionsN u mem fuel d n) (sections u mem fuel d) (fun d' m => m - n <= d_count d' - d_count d).
Proof.
  induction fuel as [|f IH]; intros d n; cbn [sectionsN sections]; [exact I|].
  destruct (isSep (d_r d)); [|apply counted_ret; lia].
  eapply counted_bind; [apply digitsN_ok|]. cbn [d_count]. intros d1 m H _. cbv beta iota.
  eapply counted_imp; [apply IH|]. cbn [d_count]. intros a m' H' _. lia.
Qed.
Definition over (s : sl) : Z := match s with SNil => 2 | _ => 1 end.
Lemma decodeN_ok u F mem v n :
  counted (decodeN u F mem v n) (decodeANSI u F mem v) (fun x m => m <= n + slen (fst (fst x)) + over (fst (fst x))).
Proof.
  unfold decodeN, decodeANSI.
  eapply counted_bind; [apply counted_read|]. intros [[v1 r1] e1] m -> _. cbv beta iota.
  destruct e1; [apply counted_ret; cbn [fst slen over]; lia|].
  destruct (negb _); [apply counted_ret; cbn [fst slen over]; lia|].
  eapply counted_bind; [apply counted_read|]. intros [[v2 r2] e2] m -> _. cbv beta iota.
  destruct e2; [apply counted_ret; cbn [fst slen over]; lia|].
  destruct (negb _); [apply counted_ret; cbn [fst slen over]; lia|].
  eapply counted_bind; [apply digitsN_ok|]. cbn [d_count]. intros d m H _. cbv beta iota.
  eapply counted_bind; [apply sectionsN_ok|]. intros d2 m2 H2 _. cbv beta iota.
  apply counted_go. intros s Hs. apply counted_ret. cbn [fst].
  unfold vSlice in Hs. destruct (readerSlice _ _ _) as [g|]; [|discriminate]. cbn [gbind] in Hs.
  injection Hs as <-. cbn [slen over]. cbv beta in H2. destruct (d_err d2); lia.
Qed.
Lemma textN_ok mem fuel : forall v count n,
  counted (textN mem fuel v count n) (text_loop mem fuel v count) (fun x m => m <= n + (snd x - count) + 2).
Proof.
  induction fuel as [|f IH]; intros v count n; cbn [textN text_loop]; [exact I|].
  eapply counted_bind; [apply counted_read|]. intros [[v1 r] e] m -> _. cbv beta iota.
  destruct e; [apply counted_ret; cbn [snd]; lia|].
  destruct (r =? esc).
  - eapply counted_bind; [apply counted_read|]. intros [[v2 r2] e2] m -> _. cbv beta iota.
    destruct e2; [apply counted_ret; cbn [snd]; lia|].
    destruct (r2 =? bracket); [apply counted_ret; cbn [snd]; lia|].
    eapply counted_imp; [apply IH|]. intros a m H _. cbv beta in H. lia.
  - eapply counted_imp; [apply IH|]. intros a m H _. cbv beta in H. lia.
Qed.
Lemma decodeTextN_ok F mem v n :
  counted (decodeTextN F mem v n) (decodeText F mem v) (fun x m => m <= n + slen (fst x) + 2).
Proof.
  unfold decodeTextN, decodeText. eapply counted_bind; [apply textN_ok|]. intros [v1 count] m H _. cbv beta iota. cbn [snd] in H.
  apply counted_go. intros s Hs. apply counted_ret. cbn [fst].
  unfold vSlice in Hs. destruct (readerSlice _ _ _) as [g|]; [|discriminate]. cbn [gbind] in Hs.
  injection Hs as <-. cbn [slen]. lia.
Qed.

(** ** How far a call goes *)
Section Call.
Variables (u : unicode) (pre tok spare : list rune).
Notation mem := (pre ++ tok ++ spare).
Notation V o := (mkV (zlen pre) (zlen tok) o).
Hypothesis Hmem : zlen mem < 2 ^ 63.

(** Runes at the beginning of [rest] that the next call takes whatever follows: a sequence, or a sequence cut short
    after a rune of text. *)
Inductive taken (rest : list rune) : Z -> Prop :=
| tk_none : taken rest 0
| tk_seq seq l k : rest = seq ++ l -> csi u l seq k -> taken rest (zlen seq)
| tk_all x ps first : rest = x :: ESC :: 91 :: ps -> x <> ESC -> params u ps first true -> taken rest (zlen rest).

(** After [d]: nothing rewound but what the next call takes. *)
Definition left (b : Z) (d : list rune) (n : Z) (st : stripped) (m c : Z) : Prop :=
  exists d' y p, tok = d' ++ y /\ b <= zlen d' /\ s_rem st = SView (zlen pre + zlen d') (zlen y) /\ taken y p /\
    m <= n + 2 * (zlen d' - zlen d) + p + c.

(** The last rune of [d] is not an escape. *)
Definition ended (b : Z) (d : list rune) : Prop := exists d' x, d = d' ++ [x] /\ x <> ESC /\ b <= zlen d'.
Lemma stop_ended b l seq d : csi u l seq Stop -> b <= zlen d -> ended b (d ++ seq).
Proof.
  intros H Hb. inversion H as [rest ps first f k Hp Hd Hs Hf E1 E2 E3| |]; subst. exists (d ++ ESC :: 91 :: ps), f.
  split; [now rewrite <- app_assoc|]. split; [inversion Hf; unfold ESC; lia|]. rewrite zlen_app.
  pose proof (zlen_nonneg (ESC :: 91 :: ps)). lia.
Qed.

Lemma params_no_esc ps first b : params u ps first b -> ~ In ESC ps.
Proof.
  assert (D : forall p, Forall (digit u) p -> ~ In ESC p).
  { intros p H Hi. rewrite Forall_forall in H. specialize (H _ Hi). discriminate H. }
  induction 1 as [p H|p H|p s l first full H1 H2 H3 H4 IH]; try (now apply D).
  intros Hi. apply in_app_or in Hi as [Hi|[Hi|Hi]]; [now apply (D p)| |now apply IH]. subst s. now destruct H3.
Qed.

Lemma runes_at d y : tok = d ++ y -> vRunes mem (V (zlen d)) = Ret (SView (zlen pre + zlen d) (zlen y)).
Proof.
  intros E. assert (zlen tok = zlen d + zlen y) by (now rewrite E, zlen_app).
  pose proof (zlen_nonneg d); pose proof (zlen_nonneg y). rewrite vRunes_V by lia. do 2 f_equal. lia.
Qed.
Lemma rewind_at d s : forall l, tok = d ++ s ++ l -> rewind mem (V (zlen d + zlen s)) (SView (zlen pre + zlen d) (zlen s)) = V (zlen d).
Proof using Hmem.
  intros l E. assert (zlen tok = zlen d + zlen s + zlen l) by (rewrite E, !zlen_app; lia).
  pose proof (zlen_nonneg d); pose proof (zlen_nonneg s); pose proof (zlen_nonneg l).
  rewrite (rewind_V pre tok spare Hmem _ _ (zlen s)); try reflexivity; try lia. f_equal. lia.
Qed.

Lemma stop_end F (HF : (length tok < F)%nat) fuel g0 g1 g2 n :
  counted (stopN u F mem fuel (V (zlen tok)) g0 g1 g2 n) (stop_loop u F mem fuel (V (zlen tok)) g0 g1 g2)
    (fun x m => fst x = mem /\ left (zlen tok) tok n (snd x) m 2).
Proof using Hmem.
  assert (Ht : tok = tok ++ []) by (now rewrite app_nil_r).
  destruct fuel as [|fuel]; [exact I|]. cbn [stopN stop_loop].
  eapply counted_bind; [apply decodeN_ok|]. intros [[s k] v1] m2 Hm2 Hdec. cbn [fst] in Hm2. cbv beta iota.
  destruct (decode_spec u pre tok spare Hmem tok [] Ht) as [Hno D2|seq l k' Hr Hc D2|ps' first' x' sp' Hr ? ? D2|ps' first' Hr ? ? D2];
    try discriminate Hr.
  - rewrite (D2 F HF) in Hdec. injection Hdec as <- <- <-. cbn [slen over] in Hm2.
    rewrite (runes_at tok [] Ht). cbn [gbind]. apply counted_ret. split; [reflexivity|].
    exists tok, [], 0. split; [exact Ht|]. split; [lia|]. split; [reflexivity|]. split; [constructor|]. lia.
  - pose proof (csi_len u _ _ _ Hc) as Hcl. symmetry in Hr. apply app_eq_nil in Hr as [-> _]. rewrite zlen_nil in Hcl. lia.
Qed.

Lemma stopN_ok F (HF : (length tok < F)%nat) b fuel : forall d rest g0 g1 g2 n, tok = d ++ rest -> b <= zlen d ->
  (exists o k, g1 = SView o k /\ 0 <= o /\ 0 <= k /\ o + k + slen g2 = zlen pre + zlen d) -> (g2 = SNil \/ 0 < slen g2 /\ ended b d) ->
  counted (stopN u F mem fuel (V (zlen d)) g0 g1 g2 n) (stop_loop u F mem fuel (V (zlen d)) g0 g1 g2)
    (fun x m => fst x = mem /\ left b d n (snd x) m 3).
Proof using Hmem.
  induction fuel as [|fuel IH]; intros d rest g0 g1 g2 n Htok Hb Hg1 Hg2; cbn [stopN stop_loop]; [exact I|].
  pose proof (zlen_nonneg pre) as Z0; pose proof (zlen_nonneg d) as Z1; pose proof (zlen_nonneg rest) as Z2;
    pose proof (zlen_nonneg spare) as Z3.
  assert (Hlen : zlen tok = zlen d + zlen rest) by (now rewrite Htok, zlen_app).
  eapply counted_bind; [apply decodeN_ok|]. intros [[s k] v1] m Hm Hdec. cbn [fst] in Hm. cbv beta iota.
  destruct (decode_spec u pre tok spare Hmem d rest Htok) as [Hno D|seq l k' Hr Hc D|ps first x sp Hr Hp Hsp D|ps first Hr Hp Hsp D];
    rewrite (D F HF) in Hdec; try discriminate; injection Hdec as <- <- <-; cbn [slen over] in Hm.
  - rewrite (runes_at d rest Htok). cbn [gbind]. apply counted_ret. split; [reflexivity|].
    exists d, rest, 0. split; [exact Htok|]. split; [lia|]. split; [reflexivity|]. split; [constructor|]. lia.
  - pose proof (csi_len u _ _ _ Hc) as Hcl. pose proof (zlen_nonneg l) as Z4. subst rest. rewrite zlen_app in Hlen, Z2.
    assert (Hback : counted (let! rem := vRunes mem (rewind mem (V (zlen d + zlen seq)) (SView (zlen pre + zlen d) (zlen seq))) in
                        Ret (mem, mkStripped g1 g0 g2 rem, m))
                      (let! rem := vRunes mem (rewind mem (V (zlen d + zlen seq)) (SView (zlen pre + zlen d) (zlen seq))) in
                        Ret (mem, mkStripped g1 g0 g2 rem)) (fun x m => fst x = mem /\ left b d n (snd x) m 3)).
    { rewrite (rewind_at d seq l Htok), (runes_at _ _ Htok). cbn [gbind]. apply counted_ret. split; [reflexivity|].
      exists d, (seq ++ l), (zlen seq). split; [exact Htok|]. split; [lia|]. split; [reflexivity|].
      split; [eapply tk_seq; [reflexivity|exact Hc]|]. lia. }
    assert (Hd : zlen (d ++ seq) = zlen d + zlen seq) by apply zlen_app.
    destruct k'; cbn [asKind].
    + exact Hback.
    + cbn [slen]. destruct (Z.eqb_spec (slen g2) 0) as [E|E].
      * rewrite <- Hd. eapply counted_imp; [apply (IH (d ++ seq) l)|].
        -- now rewrite <- app_assoc.
        -- rewrite Hd. lia.
        -- destruct Hg1 as (o & q & -> & Ho & Hq & Hs). exists o, q. rewrite Hd. cbn [slen].
           split; [reflexivity|]. split; [lia|]. split; lia.
        -- right. cbn [slen]. split; [lia|]. eapply stop_ended; eassumption.
        -- intros [m' st] mm [E1 (d' & y & p & E2 & E3 & E4 & E5 & E6)] _. split; [exact E1|]. rewrite Hd in *.
           exists d', y, p. split; [exact E2|]. split; [lia|]. split; [exact E4|]. split; [exact E5|lia].
      * destruct (Z.ltb_spec 0 (zlen seq)); [exact Hback|lia].
    + cbn [slen]. destruct (Z.eqb_spec (slen g2) 0) as [E|E]; [|exact Hback].
      destruct Hg1 as (o & q & -> & Ho & Hq & Hs).
      assert (E' : zlen pre + zlen d = o + q) by lia. rewrite E'.
      assert (Hcapm : o + q + zlen seq <= zlen mem) by (rewrite !zlen_app; lia).
      rewrite append_same by lia. rewrite <- Hd.
      eapply counted_imp; [apply (IH (d ++ seq) l)|].
      -- now rewrite <- app_assoc.
      -- rewrite Hd. lia.
      -- exists o, (q + zlen seq). rewrite Hd. split; [reflexivity|]. split; [lia|]. split; lia.
      -- destruct Hg2 as [->|[? _]]; [now left|lia].
      -- intros [m' st] mm [E1 (d' & y & p & E2 & E3 & E4 & E5 & E6)] _. split; [exact E1|]. rewrite Hd in *.
         exists d', y, p. split; [exact E2|]. split; [lia|]. split; [exact E4|]. split; [exact E5|lia].
  - subst rest. set (rest := ESC :: 91 :: ps) in *.
    assert (Hr2 : 2 <= zlen rest) by (unfold rest, zlen; cbn [length]; lia).
    cbn [slen]. destruct (Z.eqb_spec (slen g2) 0) as [E|E].
    + destruct Hg1 as (o & q & -> & Ho & Hq & Hs).
      assert (E' : zlen pre + zlen d = o + q) by lia. rewrite E'.
      assert (Hcapm : o + q + (zlen rest + 1) <= zlen mem).
      { rewrite !zlen_app, Hsp, zlen_cons. pose proof (zlen_nonneg sp). lia. }
      rewrite append_same by lia.
      eapply counted_imp; [apply (stop_end F HF fuel)|]. intros [m' st] mm [E1 E2] _. split; [exact E1|].
      cbn [snd] in *. destruct E2 as (d' & y & p & E2 & E3 & E4 & E5 & E6). exists d', y, p.
      assert (zlen d' <= zlen tok) by (rewrite E2, zlen_app; pose proof (zlen_nonneg y); lia).
      split; [exact E2|]. split; [lia|]. split; [exact E4|]. split; [exact E5|]. lia.
    + destruct Hg2 as [->|[_ He]]; [now cbn in E|].
      destruct He as (d' & y & Ed & Hy & Hb').
      assert (Ht : tok = d' ++ y :: rest) by (rewrite Htok, Ed, <- app_assoc; reflexivity).
      assert (Hd' : zlen d = zlen d' + 1) by (rewrite Ed, zlen_app; reflexivity). pose proof (zlen_nonneg d').
      rewrite (rewind_V pre tok spare Hmem _ _ (zlen rest + 1)); try reflexivity; try lia.
      replace (zlen tok - (zlen rest + 1)) with (zlen d') by lia.
      rewrite (runes_at _ _ Ht). cbn [gbind]. apply counted_ret. split; [reflexivity|].
      exists d', (y :: rest), (zlen (y :: rest)). split; [exact Ht|].
      split; [exact Hb'|]. split; [reflexivity|]. split; [eapply tk_all; [reflexivity|exact Hy|exact Hp]|].
      rewrite zlen_cons. lia.
Qed.

Lemma stop_over F (HF : (length tok < F)%nat) fuel d ps first g0 o q n : tok = d ++ ESC :: 91 :: ps -> params u ps first true ->
  0 <= o -> 0 <= q -> o + q = zlen pre + zlen d ->
  counted (stopN u F mem fuel (V (zlen d)) g0 (SView o q) SNil n) (stop_loop u F mem fuel (V (zlen d)) g0 (SView o q) SNil)
    (fun x m => fst x = mem /\ left (zlen tok) d n (snd x) m 3).
Proof using Hmem.
  intros Htok Hps Ho Hq Hs. destruct fuel as [|fuel]; cbn [stopN stop_loop]; [exact I|].
  pose proof (zlen_nonneg pre) as Z0; pose proof (zlen_nonneg d) as Z1; pose proof (zlen_nonneg ps) as Z2.
  assert (Hlen : zlen tok = zlen d + 2 + zlen ps) by (apply (f_equal (@length rune)) in Htok; rewrite app_length in Htok; cbn [length] in Htok; unfold zlen, rune in *; lia).
  assert (HR : zlen (ESC :: 91 :: ps) = 2 + zlen ps) by (unfold zlen, rune; cbn [length]; lia).
  remember (ESC :: 91 :: ps) as rest eqn:Hrest.
  eapply counted_bind; [apply decodeN_ok|]. intros [[s k] v1] m Hm Hdec. cbn [fst] in Hm. cbv beta iota.
  destruct (decode_spec u pre tok spare Hmem d _ Htok) as [Hno D|seq l k' Hr Hc D|ps' first' x sp Hr Hp Hsp D|ps' first' Hr Hp Hsp D];
    rewrite (D F HF) in Hdec; try discriminate; injection Hdec as <- <- <-; cbn [slen over] in Hm.
  - now elim (Hno ps).
  - exfalso. eapply csi_not_over; [exact Hc|rewrite <- Hr; exact Hrest|exact Hps].
  - cbn [slen Z.eqb].
    assert (Hcapm : o + q + (zlen rest + 1) <= zlen mem).
    { rewrite !zlen_app, Hsp, zlen_cons. pose proof (zlen_nonneg sp). lia. }
    rewrite <- Hs. rewrite append_same by lia.
    eapply counted_imp; [apply (stop_end F HF fuel)|]. intros [m' st] mm [E1 E2] _. split; [exact E1|].
    cbn [snd] in *. destruct E2 as (d' & y & p & E2 & E3 & E4 & E5 & E6). exists d', y, p.
    assert (zlen d' <= zlen tok) by (rewrite E2, zlen_app; pose proof (zlen_nonneg y); lia).
    split; [exact E2|]. split; [lia|]. split; [exact E4|]. split; [exact E5|]. lia.
Qed.

Definition started (d rest : list rune) (n c : Z) (x : stripped + (vreader * sl)) (m : Z) : Prop :=
  match x with
  | inl st => left (zlen d) d n st m c
  | inr (v, g) => v = V (zlen d) /\ m <= n + c /\ forall r, rest <> ESC :: 91 :: r
  end.
(** Once a start sequence is there. *)
Lemma start_second F (HF : (length tok < F)%nat) fuel d rest g0 n : tok = d ++ rest -> slen g0 <> 0 ->
  counted (startN u F mem fuel (V (zlen d)) g0 n) (start_loop u F mem fuel (V (zlen d)) g0) (started d rest n 2).
Proof using Hmem.
  intros Htok Hg. destruct fuel as [|fuel]; cbn [startN start_loop]; [exact I|].
  eapply counted_bind; [apply decodeN_ok|]. intros [[s k] v1] m Hm Hdec. cbn [fst] in Hm. cbv beta iota.
  assert (Hlen : zlen tok = zlen d + zlen rest) by (now rewrite Htok, zlen_app).
  destruct (decode_spec u pre tok spare Hmem d rest Htok) as [Hno D|seq l k' Hr Hc D|ps first x sp Hr Hp Hsp D|ps first Hr Hp Hsp D];
    rewrite (D F HF) in Hdec; try discriminate; injection Hdec as <- <- <-; cbn [slen over] in Hm.
  - apply counted_ret. split; [reflexivity|]. split; [lia|exact Hno].
  - pose proof (csi_len u _ _ _ Hc) as Hcl. subst rest. rewrite zlen_app in Hlen.
    assert (Ht : tok = (d ++ seq) ++ l) by (now rewrite <- app_assoc).
    assert (Hd : zlen (d ++ seq) = zlen d + zlen seq) by apply zlen_app.
    assert (Hon : forall tx sp, counted (let! rem := vRunes mem (V (zlen d + zlen seq)) in Ret (inl (mkStripped tx g0 sp rem), m))
                (let! rem := vRunes mem (V (zlen d + zlen seq)) in Ret (inl (mkStripped tx g0 sp rem))) (started d (seq ++ l) n 2)).
    { intros tx sp. rewrite <- Hd, (runes_at _ _ Ht). cbn [gbind]. apply counted_ret. cbn [started].
      exists (d ++ seq), l, 0. split; [exact Ht|]. split; [lia|]. split; [reflexivity|]. split; [constructor|]. lia. }
    destruct k'; cbn [asKind slen].
    + destruct (Z.eqb_spec (slen g0) 0); [contradiction|]. destruct (Z.ltb_spec 0 (zlen seq)); [|lia].
      rewrite (rewind_at d seq l Htok), (runes_at _ _ Htok). cbn [gbind]. apply counted_ret. cbn [started].
      exists d, (seq ++ l), (zlen seq). split; [exact Htok|]. split; [lia|]. split; [reflexivity|].
      split; [eapply tk_seq; [reflexivity|exact Hc]|]. lia.
    + apply Hon.
    + apply Hon.
  - assert (Ht : tok = tok ++ []) by (now rewrite app_nil_r). rewrite (runes_at _ _ Ht). cbn [gbind]. apply counted_ret.
    cbn [started]. exists tok, [], 0. split; [exact Ht|]. pose proof (zlen_nonneg rest).
    split; [lia|]. split; [reflexivity|]. split; [constructor|]. subst rest. rewrite !zlen_cons in *. pose proof (zlen_nonneg ps). lia.
Qed.

(** A call: what it reads, and how far it goes. *)
Definition called (t n : Z) (x : list rune * stripped) (m : Z) : Prop :=
  fst x = mem /\ exists d y p, tok = d ++ y /\ s_rem (snd x) = SView (zlen pre + zlen d) (zlen y) /\ taken y p /\ t <= zlen d /\
    (tok = [] \/ 0 < zlen d) /\ m <= n + 2 * zlen d + p + 7.

Lemma text_stop F (HF : (length tok < F)%nat) t d rest g0 n n0 : tok = d ++ rest -> (forall r, rest <> ESC :: 91 :: r) ->
  (t <= zlen d \/ d = [] /\ taken tok t) -> n <= n0 + 2 * zlen d + 2 ->
  counted (let! x := decodeTextN F mem (V (zlen d)) n in let '(s, v2, n2) := x in stopN u F mem F v2 g0 s SNil n2)
    (let! x := decodeText F mem (V (zlen d)) in let (s, v2) := x in stop_loop u F mem F v2 g0 s SNil) (called t n0).
Proof using Hmem.
  intros Htok Hno Ht Hn. pose proof (zlen_nonneg pre); pose proof (zlen_nonneg d).
  eapply counted_bind; [apply decodeTextN_ok|]. intros [s v2] m Hm Hdec. cbn [fst] in Hm. cbv beta iota.
  destruct (decodeText_spec u pre tok spare Hmem d rest Htok) as (x & rest' & its & E & Hlt & Hc & Hend & D).
  rewrite (D F HF) in Hdec. injection Hdec as <- <-. cbn [slen] in Hm. pose proof (zlen_nonneg x).
  assert (Ht2 : tok = (d ++ x) ++ rest') by (now rewrite Htok, E, <- app_assoc).
  assert (Hd : zlen (d ++ x) = zlen d + zlen x) by apply zlen_app. rewrite <- Hd.
  assert (Hpos : tok = [] \/ 0 < zlen (d ++ x)).
  { rewrite Hd. destruct d as [|r d]; [|rewrite zlen_cons; pose proof (zlen_nonneg d); lia].
    destruct x as [|r x]; [|rewrite !zlen_cons; pose proof (zlen_nonneg x); lia].
    cbn [app] in *. destruct Hend as [->|[z ->]]; [left; congruence|]. now elim (Hno z). }
  assert (Hcase : t <= zlen (d ++ x) \/ exists r ps first, d ++ x = [r] /\ rest' = ESC :: 91 :: ps /\ params u ps first true /\ t = zlen tok).
  { destruct Ht as [Ht|[-> Ht]]; [left; lia|]. destruct Ht as [|seq l k Hr Hcs|r ps first Hr Hx Hp].
    - left. lia.
    - exfalso. destruct (csi_head _ _ _ _ Hcs) as (z & ->). cbn [app] in *. eapply Hno. rewrite <- Htok. exact Hr.
    - cbn [app] in *. subst rest. destruct x as [|r' x].
      + cbn [app] in E. destruct Hend as [->|[z ->]]; [rewrite E in Hr; discriminate|now elim (Hno z)].
      + rewrite Hr in E. cbn [app] in E. injection E as <- E. destruct x as [|e x].
        * right. exists r, ps, first. split; [reflexivity|]. split; [now symmetry|]. now split.
        * left. destruct Hend as [->|[z ->]].
          -- rewrite app_nil_r in E. rewrite Hr, E. unfold zlen. cbn [app length]. lia.
          -- injection E as <- E. exfalso. apply (params_no_esc _ _ _ Hp). destruct x as [|b x]; cbn [app] in E; [discriminate|].
             injection E as <- ->. apply in_or_app. right. now left. }
  destruct Hcase as [Hcase|(r & ps & first & Ed & Er & Hp & Et)].
  - eapply counted_imp; [apply (stopN_ok F HF (Z.max t (zlen (d ++ x))) F (d ++ x) rest')|].
    + exact Ht2.
    + lia.
    + exists (zlen pre + zlen d), (zlen x). cbn [slen]. split; [reflexivity|]. split; [lia|]. split; [lia|]. lia.
    + now left.
    + intros [m' st] mm [E1 (d' & y & p & E2 & E3 & E4 & E5 & E6)] _. split; [exact E1|]. cbn [snd] in *.
      exists d', y, p. split; [exact E2|]. split; [exact E4|]. split; [exact E5|]. split; [lia|]. split; [|lia].
      destruct Hpos; [now left|right; lia].
  - eapply counted_imp; [apply (stop_over F HF F (d ++ x) ps first)|].
    + now rewrite <- Er.
    + exact Hp.
    + lia.
    + lia.
    + lia.
    + intros [m' st] mm [E1 (d' & y & p & E2 & E3 & E4 & E5 & E6)] _. split; [exact E1|]. cbn [snd] in *.
      exists d', y, p. split; [exact E2|]. split; [exact E4|]. split; [exact E5|]. split; [lia|]. split; [|lia].
      destruct Hpos as [?|?]; [now left|right]. assert (zlen (d ++ x) <= zlen tok) by (rewrite Ht2, (zlen_app (d ++ x)); pose proof (zlen_nonneg rest'); lia). lia.
Qed.

Definition begun (t n : Z) (x : stripped + (vreader * sl)) (m : Z) : Prop :=
  match x with
  | inl st => called t n (mem, st) m
  | inr (v, g) => exists d rest, v = V (zlen d) /\ tok = d ++ rest /\ (forall r, rest <> ESC :: 91 :: r) /\
      (t <= zlen d \/ d = [] /\ taken tok t) /\ m <= n + 2 * zlen d + 2
  end.
Lemma start_first F (HF : (length tok < F)%nat) fuel t n : taken tok t ->
  counted (startN u F mem fuel (V 0) SNil n) (start_loop u F mem fuel (V 0) SNil) (begun t n).
Proof using Hmem.
  intros Ht. destruct fuel as [|fuel]; cbn [startN start_loop]; [exact I|].
  eapply counted_bind; [apply decodeN_ok|]. intros [[s k] v1] m Hm Hdec. cbn [fst] in Hm. cbv beta iota.
  destruct (decode_spec u pre tok spare Hmem [] tok eq_refl) as [Hno D|seq l k' Hr Hc D|ps first x sp Hr Hp Hsp D|ps first Hr Hp Hsp D];
    change (zlen (@nil rune)) with 0 in D; rewrite ?Z.add_0_l, ?Z.add_0_r in D; rewrite (D F HF) in Hdec; try discriminate; injection Hdec as <- <- <-; cbn [slen over] in Hm.
  - apply counted_ret. exists [], tok. split; [reflexivity|]. split; [reflexivity|]. split; [exact Hno|].
    split; [right; now split|]. change (zlen (@nil rune)) with 0; lia.
  - pose proof (csi_len u _ _ _ Hc) as Hcl.
    assert (Hts : t <= zlen seq).
    { destruct Ht as [|s2 l2 k2 Hr2 Hc2|x ps first Hr2 Hx Hp].
      - lia.
      - rewrite Hr in Hr2. destruct (csi_fun u l l2 seq s2 k' k2 Hc Hc2 Hr2) as (-> & _). lia.
      - exfalso. destruct (csi_head _ _ _ _ Hc) as (z & ->). rewrite Hr in Hr2. injection Hr2 as Hr2 _. now apply Hx. }
    assert (Hon : forall tx sp, counted (let! rem := vRunes mem (V (zlen seq)) in Ret (inl (mkStripped tx SNil sp rem), m))
                (let! rem := vRunes mem (V (zlen seq)) in Ret (inl (mkStripped tx SNil sp rem))) (begun t n)).
    { intros tx sp. rewrite (runes_at _ _ Hr). cbn [gbind]. apply counted_ret. cbn [begun]. split; [reflexivity|].
      exists seq, l, 0. split; [exact Hr|]. split; [reflexivity|]. split; [constructor|]. split; [exact Hts|]. split; [right; lia|]. lia. }
    destruct k'; cbn [asKind slen Z.eqb].
    + eapply counted_imp; [apply (start_second F HF fuel seq l)|].
      * exact Hr.
      * cbn [slen]. lia.
      * intros [st|[v g]] mm H _; cbn [started begun] in *.
        -- destruct H as (d' & y & p & E2 & E3 & E4 & E5 & E6). split; [reflexivity|]. exists d', y, p. cbn [snd].
           split; [exact E2|]. split; [exact E4|]. split; [exact E5|]. split; [lia|]. split; [right; lia|]. lia.
        -- destruct H as (-> & H & Hno). exists seq, l. split; [reflexivity|]. split; [exact Hr|]. split; [exact Hno|].
           split; [now left|]. lia.
    + apply Hon.
    + apply Hon.
  - assert (Htn : tok = tok ++ []) by (now rewrite app_nil_r). rewrite (runes_at _ _ Htn). cbn [gbind]. apply counted_ret.
    cbn [begun]. split; [reflexivity|]. exists tok, [], 0. split; [exact Htn|]. split; [reflexivity|]. split; [constructor|].
    assert (2 <= zlen tok) by (rewrite Hr; unfold zlen; cbn [length]; lia).
    split; [|split; [right; lia|lia]]. destruct Ht as [|s2 l2 k2 Hr2 Hc2|]; try lia.
    rewrite Hr2, zlen_app. pose proof (zlen_nonneg l2). lia.
Qed.
Lemma callN_ok F t n : (length tok < F)%nat -> taken tok t ->
  counted (stripRunesN u F mem (zlen pre) (zlen tok) n) (stripRunes u F mem (zlen pre) (zlen tok)) (called t n).
Proof using Hmem.
  intros HF Ht. unfold stripRunesN, stripRunes.
  eapply counted_bind; [apply (start_first F HF F t n Ht)|].
  intros [st|[v g]] m H _; cbn [begun] in H; cbv beta iota.
  - now apply counted_ret.
  - destruct H as (d & rest & -> & Htok & Hno & Hd & Hm). eapply text_stop; eassumption.
Qed.
End Call.

Lemma loopN_ok u F fuel : forall pre tok spare acc t n, zlen (pre ++ tok ++ spare) < 2 ^ 63 -> (length tok < F)%nat -> taken u tok t ->
  counted (stripTokenN_loop u F (pre ++ tok ++ spare) fuel (zlen pre) (zlen tok) acc n)
          (stripToken_loop u F (pre ++ tok ++ spare) fuel (zlen pre) (zlen tok) acc)
          (fun x m => m <= n + 3 * zlen tok - t + 7 * (zlen (snd x) - zlen acc) /\
                      zlen (snd x) - zlen acc <= Z.max 1 (zlen tok)).
Proof.
  induction fuel as [|fuel IH]; intros pre tok spare acc t n Hmem HF Ht; cbn [stripTokenN_loop stripToken_loop]; [exact I|].
  eapply counted_bind; [apply (callN_ok u pre tok spare Hmem F t n HF Ht)|].
  intros [mem' st] m [E (d & y & p & Htok & Hrem & Hp & Htd & Hpos & Hm)] _. cbn [fst snd] in *. cbv beta iota. subst mem'.
  rewrite Hrem. cbn [slen].
  assert (Hlen : zlen tok = zlen d + zlen y) by (now rewrite Htok, zlen_app).
  pose proof (zlen_nonneg d); pose proof (zlen_nonneg y).
  assert (Hacc : zlen (acc ++ [st]) = zlen acc + 1) by (rewrite zlen_app; reflexivity).
  assert (Hpy : 0 <= p <= zlen y).
  { destruct Hp as [|seq l k -> Hc|]; [lia| |lia]. rewrite zlen_app. pose proof (zlen_nonneg seq); pose proof (zlen_nonneg l). lia. }
  destruct (Z.eqb_spec (zlen y) 0) as [Hy|Hy].
  - apply counted_ret. cbn [snd]. lia.
  - replace (pre ++ tok ++ spare) with ((pre ++ d) ++ y ++ spare) in * by (rewrite Htok, <- !app_assoc; reflexivity).
    replace (zlen pre + zlen d) with (zlen (pre ++ d)) by apply zlen_app.
    eapply counted_imp; [apply (IH (pre ++ d) y spare (acc ++ [st]) p m)|].
    + exact Hmem.
    + rewrite Htok, app_length in HF. lia.
    + exact Hp.
    + intros [m' ps] mm [H1 H2] _. cbn [snd] in *. destruct Hpos as [->|Hpos]; [|lia].
      apply (f_equal zlen) in Htok. rewrite zlen_app, zlen_nil in Htok. lia.
Qed.

(** Each rune is read at most three times, plus at most 7 reads a part. *)
Theorem strip_reads u tok spare : mcap (tok ++ spare) ->
  counted (stripTokenN u (tok ++ spare) (zlen tok)) (stripToken u (tok ++ spare) (zlen tok))
    (fun x m => m <= 3 * zlen tok + 7 * zlen (snd x) /\ zlen (snd x) <= Z.max 1 (zlen tok)).
Proof.
  intros Hm. unfold stripTokenN, stripToken, stripTokenWith.
  eapply counted_imp.
  - apply (loopN_ok u (S (length (tok ++ spare))) (S (length (tok ++ spare))) [] tok spare [] 0 0); [exact Hm| |constructor].
    rewrite app_length. lia.
  - intros [m ps] k [H1 H2] _. cbn [snd] in *. rewrite zlen_nil in *. lia.
Qed.

Theorem strip_counter u tok spare : mcap (tok ++ spare) ->
  (forall m parts, stripToken u (tok ++ spare) (zlen tok) = Ret (m, parts) <->
     exists reads, stripTokenN u (tok ++ spare) (zlen tok) = Ret (m, parts, reads)).
Proof.
  intros Hm m parts. pose proof (strip_reads u tok spare Hm) as H.
  destruct (stripTokenN _ _ _) as [[x k]|], (stripToken _ _ _) as [y|]; cbn [counted] in H; try contradiction.
  - destruct H as [-> _]. split; [intros [= ->]; now exists k|]. intros [k' [= -> _]]. reflexivity.
  - split; [discriminate|intros [k' Hk]; discriminate].
Qed.
Theorem strip_linear u tok spare m parts reads : mcap (tok ++ spare) ->
  stripTokenN u (tok ++ spare) (zlen tok) = Ret (m, parts, reads) ->
  reads <= 3 * zlen tok + 7 * zlen parts /\ zlen parts <= Z.max 1 (zlen tok).
Proof.
  intros Hm E. pose proof (strip_reads u tok spare Hm) as H. rewrite E in H.
  destruct (stripToken _ _ _) as [y|]; cbn [counted] in H; [|contradiction]. now destruct H as [_ H].
Qed.
