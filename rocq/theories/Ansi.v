(** terminal/ansi/ansi.go, over an explicit backing array.

    [mem] is the backing array of the token up to its capacity. Slices are windows on it, so that aliasing,
    reads past [len] and writes through [append] are visible. *)
From Verif Require Import Base Unicode Tables Width Utf8 Reader.

(** A Go slice: nil, a window [off, off+len) of [mem] (its capacity extends to the end of [mem]), or a slice
    freshly allocated by [append]. *)
Inductive sl :=
| SNil
| SView (off len : Z)
| SFresh (l : list rune).

Definition window (mem : list rune) (off len : Z) : list rune :=
  firstn (Z.to_nat len) (skipn (Z.to_nat off) mem).

Definition contents (mem : list rune) (s : sl) : list rune :=
  match s with SNil => [] | SView o n => window mem o n | SFresh l => l end.

Definition slen (s : sl) : Z := match s with SNil => 0 | SView _ n => n | SFresh l => zlen l end.

(** A SliceReader over a window: base and length of [r.runes], and [r.offset]. *)
Record vreader := mkV { v_base : Z; v_len : Z; v_off : Z }.

(** The reader of Reader.v on the current contents of the array. *)
Definition asReader (mem : list rune) (v : vreader) : reader :=
  mkReader (v_off v) (mkSlice (window mem (v_base v) (v_len v)) (skipn (Z.to_nat (v_base v + v_len v)) mem)).

Definition vSetOff (v : vreader) (o : Z) : vreader := mkV (v_base v) (v_len v) o.

(** The methods of SliceReader used by ansi.go, through their models in Reader.v. *)
Definition vRead (mem : list rune) (v : vreader) : go (vreader * rune * bool) :=
  let! p := readRune (asReader mem v) in
  let '(r', (rn, _, eof)) := p in Ret (vSetOff v (rd_offset r'), rn, eof).
Definition vSeek (mem : list rune) (v : vreader) (off whence : Z) : vreader * option Z :=
  let (r', p) := seek (asReader mem v) off whence in (vSetOff v (rd_offset r'), p).
Definition vSlice (mem : list rune) (v : vreader) (a b : Z) : go sl :=
  let! _ := readerSlice (asReader mem v) a b in Ret (SView (v_base v + a) (b - a)).
Definition vRunes (mem : list rune) (v : vreader) : go sl :=
  let! _ := readerRunes (asReader mem v) in Ret (SView (v_base v + v_off v) (v_len v - v_off v)).

(** Go's [append(a, b...)]: writes in place when the capacity of [a] allows it. *)
Definition writeAt (mem : list rune) (pos : Z) (bs : list rune) : list rune :=
  firstn (Z.to_nat pos) mem ++ bs ++ skipn (Z.to_nat pos + length bs) mem.
Definition appendSl (mem : list rune) (a b : sl) : list rune * sl :=
  match a with
  | SView o n => if o + n + slen b <=? zlen mem
                 then (writeAt mem (o + n) (contents mem b), SView o (n + slen b))
                 else (mem, SFresh (contents mem a ++ contents mem b))
  | _ => (mem, SFresh (contents mem a ++ contents mem b))
  end.

(** Models [kind] (ansi.go:23-29). *)
Inductive kind := KOther | KStart | KStop.

Definition esc : rune := 27.
Definition bracket : rune := 91.

(** State of decodeANSISequence's loops: reader, last rune read, whether the last read failed, runeCount,
    nextStart, hasZeroArg. *)
Record dstate := mkD { d_v : vreader; d_r : rune; d_err : bool; d_count : Z; d_next : Z; d_zero : bool }.

(** Models the digit loops (ansi.go:242-258 and 264-276; the second one ignores hasZeroArg). *)
Fixpoint digits (u : unicode) (mem : list rune) (k : nat) (d : dstate) : go dstate :=
  match k with
  | O => Ret d
  | S k' =>
      let! x := vRead mem (d_v d) in
      let '(v', r', eof) := x in
      if eof then Ret (mkD v' r' true (d_count d) (d_next d) (d_zero d))
      else if negb (isDigit u r') then Ret (mkD v' r' false (d_count d) (d_next d) (d_zero d))
      else digits u mem k' (mkD v' r' false (d_count d + 1) (d_next d + 1) (if r' =? 48 then d_zero d else false))
  end.

Definition isSep (r : rune) : bool := (r =? 59) || (r =? 58).

(** Models the loop over sections (ansi.go:260-277). Each turn reads at least a rune. *)
Fixpoint sections (u : unicode) (mem : list rune) (fuel : nat) (d : dstate) : go dstate :=
  match fuel with
  | O => Panic
  | S fuel' =>
      if isSep (d_r d)
      then
        let! d1 := digits u mem 3 (mkD (d_v d) (d_r d) (d_err d) (d_count d + 1) (d_next d + 1) (d_zero d)) in
        sections u mem fuel' (mkD (d_v d1) (d_r d1) (d_err d1) (d_count d1) (d_next d1) (d_zero d))
      else Ret d
  end.

(** The final switch (ansi.go:280-295): 's' 'h', 'u' 'l', 'm'. *)
Definition kindOf (r : rune) (zero : bool) : kind :=
  if (r =? 115) || (r =? 104) then KStart
  else if (r =? 117) || (r =? 108) then KStop
  else if r =? 109 then (if zero then KStop else KStart)
  else KOther.

(** Models [decodeANSISequence] (ansi.go:194-303): result slice (SNil for nil), kind, reader after the deferred
    Seek. *)
Definition decodeANSI (u : unicode) (F : nat) (mem : list rune) (v : vreader) : go (sl * kind * vreader) :=
  let current := match snd (vSeek mem v 0 1) with Some p => p | None => -1 end in
  let v0 := fst (vSeek mem v 0 1) in
  let giveUp v' := Ret (SNil, KOther, fst (vSeek mem v' current 0)) in
  let! x1 := vRead mem v0 in
  let '(v1, r1, e1) := x1 in
  if e1 then giveUp v1
  else if negb (r1 =? esc) then giveUp v1
  else
    let! x2 := vRead mem v1 in
    let '(v2, r2, e2) := x2 in
    if e2 then giveUp v2
    else if negb (r2 =? bracket) then giveUp v2
    else
      let nextStart := match snd (vSeek mem v2 0 1) with Some p => p | None => -1 end in
      let v3 := fst (vSeek mem v2 0 1) in
      let! d := digits u mem 3 (mkD v3 r2 false 2 nextStart true) in
      let! d2 := sections u mem F d in
      let k := kindOf (d_r d2) (d_zero d2) in
      let count := if d_err d2 then d_count d2 else d_count d2 + 1 in
      let next := if d_err d2 then d_next d2 else d_next d2 + 1 in
      let! s := vSlice mem (d_v d2) current (current + count) in
      let v4 := if 0 <? next then fst (vSeek mem (d_v d2) next 0) else d_v d2 in
      Ret (s, k, v4).

(** Models the loop of [decodeText] (ansi.go:310-335): Some reader when it stopped on ESC[ (line 324-329). *)
Fixpoint text_loop (mem : list rune) (fuel : nat) (v : vreader) (count : Z) : go (vreader * Z) :=
  match fuel with
  | O => Panic
  | S fuel' =>
      let! x := vRead mem v in
      let '(v1, r, e) := x in
      if e then Ret (v1, count)
      else if r =? esc
      then
        let! y := vRead mem v1 in
        let '(v2, r2, e2) := y in
        if e2 then Ret (v2, count + 1)
        else if r2 =? bracket then Ret (fst (vSeek mem v2 (-2) 1), count)
        else text_loop mem fuel' v2 (count + 1 + 1)
      else text_loop mem fuel' v1 (count + 1)
  end.

(** Models [decodeText] (ansi.go:305-338). *)
Definition decodeText (F : nat) (mem : list rune) (v : vreader) : go (sl * vreader) :=
  let current := match snd (vSeek mem v 0 1) with Some p => p | None => -1 end in
  let v0 := fst (vSeek mem v 0 1) in
  let! x := text_loop mem F v0 0 in
  let (v1, count) := x in
  let! s := vSlice mem v1 current (current + count) in
  Ret (s, v1).

(** Models [StrippedToken] (ansi.go:16-21). *)
Record stripped := mkStripped { s_text : sl; s_start : sl; s_stop : sl; s_rem : sl }.

(** Rewinds on a sequence just decoded: [reader.Seek(int64(-len(seq)), io.SeekCurrent)]. *)
Definition rewind (mem : list rune) (v : vreader) (s : sl) : vreader := fst (vSeek mem v (- slen s) 1).

(** Models the first loop (ansi.go:76-115): [inl] is a return from the function. *)
Fixpoint start_loop (u : unicode) (F : nat) (mem : list rune) (fuel : nat) (v : vreader) (g0 : sl)
  : go (stripped + (vreader * sl)) :=
  match fuel with
  | O => Panic
  | S fuel' =>
      let! x := decodeANSI u F mem v in
      let '(s, k, v1) := x in
      match s with
      | SNil => Ret (inr (v1, g0))
      | _ =>
        match k with
        | KOther => let! rem := vRunes mem v1 in Ret (inl (mkStripped s g0 SNil rem))
        | KStart =>
            if slen g0 =? 0 then start_loop u F mem fuel' v1 s
            else let v2 := if 0 <? slen s then rewind mem v1 s else v1 in
                 let! rem := vRunes mem v2 in Ret (inl (mkStripped SNil g0 SNil rem))
        | KStop => let! rem := vRunes mem v1 in Ret (inl (mkStripped SNil g0 s rem))
        end
      end
  end.

(** Models the second loop and the final return (ansi.go:123-188). *)
Fixpoint stop_loop (u : unicode) (F : nat) (mem : list rune) (fuel : nat) (v : vreader) (g0 g1 g2 : sl)
  : go (list rune * stripped) :=
  match fuel with
  | O => Panic
  | S fuel' =>
      let! x := decodeANSI u F mem v in
      let '(s, k, v1) := x in
      let finish v2 := let! rem := vRunes mem v2 in Ret (mem, mkStripped g1 g0 g2 rem) in
      match s with
      | SNil => finish v1
      | _ =>
        match k with
        | KOther =>
            if slen g2 =? 0
            then match g1 with
                 | SNil => stop_loop u F mem fuel' v1 g0 s g2
                 | _ => let (mem', g1') := appendSl mem g1 s in stop_loop u F mem' fuel' v1 g0 g1' g2
                 end
            else finish (rewind mem v1 s)
        | KStop =>
            if slen g2 =? 0 then stop_loop u F mem fuel' v1 g0 g1 s
            else finish (if 0 <? slen s then rewind mem v1 s else v1)
        | KStart => finish (rewind mem v1 s)
        end
      end
  end.

(** Models [StripANSIFromRunes] (ansi.go:71-189) on the window [base, base+len) of [mem]. The array is threaded
    because of the in-place append. *)
Definition stripRunes (u : unicode) (F : nat) (mem : list rune) (base len : Z) : go (list rune * stripped) :=
  let v := mkV base len 0 in
  let! a := start_loop u F mem F v SNil in
  match a with
  | inl st => Ret (mem, st)
  | inr (v1, g0) =>
      let! t := decodeText F mem v1 in
      let (s, v2) := t in
      stop_loop u F mem F v2 g0 s SNil
  end.

(** Models [StripToken] (ansi.go:32-46). *)
Fixpoint stripToken_loop (u : unicode) (F : nat) (mem : list rune) (fuel : nat) (base len : Z) (acc : list stripped)
  : go (list rune * list stripped) :=
  match fuel with
  | O => Panic
  | S fuel' =>
      let! x := stripRunes u F mem base len in
      let (mem', st) := x in
      if slen (s_rem st) =? 0 then Ret (mem', acc ++ [st])
      else match s_rem st with
           | SView o n => stripToken_loop u F mem' fuel' o n (acc ++ [st])
           | _ => Panic (* [Runes] always returns a window *)
           end
  end.
(** All loops get the fuel [F]; the theorems show that more than [length mem] makes no difference. *)
Definition stripTokenWith (u : unicode) (F : nat) (mem : list rune) (len : Z) : go (list rune * list stripped) :=
  stripToken_loop u F mem F 0 len [].
Definition stripToken (u : unicode) (mem : list rune) (len : Z) : go (list rune * list stripped) :=
  stripTokenWith u (S (length mem)) mem len.

(** [StripANSIFromRunes(tok)] for a slice with the given spare capacity. *)
Definition stripANSIFromRunes (u : unicode) (tok spare : list rune) : go (list rune * stripped) :=
  stripRunes u (S (length (tok ++ spare))) (tok ++ spare) 0 (zlen tok).
