(** Go's UTF-8 codec (package unicode/utf8, and the []rune(string) conversion) and
    terminal/runes/runesio/writer.go. Bytes are [Z] in 0..255. *)
From Verif Require Import Base Tables Width.

Definition byte := Z.

(** Go conversions [uint32(r)] and [byte(r)]. *)
Definition u32 (r : Z) : Z := r mod 4294967296.

(** Models Go [utf8.EncodeRune] (unicode/utf8/utf8.go), the bytes written in the buffer. *)
Definition encode3 (r : Z) : list byte :=
  [Z.lor 0xe0 (u8 (Z.shiftr r 12));
   Z.lor 0x80 (Z.land (u8 (Z.shiftr r 6)) 0x3f);
   Z.lor 0x80 (Z.land (u8 r) 0x3f)].
Definition encodeRune (r : rune) : list byte :=
  let i := u32 r in
  if i <=? 0x7f then [u8 r]
  else if i <=? 0x7ff then [Z.lor 0xc0 (u8 (Z.shiftr r 6)); Z.lor 0x80 (Z.land (u8 r) 0x3f)]
  else if (0x10ffff <? i) || ((0xd800 <=? i) && (i <=? 0xdfff)) then encode3 runeError
  else if i <=? 0xffff then encode3 r
  else [Z.lor 0xf0 (u8 (Z.shiftr r 18));
        Z.lor 0x80 (Z.land (u8 (Z.shiftr r 12)) 0x3f);
        Z.lor 0x80 (Z.land (u8 (Z.shiftr r 6)) 0x3f);
        Z.lor 0x80 (Z.land (u8 r) 0x3f)].

(** Models Go [utf8.RuneLen] (unicode/utf8/utf8.go). *)
Definition runeLen (r : rune) : Z :=
  if r <? 0 then -1
  else if r <=? 0x7f then 1
  else if r <=? 0x7ff then 2
  else if (0xd800 <=? r) && (r <=? 0xdfff) then -1
  else if r <=? 0xffff then 3
  else if r <=? 0x10ffff then 4
  else -1.

(** Models Go [utf8.DecodeRune]: the tables [first] and [acceptRanges] of unicode/utf8/utf8.go written out.
    Result: rune and number of bytes consumed (at least 1 on non-empty input). *)
Definition inB (lo hi b : Z) : bool := (lo <=? b) && (b <=? hi).
Definition decodeRune (p : list byte) : rune * nat :=
  match p with
  | [] => (runeError, 0%nat)
  | b0 :: p1 =>
    if b0 <? 0x80 then (b0, 1%nat)
    else if inB 0xc2 0xdf b0 then
      match p1 with
      | b1 :: _ => if inB 0x80 0xbf b1
                   then (Z.lor (Z.shiftl (Z.land b0 0x1f) 6) (Z.land b1 0x3f), 2%nat)
                   else (runeError, 1%nat)
      | [] => (runeError, 1%nat)
      end
    else if inB 0xe0 0xef b0 then
      let lo := if b0 =? 0xe0 then 0xa0 else 0x80 in
      let hi := if b0 =? 0xed then 0x9f else 0xbf in
      match p1 with
      | b1 :: b2 :: _ =>
          if inB lo hi b1 && inB 0x80 0xbf b2
          then (Z.lor (Z.lor (Z.shiftl (Z.land b0 0x0f) 12) (Z.shiftl (Z.land b1 0x3f) 6)) (Z.land b2 0x3f), 3%nat)
          else (runeError, 1%nat)
      | _ => (runeError, 1%nat)
      end
    else if inB 0xf0 0xf4 b0 then
      let lo := if b0 =? 0xf0 then 0x90 else 0x80 in
      let hi := if b0 =? 0xf4 then 0x8f else 0xbf in
      match p1 with
      | b1 :: b2 :: b3 :: _ =>
          if inB lo hi b1 && inB 0x80 0xbf b2 && inB 0x80 0xbf b3
          then (Z.lor (Z.lor (Z.lor (Z.shiftl (Z.land b0 0x07) 18) (Z.shiftl (Z.land b1 0x3f) 12))
                             (Z.shiftl (Z.land b2 0x3f) 6)) (Z.land b3 0x3f), 4%nat)
          else (runeError, 1%nat)
      | _ => (runeError, 1%nat)
      end
    else (runeError, 1%nat)
  end.

(** Models the conversion [[]rune(s)]: repeated decoding, one rune per step (used at
    terminal/runes/width.go:61, wordbreak/*.go [...String] functions). Fuel = number of bytes;
    each step consumes at least one byte. *)
Fixpoint runesOf_fuel (fuel : nat) (p : list byte) : list rune :=
  match fuel with
  | O => []
  | S fuel' =>
      match p with
      | [] => []
      | _ => let (r, n) := decodeRune p in r :: runesOf_fuel fuel' (skipn n p)
      end
  end.
Definition runesOf (p : list byte) : list rune := runesOf_fuel (length p) p.

(** Models [StringWidth] (terminal/runes/width.go:60-62). *)
Definition stringWidth (s : list byte) (opts : list wopt) : go Z := widths (runesOf s) opts.

(** An arbitrary io.Writer: a state and a Write returning a count and maybe an error. *)
Record iowriter := mkWriter {
  w_state : Type;
  w_err : Type;
  w_write : w_state -> list byte -> w_state * (Z * option w_err)
}.

(** Models [writeRune] (terminal/runes/runesio/writer.go:38-53). *)
Definition runeBytes (r : rune) : list byte := if u32 r <? 0x80 then [u8 r] else encodeRune r.
Definition writeRune (w : iowriter) (s : w_state w) (r : rune) := w_write w s (runeBytes r).

(** Models [writeRunes] (terminal/runes/runesio/writer.go:55-71). *)
Fixpoint runesBytes (rs : list rune) (buf : list byte) : list byte :=
  match rs with
  | [] => buf
  | r :: rs' =>
      if u32 r <? 0x80 then runesBytes rs' (buf ++ [u8 r])
      else runesBytes rs' (buf ++ encodeRune r)
  end.
Definition writeRunes (w : iowriter) (s : w_state w) (rs : list rune) := w_write w s (runesBytes rs []).
