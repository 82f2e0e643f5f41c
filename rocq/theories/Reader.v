(** terminal/runes/runesio/slice_reader.go *)
From Verif Require Import Base Tables Width Utf8.

(** Models [SliceReader] (slice_reader.go:18-21). The slice keeps its spare capacity: [r.runes[a:b]] is
    checked against it. *)
Record reader := mkReader { rd_offset : Z; rd_runes : gslice rune }.

(** Models [NewSliceReader] (slice_reader.go:24-26). *)
Definition newReader (s : gslice rune) : reader := mkReader 0 s.

Definition rlen (r : reader) : Z := zlen (s_data (rd_runes r)).

(** Models [ReadRune] (slice_reader.go:31-40): rune, size, and whether the error is io.EOF. *)
Definition readRune (r : reader) : go (reader * (rune * Z * bool)) :=
  if rlen r <=? rd_offset r then Ret (r, (runeError, 0, true))
  else if rd_offset r <? 0 then Panic
  else match nth_error (s_data (rd_runes r)) (Z.to_nat (rd_offset r)) with
       | Some rn => Ret (mkReader (rd_offset r + 1) (rd_runes r), (rn, runeLen rn, false))
       | None => Panic
       end.

(** Models [Runes] (slice_reader.go:43-45): [s[a:]] is [s[a:len(s)]]. *)
Definition readerRunes (r : reader) : go (gslice rune) :=
  cslice (rd_runes r) (rd_offset r) (rlen r).

(** Two's complement wrap-around of an int64 sum. *)
Definition wrap64 (x : Z) : Z := (x + 2^63) mod 2^64 - 2^63.

(** Models [Seek] (slice_reader.go:50-68); whence is an arbitrary int: 0 start, 1 current, 2 end.
    Result: Some position, or None for ErrSeekOutOfRange (returned with position -1). *)
Definition seek (r : reader) (offset whence : Z) : reader * option Z :=
  let pos := if whence =? 0 then offset
             else if whence =? 2 then wrap64 (rlen r + offset)
             else if whence =? 1 then wrap64 (rd_offset r + offset)
             else rd_offset r in
  if (pos <? 0) || (rlen r <? pos) then (r, None)
  else (mkReader pos (rd_runes r), Some pos).

(** Models [Slice] (slice_reader.go:73-75). *)
Definition readerSlice (r : reader) (a b : Z) : go (gslice rune) := cslice (rd_runes r) a b.

(** Models the loop of [Slices] (slice_reader.go:92-96). *)
Fixpoint slices_loop (s : gslice rune) (l : list Z) : go (list (gslice rune)) :=
  match l with
  | a :: b :: l' => let! g := cslice s a b in let! gs := slices_loop s l' in Ret (g :: gs)
  | _ => Ret []
  end.

(** Models [Slices] (slice_reader.go:85-99). *)
Definition readerSlices (r : reader) (l : list Z) : go (list (gslice rune)) :=
  if Nat.odd (length l) then Panic else slices_loop (rd_runes r) l.

(** Models the inner loop of [SliceFromByteOffsets] (slice_reader.go:120-131). *)
Fixpoint byteOffsets_loop (rs : list rune) (startByte endByte startRune endRune offset : Z) : Z * Z :=
  match rs with
  | [] => (startRune, endRune)
  | rn :: rs' =>
      let startRune' := if offset <? startByte then startRune + 1 else startRune in
      let offset' := offset + runeLen rn in
      if endByte <? offset' then (startRune', endRune)
      else byteOffsets_loop rs' startByte endByte startRune' (endRune + 1) offset'
  end.

(** Models the outer loop of [SliceFromByteOffsets] (slice_reader.go:115-133). *)
Fixpoint byteSlices_loop (s : gslice rune) (l : list Z) : go (list (gslice rune)) :=
  match l with
  | a :: b :: l' =>
      let (sr, er) := byteOffsets_loop (s_data s) a b 0 0 0 in
      let! g := cslice s sr er in
      let! gs := byteSlices_loop s l' in Ret (g :: gs)
  | _ => Ret []
  end.

(** Models [SliceFromByteOffsets] (slice_reader.go:108-136). *)
Definition sliceFromByteOffsets (r : reader) (l : list Z) : go (list (gslice rune)) :=
  if Nat.odd (length l) then Panic else byteSlices_loop (rd_runes r) l.

(** Any method call, and what it returns; a panicking call leaves the reader as it was. *)
Inductive rop :=
| ORead | OSeek (offset whence : Z) | ORunes | OSlice (a b : Z) | OSlices (l : list Z) | OBytes (l : list Z).
Inductive rout :=
| RRead (rn : rune) (size : Z) (eof : bool)
| RSeek (p : option Z)
| RRunes (l : list rune)
| RGroups (l : list (list rune))
| RPanic.

Definition rstep (r : reader) (o : rop) : reader * rout :=
  match o with
  | ORead => match readRune r with Ret (r', (rn, n, e)) => (r', RRead rn n e) | Panic => (r, RPanic) end
  | OSeek off wh => let (r', p) := seek r off wh in (r', RSeek p)
  | ORunes => match readerRunes r with Ret g => (r, RRunes (s_data g)) | Panic => (r, RPanic) end
  | OSlice a b => match readerSlice r a b with Ret g => (r, RRunes (s_data g)) | Panic => (r, RPanic) end
  | OSlices l => match readerSlices r l with Ret gs => (r, RGroups (map s_data gs)) | Panic => (r, RPanic) end
  | OBytes l => match sliceFromByteOffsets r l with Ret gs => (r, RGroups (map s_data gs)) | Panic => (r, RPanic) end
  end.

Fixpoint rrun (r : reader) (ops : list rop) : reader * list rout :=
  match ops with
  | [] => (r, [])
  | o :: ops' => let (r1, x) := rstep r o in let (r2, xs) := rrun r1 ops' in (r2, x :: xs)
  end.
