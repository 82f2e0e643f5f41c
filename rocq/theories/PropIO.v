(** C14-C19 (and the StringWidth part of C09): runesio. *)
From Verif Require Import Base Tables Width Utf8 SpecUtf8 Utf8Proofs Reader SpecReader ReaderProofs.

(** C09, StringWidth: for every byte string *)
Theorem C09_stringwidth_total : forall (s : list byte) (opts : list wopt), Forall isByte s ->
  exists w, stringWidth s opts = Ret w.
Proof. exact stringWidth_total. Qed.
Print Assumptions C09_stringwidth_total.

(* "a", an invalid byte, U+4E2D *)
Example C09_ex2 : stringWidth [97; 255; 0xe4; 0xb8; 0xad] [] = Ret 3.
Proof. vm_compute. reflexivity. Qed.

(** C14: for every io.Writer [w] in any state: one Write, of the UTF-8 text, whose result is returned. *)
Theorem C14_writerunes_one_utf8_write : forall (w : iowriter) (s : w_state w) (rs : list rune),
  Forall int32 rs ->
  exists rs' bs, Forall2 replaced rs rs' /\ utf8s rs' bs /\ writeRunes w s rs = w_write w s bs.
Proof. exact writeRunes_spec. Qed.
Print Assumptions C14_writerunes_one_utf8_write.

(** With a writer that records its Write calls and accepts every byte: *)
Theorem C14_writerunes_same_as_writerune : forall (rs : list rune) (s : list (list byte)),
  exists bs, writeRunes recorder s rs = (s ++ [bs], (zlen bs, None)) /\
    concat (writeEach recorder s rs) = concat s ++ bs.
Proof. exact writeRunes_same_as_each. Qed.
Print Assumptions C14_writerunes_same_as_writerune.

Example C14_ex : Forall int32 [97; 0xe9; 0x4e2d; 0x1f600; -7; 0xd800] /\
  runesBytes [97; 0xe9; 0x4e2d; 0x1f600; -7; 0xd800] [] =
  [97; 0xc3;0xa9; 0xe4;0xb8;0xad; 0xf0;0x9f;0x98;0x80; 0xef;0xbf;0xbd; 0xef;0xbf;0xbd].
Proof. split; [repeat (constructor; [unfold int32; lia|]); constructor|vm_compute; reflexivity]. Qed.

(** C15 *)
Theorem C15_decode_written : forall rs : list rune, Forall int32 rs ->
  exists rs', Forall2 replaced rs rs' /\ runesOf (runesBytes rs []) = rs'.
Proof. exact roundtrip. Qed.
Print Assumptions C15_decode_written.

Theorem C15_decoded_runes_are_valid : forall p : list byte, Forall isByte p -> Forall scalar (runesOf p).
Proof. exact runesOf_scalar. Qed.
Print Assumptions C15_decoded_runes_are_valid.

Theorem C15_reencode_valid_utf8 : forall (bs : list byte) (rs : list rune), utf8s rs bs ->
  runesBytes (runesOf bs) [] = bs.
Proof. exact reencode_written. Qed.
Print Assumptions C15_reencode_valid_utf8.

Example C15_ex : utf8s [0xe9; 97] [0xc3; 0xa9; 97] /\ runesOf [0xc3; 0xa9; 97; 0xc0; 0x80] = [0xe9; 97; 0xfffd; 0xfffd].
Proof.
  split; [|vm_compute; reflexivity].
  apply (utf8s_cons 0xe9 [97] [0xc3;0xa9] [97]); [apply (utf8_2 3 0x29); unfold six; lia|].
  apply (utf8s_cons 97 [] [97] []); [apply utf8_1; lia|constructor].
Qed.

(** C16: any sequence of calls on a fresh reader (a slice of realistic length, int64 seek offsets) *)
Theorem C16_reader_is_a_cursor : forall (s : gslice rune) (ops : list rop),
  zlen (s_data s) < 2^63 -> Forall opOk ops ->
  let (r', xs) := rrun (newReader s) ops in
  rd_runes r' = s /\ 0 <= rd_offset r' <= zlen (s_data s) /\
  exists c', traceOk (s_spare s) (mkCursor [] (s_data s)) ops xs c' /\
    whole c' = s_data s /\ rd_offset r' = zlen (behind c').
Proof. exact rrun_new. Qed.
Print Assumptions C16_reader_is_a_cursor.

Example C16_ex : Forall opOk [ORead; OSeek (-1) 2; ORunes; ORead; ORead; OSeek 9 1] /\
  snd (rrun (newReader (mkSlice [97; 0xe9; 98] [99])) [ORead; OSeek (-1) 2; ORunes; ORead; ORead; OSeek 9 1; OSlice 1 4])
  = [RRead 97 1 false; RSeek (Some 2); RRunes [98]; RRead 98 1 false; RRead 0xfffd 0 true; RSeek None; RRunes [0xe9; 98; 99]].
Proof.
  split; [repeat constructor; unfold int64; try discriminate; vm_compute; intuition discriminate|vm_compute; reflexivity].
Qed.

(** C17: [rel r c] says that reader [r] stands at cursor [c]; [seekTarget] is computed without wrap-around. *)
Theorem C17_seek_exact : forall (r : reader) (c : cursor) (off wh : Z),
  rel r c -> zlen (whole c) < 2^63 -> int64 off ->
  let (r', p) := seek r off wh in
  match seekTarget c off wh with
  | Some t => (0 <= t <= zlen (whole c) /\ p = Some t /\
                 exists c', rel r' c' /\ moved c t c' /\ rd_runes r' = rd_runes r)
              \/ (~ (0 <= t <= zlen (whole c)) /\ p = None /\ r' = r)
  | None => p = Some (zlen (behind c)) /\ r' = r
  end.
Proof. exact seek_spec. Qed.
Print Assumptions C17_seek_exact.

(* the 64-bit sum overflows: reported, nothing moves *)
Example C17_ex : rel (mkReader 1 (mkSlice [97; 98] [])) (mkCursor [97] [98]) /\
  seek (mkReader 1 (mkSlice [97; 98] [])) (2^63 - 1) 1 = (mkReader 1 (mkSlice [97; 98] []), None).
Proof. split; [split; reflexivity|vm_compute; reflexivity]. Qed.

(** C18: offsets on rune boundaries *)
Theorem C18_byte_offsets_on_boundaries : forall (r : reader) (x y z : list rune),
  Forall scalar (s_data (rd_runes r)) -> s_data (rd_runes r) = x ++ y ++ z ->
  exists g, sliceFromByteOffsets r [zlen (concat (map encodeRune x));
                                    zlen (concat (map encodeRune x)) + zlen (concat (map encodeRune y))] = Ret [g]
    /\ s_data g = y.
Proof. exact sliceBytes_boundary. Qed.
Print Assumptions C18_byte_offsets_on_boundaries.

(** Any offsets: normal return exactly when the offsets come in pairs none of which lies strictly inside one
    rune, and then the groups are the runes lying entirely inside the bytes. *)
Theorem C18_byte_offsets_any : forall r : reader, Forall scalar (s_data (rd_runes r)) ->
  forall (l : list Z) (out : list (list rune)),
  (exists gs, sliceFromByteOffsets r l = Ret gs /\ map s_data gs = out) <-> byteGroups (s_data (rd_runes r)) l out.
Proof. exact sliceBytes_all. Qed.
Print Assumptions C18_byte_offsets_any.

(** The unguarded general claim (a result for every ordered pair) is false: "é" with bytes [1,1]. *)
Theorem C18_byte_offsets_panic_refuted :
  exists r first last, Forall scalar (s_data (rd_runes r)) /\ first <= last /\
    sliceFromByteOffsets r [first; last] = Panic.
Proof. exact sliceBytes_panics_refuted. Qed.
Print Assumptions C18_byte_offsets_panic_refuted.

Example C18_ex : exists gs, sliceFromByteOffsets (newReader (mkSlice [97; 0xe9; 0x4e2d; 98] [])) [1; 6; 0; 2; -1; -1] = Ret gs
  /\ map s_data gs = [[0xe9; 0x4e2d]; [97]; []].
Proof. eexists. split; [vm_compute; reflexivity|reflexivity]. Qed.

(** C19 *)
Theorem C19_slices_exact : forall (r : reader) (l : list Z) (out : list (list rune)),
  (exists gs, readerSlices r l = Ret gs /\ map s_data gs = out) <->
  ranges (s_data (rd_runes r) ++ s_spare (rd_runes r)) l out.
Proof. exact readerSlices_spec. Qed.
Print Assumptions C19_slices_exact.

Theorem C19_slices_panic_iff : forall (r : reader) (l : list Z),
  readerSlices r l = Panic <-> ~ pairsOk (zlen (s_data (rd_runes r)) + zlen (s_spare (rd_runes r))) l.
Proof. exact readerSlices_panic. Qed.
Print Assumptions C19_slices_panic_iff.

(** The slices returned are views of the array of the reader, with all the capacity after them: appending to one overwrites
    what follows in the reader *)
Theorem C19_slices_views : forall (r : reader) (l : list Z) (gs : list (gslice rune)),
  readerSlices r l = Ret gs -> views (s_data (rd_runes r) ++ s_spare (rd_runes r)) l gs.
Proof. exact readerSlices_views. Qed.
Print Assumptions C19_slices_views.
Theorem C19_slice_view : forall (r : reader) (a b : Z) (g : gslice rune),
  readerSlice r a b = Ret g -> view (s_data (rd_runes r) ++ s_spare (rd_runes r)) a b g.
Proof. exact readerSlice_views. Qed.
Print Assumptions C19_slice_view.
Theorem C19_runes_view : forall (r : reader) (g : gslice rune),
  readerRunes r = Ret g -> view (s_data (rd_runes r) ++ s_spare (rd_runes r)) (rd_offset r) (zlen (s_data (rd_runes r))) g.
Proof. exact readerRunes_views. Qed.
Print Assumptions C19_runes_view.
Theorem C19_bytes_views : forall (r : reader) (l : list Z) (gs : list (gslice rune)),
  sliceFromByteOffsets r l = Ret gs -> exists offs, views (s_data (rd_runes r) ++ s_spare (rd_runes r)) offs gs.
Proof. exact byteSlices_views. Qed.
Print Assumptions C19_bytes_views.

Example C19_ex_views : readerSlices (newReader (mkSlice [1;2;3] [4])) [0;2; 1;3] = Ret [mkSlice [1;2] [3;4]; mkSlice [2;3] [4]].
Proof. reflexivity. Qed.
Example C19_ex : exists gs, readerSlices (newReader (mkSlice [1;2;3] [4])) [0;2; 1;4] = Ret gs
  /\ map s_data gs = [[1;2];[2;3;4]].
Proof. eexists. split; reflexivity. Qed.
