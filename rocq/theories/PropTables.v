(** C70, C71, C81, C82: the width tables and the tool that makes them. *)
From Verif Require Import Base Unicode Utf8 SpecUtf8 Utf8Proofs Text Tables Width SpecWidth WidthProofs BuildTables SpecTables BuildProofs FileProofs Ucd SpecUcd UcdProofs TablesGo UcdShipped.

(** C70: from lines in increasing order, as in EastAsianWidth.txt *)
Theorem C70_tables_of_the_file : forall ls : list propLine, sorted (map pl_range ls) ->
  let t := eastasian ls in
  Forall gapped [wt_combining t; wt_doublewidth t; wt_ambiguous t; wt_narrow t; wt_neutral t] /\
  ForallOrdPairs disjoint [wt_doublewidth t; wt_ambiguous t; wt_narrow t; wt_neutral t] /\
  forall r,
    (member r (wt_combining t) <-> exists l, In l ls /\ inInterval r (pl_range l) /\ pl_combining l = true) /\
    (member r (wt_doublewidth t) <-> exists l, In l ls /\ inInterval r (pl_range l) /\ (pl_class l = ClassW \/ pl_class l = ClassF)) /\
    (member r (wt_ambiguous t) <-> exists l, In l ls /\ inInterval r (pl_range l) /\ pl_class l = ClassA) /\
    (member r (wt_narrow t) <-> exists l, In l ls /\ inInterval r (pl_range l) /\ pl_class l = ClassNa) /\
    (member r (wt_neutral t) <-> exists l, In l ls /\ inInterval r (pl_range l) /\ pl_class l = ClassN).
Proof. exact eastasian_spec. Qed.
Print Assumptions C70_tables_of_the_file.

Theorem C70_emoji_table : forall rs : table, sorted rs -> gapped (buildEmoji rs) /\
  forall r, member r (buildEmoji rs) <-> exists iv, In iv rs /\ inInterval r iv /\ 0xff <= snd iv.
Proof. exact emoji_spec. Qed.
Print Assumptions C70_emoji_table.

(** any list of non-empty ranges, in any order *)
Theorem C70_shapeup_members : forall (r : rune) (t : table), Forall (fun iv => fst iv <= snd iv) t ->
  (member r (shapeup t) <-> member r t).
Proof. exact shapeup_member. Qed.
Print Assumptions C70_shapeup_members.

Definition someLines := [mkLine (0x20, 0x7e) ClassNa false; mkLine (0xa1, 0xa1) ClassA false; mkLine (0x300, 0x34e) ClassA true;
  mkLine (0x34f, 0x34f) ClassA true; mkLine (0x1100, 0x115f) ClassW false; mkLine (0x3000, 0x3000) ClassF false; mkLine (0x3001, 0x3003) ClassW false].
Example C70_ex : sorted (map pl_range someLines) /\
  eastasian someLines = mkTables [(0x300, 0x34f)] [(0x1100, 0x115f); (0x3000, 0x3003)] [(0xa1, 0xa1); (0x300, 0x34f)] [(0x20, 0x7e)] [].
Proof. split; [|vm_compute; reflexivity]. cbn. repeat (constructor; [cbn; lia|cbn; lia|]). constructor. cbn. lia. Qed.

(** C71: the shipped tables are in the form the tool gives, the only one with these runes, and no rune has two widths *)
Theorem C71_shipped_canonical :
  Forall gapped [combining; doublewidth; ambiguous; narrow; neutral; emoji] /\
  ForallOrdPairs disjoint [doublewidth; ambiguous; narrow; neutral].
Proof. exact (conj tables_gapped tables_disjoint). Qed.
Print Assumptions C71_shipped_canonical.

Theorem C71_canonical_form : forall p t : table, sorted p -> gapped t -> (forall r, member r p <-> member r t) -> shapeup p = t.
Proof. exact shapeup_canonical. Qed.
Print Assumptions C71_canonical_form.

Example C71_ex : gapped [(0x300, 0x34f)] /\ sorted [(0x300, 0x34e); (0x34f, 0x34f)] /\
  shapeup [(0x300, 0x34e); (0x34f, 0x34f)] = [(0x300, 0x34f)].
Proof. split; [constructor; cbn; lia|]. split; [repeat (constructor; cbn; try lia)|reflexivity]. Qed.

(** C81: EastAsianWidth.txt from bytes to tables; [lineOk]: no newline or carriage return in a line *)
Theorem C81_widths_read : forall lines es bs, Forall lineOk lines -> utf8s (flat_map (fun l => l ++ [10]) lines) bs -> Forall2 widthLine lines es ->
  sorted (map fst (given es)) ->
  let t := eastasianFile bs in
  Forall gapped [wt_combining t; wt_doublewidth t; wt_ambiguous t; wt_narrow t; wt_neutral t] /\
  ForallOrdPairs disjoint [wt_doublewidth t; wt_ambiguous t; wt_narrow t; wt_neutral t] /\
  forall r,
    (member r (wt_combining t) <-> listedAs lines r (fun line _ => mentions line "COMBINING")) /\
    (member r (wt_doublewidth t) <-> listedAs lines r (fun _ class => class = ascii "W" \/ class = ascii "F")) /\
    (member r (wt_ambiguous t) <-> listedAs lines r (fun _ class => class = ascii "A")) /\
    (member r (wt_narrow t) <-> listedAs lines r (fun _ class => class = ascii "Na")) /\
    (member r (wt_neutral t) <-> listedAs lines r (fun _ class => class = ascii "N")).
Proof. exact widths_read. Qed.
Print Assumptions C81_widths_read.

Theorem C81_emojis_read : forall lines es bs, Forall lineOk lines -> utf8s (flat_map (fun l => l ++ [10]) lines) bs -> Forall2 emojiText lines es ->
  sorted (given es) ->
  gapped (emojiFile bs) /\ forall r, member r (emojiFile bs) <-> listedEmoji lines r.
Proof. exact emojis_read. Qed.
Print Assumptions C81_emojis_read.

Theorem C81_printed : forall v t, dense (ascii v) = ascii v -> Forall (fun iv => 0 <= fst iv < 2 ^ 31 /\ 0 <= snd iv < 2 ^ 31) t ->
  tableSource v t (generate (ascii v) t).
Proof. exact table_printed. Qed.
Print Assumptions C81_printed.

(** some lines of the file *)
Definition ucdLines : list (list rune) := map ascii
  ["# EastAsianWidth-15.0.0.txt"%text; ""%text; "0020;Na          # Zs         SPACE"%text; "00A1;A           # Po         INVERTED EXCLAMATION MARK"%text;
   "0300..036F;A     # Mn   [112] COMBINING GRAVE ACCENT..COMBINING LATIN SMALL LETTER X"%text; "1100..115F;W"%text; "3000;F           # Zs         IDEOGRAPHIC SPACE"%text].
Definition ucdEntries : list (option (interval * list rune)) :=
  [None; None; Some ((0x20, 0x20), ascii "Na"); Some ((0xa1, 0xa1), ascii "A"); Some ((0x300, 0x36f), ascii "A"); Some ((0x1100, 0x115f), ascii "W"); Some ((0x3000, 0x3000), ascii "F")].
Ltac code := eapply codePoint_of; [vm_compute; (left; split; [split; discriminate|reflexivity]) || (right; left; split; [split; discriminate|reflexivity])|vm_compute; reflexivity|discriminate].
Example C81_ex : Forall lineOk ucdLines /\ Forall2 widthLine ucdLines ucdEntries /\ sorted (map fst (given ucdEntries)) /\
  eastasianFile (flat_map (fun l => l ++ [10]) ucdLines) = mkTables [(0x300, 0x36f)] [(0x1100, 0x115f); (0x3000, 0x3000)] [(0xa1, 0xa1); (0x300, 0x36f)] [(0x20, 0x20)] [] /\
  generate (ascii "narrow") [(0x20, 0x7e); (0xa2, 0x1f600)] = ascii "var narrow = table{
	{0x0020, 0x007E}, {0x00A2, 0x1F600},
}
".
Proof.
  split; [repeat constructor; vm_compute; discriminate|]. split; [|split; [cbn; repeat (constructor; [cbn; lia|cbn; lia|]); constructor; cbn; lia|split; vm_compute; reflexivity]].
  repeat (apply Forall2_cons || apply Forall2_nil); cbn [widthLine].
  - right. exists (ascii " EastAsianWidth-15.0.0.txt"). reflexivity.
  - left. reflexivity.
  - exists (ascii "0020"), (ascii "          # Zs         SPACE"). split; [apply rg_one; code|]. split; [split; [discriminate|repeat constructor]|]. split; reflexivity.
  - exists (ascii "00A1"), (ascii "           # Po         INVERTED EXCLAMATION MARK"). split; [apply rg_one; code|]. split; [split; [discriminate|repeat constructor]|]. split; reflexivity.
  - exists (ascii "0300..036F"), (ascii "     # Mn   [112] COMBINING GRAVE ACCENT..COMBINING LATIN SMALL LETTER X").
    split; [change (ascii "0300..036F") with (ascii "0300" ++ ascii ".." ++ ascii "036F"); apply rg_two; code|].
    split; [split; [discriminate|repeat constructor]|]. split; reflexivity.
  - exists (ascii "1100..115F"), []. split; [change (ascii "1100..115F") with (ascii "1100" ++ ascii ".." ++ ascii "115F"); apply rg_two; code|].
    split; [split; [discriminate|repeat constructor]|]. split; [exact I|reflexivity].
  - exists (ascii "3000"), (ascii "           # Zs         IDEOGRAPHIC SPACE"). split; [apply rg_one; code|]. split; [split; [discriminate|repeat constructor]|]. split; reflexivity.
Qed.
Definition emojiLines : list (list rune) := map ascii
  ["0023          ; Emoji                # E0.0   [1] (#)       hash sign"%text; "00A9          ; Extended_Pictographic# E0.6   [1]       copyright"%text;
   "203C          ; Extended_Pictographic# E0.6   [1]       double exclamation mark"%text; "2194..2199    ; Extended_Pictographic# E0.6   [6]   left-right arrow"%text].
Example C81_ex_emoji : emojiFile (flat_map (fun l => l ++ [10]) emojiLines) = [(0x203c, 0x203c); (0x2194, 0x2199)] /\
  emojiText (nth 3 emojiLines []) (Some (0x2194, 0x2199)).
Proof.
  split; [vm_compute; reflexivity|]. split; [|exists (ascii "2194..2199    ; "), (ascii "# E0.6   [6]   left-right arrow"); reflexivity].
  exists (ascii "2194..2199"), (ascii "    ; Extended_Pictographic# E0.6   [6]   left-right arrow").
  split; [change (ascii "2194..2199") with (ascii "2194" ++ ascii ".." ++ ascii "2199"); apply rg_two; code|]. split; reflexivity.
Qed.

(** C82: runes_tables.go is what the tool gives to go/format for these tables, with one blank line fewer *)
Theorem C82_shipped_file : exists a b, sourceOf (mkTables combining doublewidth ambiguous narrow neutral) emoji = a ++ [10] ++ b /\ tables_go = a ++ b.
Proof. exact shipped_file. Qed.
Print Assumptions C82_shipped_file.

(** and for any files where the runes have these classes *)
Theorem C82_regenerated : forall wlines wes wbs elines ees ebs,
  Forall lineOk wlines -> utf8s (flat_map (fun l => l ++ [10]) wlines) wbs -> Forall2 widthLine wlines wes -> sorted (map fst (given wes)) ->
  Forall lineOk elines -> utf8s (flat_map (fun l => l ++ [10]) elines) ebs -> Forall2 emojiText elines ees -> sorted (given ees) ->
  (forall r, (member r combining <-> listedAs wlines r (fun line _ => mentions line "COMBINING")) /\
    (member r doublewidth <-> listedAs wlines r (fun _ class => class = ascii "W" \/ class = ascii "F")) /\
    (member r ambiguous <-> listedAs wlines r (fun _ class => class = ascii "A")) /\
    (member r narrow <-> listedAs wlines r (fun _ class => class = ascii "Na")) /\
    (member r neutral <-> listedAs wlines r (fun _ class => class = ascii "N")) /\
    (member r emoji <-> listedEmoji elines r)) ->
  exists a b, buildTables wbs ebs = a ++ [10] ++ b /\ tables_go = a ++ b.
Proof. exact regenerated. Qed.
Print Assumptions C82_regenerated.
