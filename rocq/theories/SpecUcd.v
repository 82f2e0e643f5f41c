(** The lines of EastAsianWidth.txt and emoji-data.txt, and the Go source of a table. *)
From Verif Require Import Base Unicode Text Tables.
Bind Scope text_scope with text.
Definition ascii (t : text) : list rune := textBytes t.

(** A number in base 16 *)
Definition digit (r : rune) (v : Z) : Prop :=
  (48 <= r <= 57 /\ v = r - 48) \/ (65 <= r <= 70 /\ v = r - 55) \/ (97 <= r <= 102 /\ v = r - 87).
Inductive numeral : list rune -> Z -> Prop :=
| num_one r v : digit r v -> numeral [r] v
| num_more l z r v : numeral l z -> digit r v -> numeral (l ++ [r]) (16 * z + v).
Definition codePoint (l : list rune) (z : Z) : Prop := numeral l z /\ z <= 0x10ffff.
(** A code point, or a range lo..hi *)
Inductive range : list rune -> interval -> Prop :=
| rg_one l z : codePoint l z -> range l (z, z)
| rg_two l z l' z' : codePoint l z -> codePoint l' z' -> range (l ++ ascii ".." ++ l') (z, z').
Definition word (w : list rune) : Prop := w <> [] /\ Forall (fun r => isSpace r = false) w.
(** nothing, or something after a space *)
Definition apart (rest : list rune) : Prop := match rest with [] => True | r :: _ => isSpace r = true end.

(** Version 15.0: no space before the semicolon, none before the class *)
Definition widthEntry (line : list rune) (iv : interval) (class : list rune) : Prop :=
  exists l rest, range l iv /\ word class /\ apart rest /\ line = l ++ ascii ";" ++ class ++ rest.
Definition mentions (line : list rune) (t : text) : Prop := exists a b, line = a ++ ascii t ++ b.
Definition emojiEntry (line : list rune) (iv : interval) : Prop := exists l rest, range l iv /\ apart rest /\ line = l ++ rest.
Definition comment (line : list rune) : Prop := line = [] \/ exists l, line = ascii "#" ++ l.

(** The entries of a file, [None] for comments *)
Definition widthLine (line : list rune) (e : option (interval * list rune)) : Prop :=
  match e with None => comment line | Some (iv, class) => widthEntry line iv class end.
Definition emojiText (line : list rune) (e : option interval) : Prop :=
  match e with
  | None => comment line \/ ~ mentions line "Extended_Pictographic"
  | Some iv => emojiEntry line iv /\ mentions line "Extended_Pictographic"
  end.
Fixpoint given {X} (l : list (option X)) : list X :=
  match l with [] => [] | Some x :: l' => x :: given l' | None :: l' => given l' end.

(** The Go source of a table: the text without white space. *)
Definition dense (l : list rune) : list rune := filter (fun r => negb (isSpace r)) l.
Definition rangeSource (iv : interval) (e : list rune) : Prop :=
  exists a b, numeral a (fst iv) /\ numeral b (snd iv) /\ e = ascii "{0x" ++ a ++ ascii ",0x" ++ b ++ ascii "},".
Definition tableSource (v : text) (t : table) (src : list rune) : Prop :=
  exists es, Forall2 rangeSource t es /\ dense src = ascii "var" ++ ascii v ++ ascii "=table{" ++ concat es ++ ascii "}".

(** The rune [r] is in an entry of the file, with [P] of its line and class *)
Definition listedAs (lines : list (list rune)) (r : rune) (P : list rune -> list rune -> Prop) : Prop :=
  exists line iv class, In line lines /\ widthEntry line iv class /\ fst iv <= r <= snd iv /\ P line class.
Definition listedEmoji (lines : list (list rune)) (r : rune) : Prop :=
  exists line iv, In line lines /\ emojiEntry line iv /\ mentions line "Extended_Pictographic" /\ fst iv <= r <= snd iv /\ 0xff <= snd iv.
