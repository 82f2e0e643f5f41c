(** terminal/runes/build_tables.go: reading the files of the Unicode database, printing the tables. The download and
    go/format (main, lines 57-82) are outside. *)
From Verif Require Import Base Unicode Utf8 Text Tables Dict Strip BuildTables.

(** * fmt.Sscanf (fmt/scan.go), for the formats of build_tables.go. The input is a line, without newline. *)
(** One item of a format: %x, %s, a literal rune, a space. *)
Inductive fitem := FHex | FStr | FLit (c : rune) | FSpace.
Inductive fvalue := VNum (z : Z) | VStr (s : str).

(** Digits of base 16 (hexadecimalDigits in fmt/scan.go, then strconv.ParseInt) *)
Definition hexDigit (r : rune) : option Z :=
  if (48 <=? r) && (r <=? 57) then Some (r - 48)
  else if (97 <=? r) && (r <=? 102) then Some (r - 87)
  else if (65 <=? r) && (r <=? 70) then Some (r - 55)
  else None.
Fixpoint takeHex (acc : Z) (l : str) : Z * str :=
  match l with
  | [] => (acc, [])
  | r :: l' => match hexDigit r with Some d => takeHex (16 * acc + d) l' | None => (acc, l) end
  end.
Definition takeSign (l : str) : bool * str :=
  match l with [] => (false, []) | r :: l' => if r =? 45 then (true, l') else if r =? 43 then (false, l') else (false, l) end.
(** %x into a rune: spaces, an optional sign, digits, a value of 32 bits *)
Definition scanHex (l : str) : option (Z * str) :=
  let l := dropSpaces isSpace l in
  let (neg, l) := takeSign l in
  match l with
  | [] => None
  | r :: _ =>
      match hexDigit r with
      | None => None
      | Some _ =>
          let (n, l') := takeHex 0 l in
          let z := if neg then - n else n in
          if (- 2147483648 <=? z) && (z <=? 2147483647) then Some (z, l') else None
      end
  end.
(** %s: spaces, then the runes up to the next space or the end; at least one *)
Fixpoint takeWord (l : str) : str * str :=
  match l with
  | [] => ([], [])
  | r :: l' => if isSpace r then ([], l) else let (w, rest) := takeWord l' in (r :: w, rest)
  end.
Definition scanWord (l : str) : option (str * str) :=
  match dropSpaces isSpace l with [] => None | l' => Some (takeWord l') end.
(** Models doScanf and advance: the values read, and whether there is no error. A space of the format matches one
    space or more, or the end of the input. *)
Fixpoint sscanf (f : list fitem) (l : str) : list fvalue * bool :=
  match f with
  | [] => ([], true)
  | FHex :: f' => match scanHex l with Some (z, l') => let (vs, ok) := sscanf f' l' in (VNum z :: vs, ok) | None => ([], false) end
  | FStr :: f' => match scanWord l with Some (s, l') => let (vs, ok) := sscanf f' l' in (VStr s :: vs, ok) | None => ([], false) end
  | FLit c :: f' => match l with r :: l' => if r =? c then sscanf f' l' else ([], false) | [] => ([], false) end
  | FSpace :: f' =>
      match l with
      | [] => sscanf f' []
      | r :: l' => if isSpace r then sscanf f' (dropSpaces isSpace l') else ([], false)
      end
  end.

(** strings.Contains *)
Fixpoint contains (l p : str) : bool := hasPrefix l p || match l with [] => false | _ :: l' => contains l' p end.

(** * The two files *)
(** The formats of lines 135, 137, 213, 215 *)
Definition fRangeClass := [FHex; FLit 46; FLit 46; FHex; FLit 59; FStr; FSpace].
Definition fOneClass := [FHex; FLit 59; FStr; FSpace].
Definition fRange := [FHex; FLit 46; FLit 46; FHex; FSpace].
Definition fOne := [FHex; FSpace].

Definition str_ (t : text) : str := textBytes t.
Local Open Scope text_scope.
(** [switch codePointValue(class)] (build_tables.go:37-42, 151-172) *)
Definition classOf (s : str) : widthClass :=
  if list_eq_dec Z.eq_dec s (str_ "W") then ClassW
  else if list_eq_dec Z.eq_dec s (str_ "F") then ClassF
  else if list_eq_dec Z.eq_dec s (str_ "A") then ClassA
  else if list_eq_dec Z.eq_dec s (str_ "Na") then ClassNa
  else if list_eq_dec Z.eq_dec s (str_ "N") then ClassN
  else if list_eq_dec Z.eq_dec s (str_ "H") then ClassH
  else ClassNone.

(** Models the body of the loop of [eastasian] (build_tables.go:126-149) on one line; [None]: continue. *)
Definition eastasianLine (line : str) : option propLine :=
  if hasPrefix line (str_ "#") then None
  else
    let entry lo hi class := Some (mkLine (lo, hi) (classOf class) (contains line (str_ "COMBINING"))) in
    match sscanf fRangeClass line with
    | ([VNum lo; VNum hi; VStr class], true) => entry lo hi class
    | _ =>
        match sscanf fOneClass line with
        | ([VNum lo; VStr class], true) => entry lo lo class
        | _ => None
        end
    end.
(** Models the body of the loop of [emoji] (build_tables.go:203-220) on one line *)
Definition emojiLine (line : str) : option interval :=
  if hasPrefix line (str_ "#") then None
  else if negb (contains line (str_ "Extended_Pictographic")) then None
  else
    match sscanf fRange line with
    | ([VNum lo; VNum hi], true) => Some (lo, hi)
    | _ => match sscanf fOne line with ([VNum lo], true) => Some (lo, lo) | _ => None end
    end.
Definition keep {X Y} (f : X -> option Y) (l : list X) : list Y := flat_map (fun x => match f x with Some y => [y] | None => [] end) l.
(** Models [eastasian] and [emoji] from the bytes of the files to the tables *)
Definition eastasianFile (file : list byte) : widthTables := eastasian (keep eastasianLine (scanLines file)).
Definition emojiFile (file : list byte) : table := buildEmoji (keep emojiLine (scanLines file)).

(** * Printing *)
(** fmt's %04X of an int32: at least four digits, or three after a minus sign *)
Definition upperDigit (d : Z) : rune := if d <? 10 then 48 + d else 55 + d.
Fixpoint hexDigits (fuel : nat) (z : Z) (acc : str) : str :=
  match fuel with
  | O => acc
  | S fuel' => let acc := upperDigit (z mod 16) :: acc in if z / 16 =? 0 then acc else hexDigits fuel' (z / 16) acc
  end.
Definition padded (n : nat) (l : str) : str := repeat 48 (n - length l) ++ l.
Definition print04X (z : Z) : str := if z <? 0 then 45 :: padded 3 (hexDigits 8 (- z) []) else padded 4 (hexDigits 8 z []).

(** Models [generate] (build_tables.go:84-99); [i] is the loop variable *)
Definition printRange (iv : interval) : str := str_ "{0x" ++ print04X (fst iv) ++ str_ ", 0x" ++ print04X (snd iv) ++ str_ "},".
Fixpoint generate_loop (i : nat) (arr : table) : str :=
  match arr with
  | [] => []
  | [iv] => printRange iv
  | iv :: arr' => printRange iv ++ (if (i mod 3 =? 2)%nat then [10; 9] else [32]) ++ generate_loop (S i) arr'
  end.
Definition generate (v : str) (arr : table) : str := str_ "var " ++ v ++ str_ " = table{" ++ [10; 9] ++ generate_loop 0 arr ++ [10; 125; 10].
(** Models lines 175-193: [fmt.Fprint(out)] at line 185 prints nothing *)
Definition printTables (t : widthTables) : str :=
  generate (str_ "combining") (wt_combining t) ++ [10] ++ generate (str_ "doublewidth") (wt_doublewidth t) ++ [10] ++
  generate (str_ "ambiguous") (wt_ambiguous t) ++ generate (str_ "narrow") (wt_narrow t) ++ [10] ++
  generate (str_ "neutral") (wt_neutral t) ++ [10].
(** Models lines 46-54, 63 and 72: the source given to go/format *)
Definition header : str :=
  str_ "// Code generated by build_tables.go. DO NOT EDIT." ++ [10; 10] ++ str_ "package runes" ++ [10; 10] ++
  [10] ++ str_ "// unicode EastAsianWidth properties retrieved from https://unicode.org/Public/15.0.0/ucd/EastAsianWidth.txt" ++ [10] ++
  str_ "// unicode emoji properties retrieved from https://unicode.org/Public/15.0.0/ucd/emoji/emoji-data.txt" ++ [10; 10].
Definition sourceOf (t : widthTables) (e : table) : str := header ++ printTables t ++ generate (str_ "emoji") e.
Definition buildTables (widths emojis : list byte) : str := sourceOf (eastasianFile widths) (emojiFile emojis).
