(** terminal/runes: options.go, lookup.go, width.go. *)
From Verif Require Import Base Tables.

(** Models Go [utf8.ValidRune] (unicode/utf8). *)
Definition validRune (r : rune) : bool :=
  ((0 <=? r) && (r <? 0xd800)) || ((0xdfff <? r) && (r <=? 0x10ffff)).

(** [utf8.RuneError] *)
Definition runeError : rune := 0xfffd.

(** Models [options] (terminal/runes/options.go:7-11). Go's [int] is [Z]: no overflow. *)
Record wopts := mkWopts {
  eastAsian : bool;
  skipStrictEmojiNeutral : bool;
  defaultAsianAmbiguousWidth : Z
}.

(** Models [defaultOptions] (terminal/runes/options.go:15-19). *)
Definition defaultWopts : wopts := mkWopts false false 2.

(** The three [Option] constructors (terminal/runes/options.go:35-61). The [options] type is not exported,
    so callers have no other way to make a (non-nil) Option. *)
Inductive wopt :=
| WithEastAsian (b : bool)
| WithSkipStrictEmojiNeutral (b : bool)
| WithEastAsianAmbiguousWidth (w : Z).

Definition applyWopt (o : wopts) (x : wopt) : wopts :=
  match x with
  | WithEastAsian b => mkWopts b (skipStrictEmojiNeutral o) (defaultAsianAmbiguousWidth o)
  | WithSkipStrictEmojiNeutral b => mkWopts (eastAsian o) b (defaultAsianAmbiguousWidth o)
  | WithEastAsianAmbiguousWidth w => mkWopts (eastAsian o) (skipStrictEmojiNeutral o) w
  end.

(** Models [optionsWithDefaults] (terminal/runes/options.go:63-75). *)
Definition optionsWithDefaults (opts : list wopt) : wopts := fold_left applyWopt opts defaultWopts.

(** [t[i]]: panics out of range. *)
Definition tabAt (t : table) (i : Z) : go interval :=
  if i <? 0 then Panic
  else match nth_error t (Z.to_nat i) with Some x => Ret x | None => Panic end.

(** Models the loop of [inTable] (terminal/runes/lookup.go:76-87). Running out of fuel is [Panic];
    the theorems show that it never happens. *)
Fixpoint inTable_loop (fuel : nat) (r : rune) (t : table) (bot top : Z) : go bool :=
  match fuel with
  | O => Panic
  | S fuel' =>
      if bot <=? top
      then
        let mid := Z.shiftr (bot + top) 1 in
        let! iv := tabAt t mid in
        if snd iv <? r then inTable_loop fuel' r t (mid + 1) top
        else if r <? fst iv then inTable_loop fuel' r t bot (mid - 1)
        else Ret true
      else Ret false
  end.

(** Models [inTable] (terminal/runes/lookup.go:68-90). *)
Definition inTable (r : rune) (t : table) : go bool :=
  let! iv0 := tabAt t 0 in
  if r <? fst iv0 then Ret false
  else inTable_loop (S (length t)) r t 0 (zlen t - 1).

(** Models [inTables] (terminal/runes/lookup.go:58-66). *)
Fixpoint inTables (r : rune) (ts : list table) : go bool :=
  match ts with
  | [] => Ret false
  | t :: ts' => let! b := inTable r t in if b then Ret true else inTables r ts'
  end.

(** Models [IsAmbiguous] (terminal/runes/width.go:69-71). *)
Definition isAmbiguous (r : rune) : go bool := inTable r ambiguous.

(** Models [runeWidth] (terminal/runes/width.go:73-109). *)
Definition runeWidth (r : rune) (o : wopts) : go Z :=
  if negb (validRune r) || (r =? runeError) then Ret 0
  else if r <? 0x20 then Ret 0
  else if ((0x7f <=? r) && (r <=? 0x9f)) || (r =? 0xad) then Ret 0
  else if (r <? 0x300) && negb (eastAsian o) then Ret 1
  else if r =? 0x2e3b then Ret 4
  else if r =? 0x2e3a then Ret 3
  else
    let! z := inTables r [nonprint; combining] in
    if z then Ret 0 else
    let! n := inTable r narrow in
    if n then Ret 1 else
    let! d := inTable r doublewidth in
    if d then Ret 2 else
    if negb (eastAsian o) then Ret 1 else
    let! a := inTables r [ambiguous] in
    if a then Ret (defaultAsianAmbiguousWidth o) else
    if skipStrictEmojiNeutral o
    then let! e := inTables r [emoji; narrow] in if e then Ret 2 else Ret 1
    else Ret 1.

(** [uint8(x)] and byte-wide shifts. *)
Definition u8 (x : Z) : Z := x mod 256.

(** The byte packed from four widths (terminal/runes/lookup.go:49-52). *)
Definition pack (x0 x1 x2 x3 : Z) : Z :=
  Z.lor (Z.lor (Z.lor (u8 x0) (u8 (Z.shiftl (u8 x1) 2))) (u8 (Z.shiftl (u8 x2) 4))) (u8 (Z.shiftl (u8 x3) 6)).

(** Size of the table: [max>>2] (terminal/runes/lookup.go:38-40). *)
Definition lookupSize : Z := Z.shiftr 0x110000 2.

(** Body of the loop of [buildLookupTable] for index [i] (terminal/runes/lookup.go:41-53). *)
Definition lookupEntry (o : wopts) (i : Z) : go Z :=
  let i32 := i * 4 in
  let! x0 := runeWidth i32 o in
  let! x1 := runeWidth (i32 + 1) o in
  let! x2 := runeWidth (i32 + 2) o in
  let! x3 := runeWidth (i32 + 3) o in
  Ret (pack x0 x1 x2 x3).

(** The finished table [lookupTable] of [initLookupTable] (terminal/runes/lookup.go:31-35) as a function of
    the index: an out-of-range index panics. (Its construction step by step is in Once.v.) *)
Definition lookupTable (i : Z) : go Z :=
  if (0 <=? i) && (i <? lookupSize) then lookupEntry (optionsWithDefaults []) i else Panic.

(** [(lookupTable[r>>2] >> ((r % 4) * 2)) & 3] (terminal/runes/width.go:32-34, 53): [%] truncates towards
    zero, a negative shift count panics. *)
Definition unpack (byte r : Z) : go Z :=
  let sh := Z.rem r 4 * 2 in
  if sh <? 0 then Panic else Ret (Z.land (Z.shiftr byte sh) 3).
Definition cachedWidth (r : rune) : go Z :=
  let! b := lookupTable (Z.shiftr r 2) in unpack b r.

(** Models [Width] (terminal/runes/width.go:16-35). *)
Definition width (r : rune) (opts : list wopt) : go Z :=
  if negb (validRune r) || (r =? runeError) then Ret 0
  else if r =? 0x2e3b then Ret 4
  else
    let o := optionsWithDefaults opts in
    if eastAsian o then runeWidth r o else cachedWidth r.

(** Models the accumulating loops of [Widths] (terminal/runes/width.go:44-46 and 52-54). *)
Fixpoint sumWidths (f : rune -> go Z) (rs : list rune) (acc : Z) : go Z :=
  match rs with
  | [] => Ret acc
  | r :: rs' => let! w := f r in sumWidths f rs' (acc + w)
  end.

(** Models [Widths] (terminal/runes/width.go:40-57). *)
Definition widths (rs : list rune) (opts : list wopt) : go Z :=
  let o := optionsWithDefaults opts in
  if eastAsian o then sumWidths (fun r => runeWidth r o) rs 0
  else sumWidths cachedWidth rs 0.
