(** The functions of Go's package [unicode] used by the code.

    Latin-1 (or ASCII) behaviour is concrete; beyond it the answer depends on the Unicode version
    of the Go toolchain and is an oracle: theorems hold for every [unicode] record. *)
From Verif Require Import Base.

Record unicode := mkUnicode {
  u_digit : rune -> bool;   (* unicode.Digit (Nd), runes above U+00FF *)
  u_punct : rune -> bool;   (* unicode.Punct (P), runes above U+00FF *)
  u_lower : rune -> rune    (* unicode.To(LowerCase), runes above U+007F *)
}.

(** Models Go [unicode.IsDigit] (unicode/digit.go): called at terminal/ansi/ansi.go:248,270 and
    wordbreak/hyphenator/dictionary.go:172. *)
Definition isDigit (u : unicode) (r : rune) : bool :=
  if r <=? 255 then (48 <=? r) && (r <=? 57) else u_digit u r.

(** Latin-1 punctuation: entries of Go's unicode.properties table with bit pP. *)
Definition latin1_punct : list rune :=
  [33;34;35;37;38;39;40;41;42;44;45;46;47;58;59;63;64;91;92;93;95;123;125;
   161;167;171;182;183;187;191].

(** Models Go [unicode.IsPunct] (unicode/graphic.go): called at wordbreak/punctuator/punctuator.go:41.
    The comparison is unsigned in Go, so negative runes go to the table (and are not in it). *)
Definition isPunct (u : unicode) (r : rune) : bool :=
  if (0 <=? r) && (r <=? 255) then existsb (Z.eqb r) latin1_punct
  else if r <? 0 then false else u_punct u r.

(** Models Go [unicode.ToLower] (unicode/letter.go): called at wordbreak/hyphenator/hyphenator.go:112
    and dictionary.go:181. *)
Definition toLower (u : unicode) (r : rune) : rune :=
  if (0 <=? r) && (r <=? 127)
  then (if (65 <=? r) && (r <=? 90) then r + 32 else r)
  else u_lower u r.

(** Models Go [unicode.IsSpace] (unicode/graphic.go), passed at wordbreak/tokenizer/tokenizer.go:24.
    Latin-1 cases from the switch, the rest from unicode.White_Space. *)
Definition isSpace (r : rune) : bool :=
  existsb (Z.eqb r) [9;10;11;12;13;32;133;160;5760;8232;8233;8239;8287;12288]
  || ((8192 <=? r) && (r <=? 8202)).

(** Models [runes.In(unicode.Hyphen).Contains] (golang.org/x/text/runes, unicode.Hyphen table), built at
    wordbreak/hyphenator/hyphenator.go:12 and wordbreak/punctuator/punctuator.go:12. *)
Definition hyphen_table : list rune :=
  [45; 173; 1418; 6150; 8208; 8209; 11799; 12539; 65123; 65293; 65381].
Definition isHyphenRune (r : rune) : bool := existsb (Z.eqb r) hyphen_table.
