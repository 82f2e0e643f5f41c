(** UTF-8 as defined by the Unicode standard (table 3-6 and 3-7), by arithmetic. *)
From Verif Require Import Base.

(** Unicode scalar values. *)
Definition scalar (r : rune) : Prop := 0 <= r <= 0x10ffff /\ ~ (0xd800 <= r <= 0xdfff).

Definition six (x : Z) : Prop := 0 <= x < 64.

(** [utf8 r bs]: [bs] is the UTF-8 encoding of the scalar value [r]. *)
Inductive utf8 : rune -> list Z -> Prop :=
| utf8_1 a : 0 <= a < 0x80 -> utf8 a [a]
| utf8_2 a b : six b -> 0x80 <= a * 64 + b < 0x800 -> utf8 (a * 64 + b) [0xc0 + a; 0x80 + b]
| utf8_3 a b c : six b -> six c ->
    0x800 <= a * 4096 + b * 64 + c < 0x10000 -> ~ (0xd800 <= a * 4096 + b * 64 + c <= 0xdfff) ->
    utf8 (a * 4096 + b * 64 + c) [0xe0 + a; 0x80 + b; 0x80 + c]
| utf8_4 a b c d : six b -> six c -> six d ->
    0x10000 <= a * 262144 + b * 4096 + c * 64 + d <= 0x10ffff ->
    utf8 (a * 262144 + b * 4096 + c * 64 + d) [0xf0 + a; 0x80 + b; 0x80 + c; 0x80 + d].

(** [utf8s rs bs]: [bs] is the UTF-8 encoding of the text [rs]. *)
Inductive utf8s : list rune -> list Z -> Prop :=
| utf8s_nil : utf8s [] []
| utf8s_cons r rs bs bss : utf8 r bs -> utf8s rs bss -> utf8s (r :: rs) (bs ++ bss).

(** Invalid runes are replaced by U+FFFD. *)
Definition replaced (r r' : rune) : Prop := (scalar r /\ r' = r) \/ (~ scalar r /\ r' = 0xfffd).

Definition int32 (r : Z) : Prop := -2147483648 <= r < 2147483648.
Definition isByte (b : Z) : Prop := 0 <= b < 256.
