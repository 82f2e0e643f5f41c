(** Membership in interval tables and sums, independently of the code. *)
From Verif Require Import Base Tables.

Definition inInterval (r : rune) (iv : interval) : Prop := fst iv <= r <= snd iv.

Definition member (r : rune) (t : table) : Prop := exists iv, In iv t /\ inInterval r iv.

(** Intervals are non-empty, in increasing order and do not overlap. *)
Inductive sorted : table -> Prop :=
| sorted_nil : sorted []
| sorted_one iv : fst iv <= snd iv -> sorted [iv]
| sorted_cons a b t : fst a <= snd a -> snd a < fst b -> sorted (b :: t) -> sorted (a :: b :: t).

Definition zsum (l : list Z) : Z := fold_right Z.add 0 l.

(** Columns taken by a rune. [east]: East-Asian mode, with ambiguous runes of width [amb] and, if [skip], wide emojis. *)
Definition scalar (r : rune) : Prop := 0 <= r < 0xd800 \/ 0xe000 <= r <= 0x10ffff.
Definition invisible (r : rune) : Prop := ~ scalar r \/ r = 0xfffd \/ member r nonprint \/ member r combining.
Definition ordinary (r : rune) : Prop := ~ invisible r /\ r <> 0x2e3a /\ r <> 0x2e3b.
Inductive columns (east skip : bool) (amb : Z) (r : rune) : Z -> Prop :=
| col_invisible : invisible r -> columns east skip amb r 0
| col_two_em_dash : r = 0x2e3a -> columns east skip amb r 3
| col_three_em_dash : r = 0x2e3b -> columns east skip amb r 4
| col_narrow : ordinary r -> member r narrow -> columns east skip amb r 1
| col_wide : ordinary r -> ~ member r narrow -> member r doublewidth -> columns east skip amb r 2
| col_usual : ordinary r -> ~ member r narrow -> ~ member r doublewidth -> east = false -> columns east skip amb r 1
| col_ambiguous : ordinary r -> ~ member r narrow -> ~ member r doublewidth -> east = true -> member r ambiguous ->
    columns east skip amb r amb
| col_emoji : ordinary r -> ~ member r narrow -> ~ member r doublewidth -> east = true -> ~ member r ambiguous ->
    skip = true -> member r emoji -> columns east skip amb r 2
| col_other : ordinary r -> ~ member r narrow -> ~ member r doublewidth -> east = true -> ~ member r ambiguous ->
    skip = false \/ ~ member r emoji -> columns east skip amb r 1.

(** The value an option list sets: that of the last option of the kind, or the default. *)
Definition setting {O T} (pick : O -> option T) (default : T) (opts : list O) (v : T) : Prop :=
  (Forall (fun o => pick o = None) opts /\ v = default) \/
  exists a o b, opts = a ++ o :: b /\ pick o = Some v /\ Forall (fun o => pick o = None) b.
