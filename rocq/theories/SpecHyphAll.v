(** What BreakWord looks up and keeps, for any options. *)
From Verif Require Import Base SpecHyph.

(** A pattern with these digits is looked up at boundary [a] of the dotted word: one of the first [n] boundaries, and not the
    dot that opens the word alone. *)
Definition looked (rules : list rune -> option (list Z)) (word : list rune) (n a : nat) (digits : list Z) : Prop :=
  exists pre k post, word = pre ++ k ++ post /\ length pre = a /\ (a < n)%nat /\ k <> [] /\ (a = 0%nat -> (2 <= length k)%nat) /\
    rules k = Some digits.
(** It gives the digit [v] to boundary [j]. *)
Definition given (rules : list rune -> option (list Z)) (word : list rune) (n j : nat) (v : Z) : Prop :=
  exists a digits, looked rules word n a digits /\ (a <= j)%nat /\ nth_error digits (j - a) = Some v.
(** [f] is the greatest digit given to each boundary, 0 if there is none. *)
Definition greatestGiven (rules : list rune -> option (list Z)) (word : list rune) (n : nat) (f : nat -> Z) : Prop :=
  forall j, (forall v, given rules word n j v -> v <= f j) /\ 0 <= f j /\ (f j = 0 \/ given rules word n j (f j)).
(** The places where a word of [n] runes may be cut: an odd digit; not before the first rune; after the last one only if a digit
    is given to the place before the first; past 27 only if some digit is given further. *)
Definition mayCut (rules : list rune -> option (list Z)) (word : list rune) (n : nat) (f : nat -> Z) (i : nat) : Prop :=
  i <> 0%nat /\ Z.odd (f (S i)) = true /\ (i = n -> 0 < f 1%nat) /\
  ((i < 28)%nat \/ exists j v, (i + 2 <= j)%nat /\ given rules word n j v).
(** Cutting at the places kept; a place past the end of the word cannot be cut. *)
Definition cutOrPanic (w : list rune) (kept : list nat) : go (list (list rune)) :=
  if existsb (fun i => (length w <? i)%nat) kept then Panic else Ret (cutAt w 0 kept).
