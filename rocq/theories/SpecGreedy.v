(** Which layouts a line breaker can choose that only remembers, for each place where a line may end, the longest line of
    each class: independently of the line breaker. *)
From Verif Require Import Base Arith SpecKP.

Section Greedy.
Variable rh softOn : bool.
Variable m : list rune -> Z.
Variable sp hy : Z.
Variable A : arith.
Variable tol : F A.
Variable W : Z.
Variable fs : list frag.

(** The line made of the fragments k to j. *)
Definition piece (k j : nat) : list frag := skipn k (firstn (S j) fs).
Definition isLast (j : nat) : bool := (S j =? length fs)%nat.
Definition fits (k j : nat) : bool := lineOk rh m sp hy A tol W (k =? 0)%nat (isLast j) (piece k j).
Definition endsAt (j : nat) : Prop := exists f, nth_error fs j = Some f /\ (isLast j = true \/ cuttable softOn f = true).

(** Places where a line can start. *)
Inductive starts : nat -> Prop :=
| st_first : starts 0
| st_next : forall k j, starts k -> (k <= j)%nat -> endsAt j -> isLast j = false -> fits k j = true -> starts (S j).
Definition line (k j : nat) : Prop := starts k /\ (k <= j)%nat /\ endsAt j /\ fits k j = true.

(** The rank of a line: how much it must be stretched. 0: a line as wide as asked for, cut at a blank after a word. *)
Definition slack (k j : nat) : Z := W - lineWidth rh m sp hy (piece k j).
Definition stretch (k j : nat) : Z := lineStretch rh (k =? 0)%nat (isLast j) (piece k j).
Definition afterWord (j : nat) : bool := match nth_error fs j with Some f => isSpaced f && negb (f_mark f) | None => false end.
Definition tightness (k j : nat) : Z :=
  if (slack k j =? 0) || (2 * slack k j <=? stretch k j) then 1 else if slack k j <=? stretch k j then 2 else 3.
Definition rank (k j : nat) : Z := if afterWord j && (slack k j =? 0) then 0 else tightness k j.

(** A line is kept if it is the longest of its rank, among those ending at the same place; a line of rank 0 supersedes
    the others. *)
Definition chosen (k j : nat) : Prop :=
  line k j /\ (forall k', line k' j -> rank k' j = rank k j -> (k <= k')%nat) /\
  ((exists k', line k' j /\ rank k' j = 0) -> rank k j = 0).

Inductive greedy : nat -> list (list frag) -> Prop :=
| gr_last : forall k j, chosen k j -> isLast j = true -> greedy k [piece k j]
| gr_cut : forall k j lines, chosen k j -> isLast j = false -> greedy (S j) lines -> greedy k (piece k j :: lines).
End Greedy.
