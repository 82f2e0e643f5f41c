(** terminal/runes/build_tables.go: the tool that makes the width tables. Here a line of the
    file is given by its range, its class and whether its text has the word COMBINING; Ucd.v has the reading and the printing. *)
From Verif Require Import Base Tables.

Definition setLo (lo : Z) (t : table) : table := match t with [] => [] | iv :: t' => (lo, snd iv) :: t' end.
(** Models [shapeup] (build_tables.go:101-114). [append(arr[:i], arr[i+1:]...)] moves the tail in place; nothing else holds
    the array. A step moves [i] or shortens the list, so the length of the list is enough fuel. No range ends at 2^31-1. *)
Fixpoint shapeup_loop (fuel i : nat) (arr : table) : table :=
  match fuel with
  | O => arr
  | S fuel' =>
      match nth_error arr i, nth_error arr (S i) with
      | Some a, Some b =>
          if snd a + 1 =? fst b then shapeup_loop fuel' i (firstn i arr ++ setLo (fst a) (skipn (S i) arr))
          else shapeup_loop fuel' (S i) arr
      | _, _ => arr
      end
  end.
Definition shapeup (p : table) : table := shapeup_loop (length p) 0 p.

(** The classes of build_tables.go:37-42; any other text is ignored. *)
Inductive widthClass := ClassA | ClassF | ClassH | ClassN | ClassNa | ClassW | ClassNone.
Record propLine := mkLine { pl_range : interval; pl_class : widthClass; pl_combining : bool }.

(** Models [eastasian] (build_tables.go:116-196): the tables combining, doublewidth, ambiguous, narrow, neutral. *)
Definition select (f : propLine -> bool) (ls : list propLine) : table := shapeup (map pl_range (filter f ls)).
Record widthTables := mkTables { wt_combining : table; wt_doublewidth : table; wt_ambiguous : table; wt_narrow : table; wt_neutral : table }.
Definition isWide (c : widthClass) : bool := match c with ClassW | ClassF => true | _ => false end.
Definition isAmb (c : widthClass) : bool := match c with ClassA => true | _ => false end.
Definition isNa (c : widthClass) : bool := match c with ClassNa => true | _ => false end.
Definition isN (c : widthClass) : bool := match c with ClassN => true | _ => false end.
Definition eastasian (ls : list propLine) : widthTables :=
  mkTables (select pl_combining ls) (select (fun l => isWide (pl_class l)) ls) (select (fun l => isAmb (pl_class l)) ls)
           (select (fun l => isNa (pl_class l)) ls) (select (fun l => isN (pl_class l)) ls).

(** Models [emoji] (build_tables.go:198-235), from the ranges of the lines with Extended_Pictographic. *)
Definition buildEmoji (rs : table) : table := shapeup (filter (fun iv => negb (snd iv <? 0xff)) rs).
