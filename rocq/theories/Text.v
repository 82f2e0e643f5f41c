(** String literals as lists of bytes, for the data files. *)
From Coq Require Import Strings.Byte.
From Verif Require Import Base.

Inductive text := Text (l : list Byte.byte).
Definition textOf (l : list Byte.byte) : text := Text l.
Definition ofText (t : text) : list Byte.byte := match t with Text l => l end.
Declare Scope text_scope.
Delimit Scope text_scope with text.
String Notation text textOf ofText : text_scope.

Definition textBytes (t : text) : list Z := map (fun b => Z.of_N (Byte.to_N b)) (ofText t).
