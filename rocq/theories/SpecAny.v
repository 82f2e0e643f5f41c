(** Any tokens: what is text and what is formatting in them. *)
From Verif Require Import Base Unicode SpecAnsi SpecFormat.

(** The text of a token: everything but the sequences that start or stop formatting. *)
Definition keptText (items : list item) : list rune :=
  flat_map (fun i => match i with Chr l | Ctl Other l => l | Ctl _ _ => [] end) items.
(** The sequences that start or stop formatting. *)
Definition formatting (items : list item) : list (list rune) :=
  flat_map (fun i => match i with Ctl Start l | Ctl Stop l => [l] | _ => [] end) items.

(** What a line breaker may add to the text: spaces, and hyphens if they are rendered. *)
Definition added (rh : bool) : list (list rune) := [32] :: if rh then [[45]] else [].
