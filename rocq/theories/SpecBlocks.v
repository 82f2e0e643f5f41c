(** Formatted runs that follow each other: groups of adjacent runs. *)
From Verif Require Import Base SpecAttr.

Definition startOf (g : seg) : list rune := match g with Plain _ => [] | Ctx s _ _ _ => s end.
Definition stopOf (g : seg) : list rune := match g with Plain _ => [] | Ctx _ _ _ e => e end.
(** the formatted runs a document begins or ends with *)
Fixpoint leading (gs : list seg) : list seg :=
  match gs with
  | g :: gs' => if isCtx g then g :: leading gs' else []
  | [] => []
  end.
Definition trailing (gs : list seg) : list seg := rev (leading (rev gs)).

(** [overlies act fmt]: the formattings in force include the ones wanted, and there is none if none is wanted. *)
Definition overlies (act fmt : formats) : Prop := incl fmt act /\ (fmt = [] -> act = []).
(** same text, formattings as above *)
Definition shownOver (x y : list rune * formats) : Prop := fst x = fst y /\ overlies (snd x) (snd y).
