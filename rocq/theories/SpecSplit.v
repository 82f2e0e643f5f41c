(** What "splitting" means, independently of the code. *)
From Verif Require Import Base.

(** [fields f text tokens]: [tokens] are the maximal runs of non-separators of [text], in order. *)
Inductive fields (f : rune -> bool) : list rune -> list (list rune) -> Prop :=
| fields_none s :
    Forall (fun r => f r = true) s -> fields f s []
| fields_one s t rest ts :
    Forall (fun r => f r = true) s ->                       (* leading separators, dropped *)
    t <> [] -> Forall (fun r => f r = false) t ->           (* a token *)
    (rest = [] \/ exists c r, rest = c :: r /\ f c = true) -> (* which extends as far as it can *)
    fields f rest ts ->
    fields f (s ++ t ++ rest) (t :: ts).

(** [pieces f text parts]: like [fields], but separators are kept, each as a part of its own. *)
Inductive pieces (f : rune -> bool) : list rune -> list (list rune) -> Prop :=
| pieces_nil : pieces f [] []
| pieces_sep c w ps : f c = true -> pieces f w ps -> pieces f (c :: w) ([c] :: ps)
| pieces_txt t w ps :
    t <> [] -> Forall (fun r => f r = false) t ->
    (w = [] \/ exists c r, w = c :: r /\ f c = true) ->
    pieces f w ps -> pieces f (t ++ w) (t :: ps).

(** Words joined by one separator. *)
Fixpoint joinWith (sep : rune) (ws : list (list rune)) : list rune :=
  match ws with
  | [] => []
  | [w] => w
  | w :: ws' => w ++ sep :: joinWith sep ws'
  end.

(** The pieces, as a function. *)
Fixpoint splitAt (f : rune -> bool) (w : list rune) : list (list rune) :=
  match w with
  | [] => []
  | c :: w' =>
      if f c then [c] :: splitAt f w'
      else match splitAt f w' with
           | (d :: p) :: ps => if f d then [c] :: (d :: p) :: ps else (c :: d :: p) :: ps
           | ps => [c] :: ps
           end
  end.
(** A piece that is one separator. *)
Definition single (f : rune -> bool) (p : list rune) : bool := match p with [r] => f r | _ => false end.
