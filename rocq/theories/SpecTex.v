(** What TeX reads in a pattern file. *)
From Verif Require Import Base Unicode.

(** the part of a line before the comment *)
Fixpoint uncomment (l : list rune) : list rune :=
  match l with [] => [] | r :: l' => if r =? 37 then [] else r :: uncomment l' end.
(** the words of a text *)
Definition consWord (w : list rune) (ws : list (list rune)) : list (list rune) := match w with [] => ws | _ => w :: ws end.
Fixpoint splitWords (l : list rune) : list rune * list (list rune) :=
  match l with
  | [] => ([], [])
  | r :: l' => let (w, ws) := splitWords l' in if isSpace r then ([], consWord w ws) else (r :: w, ws)
  end.
Definition words (l : list rune) : list (list rune) := let (w, ws) := splitWords l in consWord w ws.

(** [l] is [x] without the white space around it *)
Definition trimmed (x l : list rune) : Prop :=
  exists a b, x = a ++ l ++ b /\ Forall (fun r => isSpace r = true) (a ++ b) /\
    (forall r l', l = r :: l' -> isSpace r = false) /\ (forall r l', l = l' ++ [r] -> isSpace r = false).

(** The words of a file between backslash, the name, an opening brace and the next closing brace, comments left out. *)
Fixpoint afterPrefix (p l : list rune) : option (list rune) :=
  match p, l with
  | [], _ => Some l
  | c :: p', r :: l' => if c =? r then afterPrefix p' l' else None
  | _ :: _, [] => None
  end.
Fixpoint afterFirst (p l : list rune) : list rune :=
  match afterPrefix p l with
  | Some rest => rest
  | None => match l with [] => [] | _ :: l' => afterFirst p l' end
  end.
Fixpoint upTo (c : rune) (l : list rune) : list rune :=
  match l with [] => [] | r :: l' => if r =? c then [] else r :: upTo c l' end.
Definition texGroup (name : list rune) (lines : list (list rune)) : list (list rune) :=
  words (upTo 125 (afterFirst (92 :: name ++ [123]) (flat_map (fun l => uncomment l ++ [10]) lines))).
