(** What a terminal shows of a line with sequences. *)
From Verif Require Import Base SpecAnsi SpecAttr SpecKP SpecFormat SpecLines.

(** A start sequence adds a formatting to those in force, a stop sequence resets them all, the rest is displayed with the
    formattings in force; other sequences display nothing. *)
Fixpoint screen (act : formats) (is : list SpecAnsi.item) : list (list rune * formats) * formats :=
  match is with
  | [] => ([], act)
  | Chr l :: is' => let (d, a) := screen act is' in ((l, act) :: d, a)
  | Ctl Start s :: is' => screen (turnOn act s) is'
  | Ctl Stop _ :: is' => screen [] is'
  | Ctl Other _ :: is' => screen act is'
  end.

(** The passage a fragment comes from, with the passages before it. [o_last]: the fragment is the last one of its passage. *)
Record origin := mkOrigin { o_before : list passage; o_passage : passage; o_last : bool }.
Section Origins.
Variable cnt : passage -> nat.
Fixpoint originsFrom (pre : list passage) (p : passage) (k : nat) : list origin :=
  match k with
  | O => []
  | S k' => mkOrigin pre p (match k' with O => true | _ => false end) :: originsFrom pre p k'
  end.
Fixpoint origins (pre ps : list passage) : list origin :=
  match ps with
  | [] => []
  | p :: ps' => originsFrom pre p (cnt p) ++ origins (pre ++ [p]) ps'
  end.
End Origins.

(** Formattings a fragment may be shown with: its own, and maybe those of the formatted passages just before its passage. A
    plain fragment is shown with none. *)
Definition groupStarts (w : origin) : formats :=
  if isPlain (o_passage w) then [] else map p_start (trailingPassages (o_before w) ++ [o_passage w]).
Definition goodFormats (w : origin) (act : formats) : Prop :=
  incl act (groupStarts w) /\ (isPlain (o_passage w) = false -> In (p_start (o_passage w)) act).

(** The runes of a line: those of its fragments, the spaces between them and the hyphen that ends it, with the origin of
    each. A space inside a passage is of this passage; one between two passages has no origin. *)
Fixpoint lineCells (rh : bool) (l : list (frag * origin)) : list (rune * option origin) :=
  match l with
  | [] => []
  | [(f, w)] => map (fun c => (c, Some w)) (f_text f ++ if rh && isSoft f then [45] else [])
  | (f, w) :: l' => map (fun c => (c, Some w)) (f_text f) ++ (if isSpaced f then [(32, if o_last w then None else Some w)] else []) ++ lineCells rh l'
  end.
Definition goodCell (shown : list rune * formats) (c : rune * option origin) : Prop :=
  fst shown = [fst c] /\ match snd c with None => snd shown = [] | Some w => goodFormats w (snd shown) end.
(** The line is shown as wanted, and leaves no formatting in force. *)
Definition lineShown (u : Unicode.unicode) (rh : bool) (l : list rune) (pieces : list (frag * origin)) : Prop :=
  exists items cells, lexed u l items /\ screen [] items = (cells, []) /\ Forall2 goodCell cells (lineCells rh pieces).
(** What a text shows. *)
Definition displays (u : Unicode.unicode) (l : list rune) (cells : list (list rune * formats)) : Prop :=
  exists items act, lexed u l items /\ screen [] items = (cells, act).
(** It leaves no formatting in force. *)
Definition standsAlone (u : Unicode.unicode) (l : list rune) : Prop :=
  exists items cells, lexed u l items /\ screen [] items = (cells, []).
