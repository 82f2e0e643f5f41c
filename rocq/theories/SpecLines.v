(** The lines of a formatted paragraph. *)
From Verif Require Import Base SpecKP SpecAnsi SpecFormat.

(** What is written around a fragment: before it, after it, and if a line ends just after it, at the start of the next
    line and at the end of this one. *)
Record mark := mkMark { m_before : list rune; m_after : list rune; m_resume : list rune; m_suspend : list rune }.

(** [k] fragments between a start and a stop sequence *)
Fixpoint marksFrom (start stop resume suspend : list rune) (k : nat) : list mark :=
  match k with
  | O => []
  | S k' => match k' with
            | O => [mkMark start stop [] []]
            | _ => mkMark start [] resume suspend :: marksFrom [] stop resume suspend k'
            end
  end.
(** the formatted passages a list of passages begins or ends with *)
Fixpoint leadingPassages (ps : list passage) : list passage :=
  match ps with
  | p :: ps' => if isPlain p then [] else p :: leadingPassages ps'
  | [] => []
  end.
Definition trailingPassages (ps : list passage) : list passage := rev (leadingPassages (rev ps)).

Section Marks.
(** number of fragments of a passage *)
Variable cnt : passage -> nat.
(** [pre], [post]: the passages before and after. A passage split over two lines is closed and reopened together with the
    formatted passages next to it. *)
Definition passageMarks (pre : list passage) (p : passage) (post : list passage) : list mark :=
  if isPlain p then marksFrom [] [] [] [] (cnt p)
  else marksFrom (p_start p) (p_stop p) (flat_map p_start (trailingPassages pre ++ [p]))
         (flat_map p_stop (trailingPassages pre ++ p :: leadingPassages post)) (cnt p).
Fixpoint docMarks (pre ps : list passage) : list mark :=
  match ps with
  | [] => []
  | p :: ps' => passageMarks pre p ps' ++ docMarks (pre ++ [p]) ps'
  end.
End Marks.

(** The fragments of formatted tokens: those of the texts of the runs. *)
Section Formatted.
Variable punct dashes parts : list rune -> list (list rune).
Variable isMark isDash breakable : list rune -> bool.
Definition runsFrags (t : list run) : list frag :=
  flat_map (fun r => tokenFrags punct dashes parts isMark isDash breakable (r_text r)) t.
Fixpoint formattedParagraph (ts : list (list run)) : list frag :=
  match ts with
  | [] => []
  | [t] => endWith End_ (runsFrags t)
  | t :: ts' => endWith Space (runsFrags t) ++ formattedParagraph ts'
  end.
End Formatted.

Section Show.
Variable rh : bool.
Notation piece := (frag * mark)%type.
Definition pieceText (p : piece) : list rune := m_before (snd p) ++ f_text (fst p) ++ m_after (snd p).
Fixpoint lineBody (l : list piece) : list rune :=
  match l with
  | [] => []
  | [p] => pieceText p ++ (if rh && isSoft (fst p) then [45] else []) ++ m_suspend (snd p)
  | p :: l' => pieceText p ++ (if isSpaced (fst p) then [32] else []) ++ lineBody l'
  end.
Definition nextOpening (l : list piece) : list rune := match rev l with p :: _ => m_resume (snd p) | [] => [] end.
Fixpoint markedLines (opening : list rune) (lines : list (list piece)) : list (list rune) :=
  match lines with
  | [] => []
  | l :: lines' => (opening ++ lineBody l) :: markedLines (nextOpening l) lines'
  end.
(** The first passage is opened twice if it has several fragments. *)
Definition showDoc (lines : list (list piece)) : list (list rune) :=
  match concat lines with
  | p :: _ => markedLines (m_resume (snd p)) lines
  | [] => markedLines [] lines
  end.
End Show.
