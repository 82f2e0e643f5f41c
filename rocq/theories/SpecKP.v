(** What a paragraph laid out on lines is, independently of the line breaker. *)
From Verif Require Import Base Arith SpecSplit.

(** A paragraph is a sequence of unbreakable fragments; [f_joint] tells what comes after the fragment. [f_mark]: the
    fragment is a punctuation mark or an explicit hyphen. *)
Inductive joint := Glued | Soft | Space | End_.
Record frag := mkFrag { f_text : list rune; f_mark : bool; f_joint : joint }.
Definition isSoft (f : frag) : bool := match f_joint f with Soft => true | _ => false end.
Definition isSpaced (f : frag) : bool := match f_joint f with Space => true | _ => false end.

(** Fragments of a token. [punct] cuts punctuation marks, [dashes] explicit hyphens, [parts] hyphenates. *)
Section Fragments.
Variable punct dashes parts : list rune -> list (list rune).
Variable isMark isDash : list rune -> bool.
Variable breakable : list rune -> bool.

Fixpoint partFrags (ps : list (list rune)) : list frag :=
  match ps with
  | [] => []
  | [p] => [mkFrag p false Glued]
  | p :: ps' => mkFrag p false Soft :: partFrags ps'
  end.
Definition wordFrags (w : list rune) : list frag :=
  if isDash w then [mkFrag w true Glued] else partFrags (parts w).
Definition pieceFrags (p : list rune) : list frag :=
  if isMark p then [mkFrag p true Glued]
  else if breakable p then flat_map wordFrags (dashes p)
  else [mkFrag p false Glued].
Definition tokenFrags (token : list rune) : list frag := flat_map pieceFrags (punct token).

Fixpoint endWith (j : joint) (fs : list frag) : list frag :=
  match fs with
  | [] => []
  | [f] => [mkFrag (f_text f) (f_mark f) j]
  | f :: fs' => f :: endWith j fs'
  end.
Fixpoint paragraph (tokens : list (list rune)) : list frag :=
  match tokens with
  | [] => []
  | [t] => endWith End_ (tokenFrags t)
  | t :: ts => endWith Space (tokenFrags t) ++ paragraph ts
  end.
End Fragments.

(** Lines. [rh]: hyphens are rendered, [softOn]: words may be hyphenated. *)
Section Lines.
Variable rh softOn : bool.

Definition cuttable (f : frag) : bool :=
  f_mark f || match f_joint f with Space => true | Soft => softOn | _ => false end.
Inductive layout : list frag -> list (list frag) -> Prop :=
| lay_last : forall seg, seg <> [] -> layout seg [seg]
| lay_cut : forall seg f rest lines, cuttable f = true -> layout rest lines ->
    layout ((seg ++ [f]) ++ rest) ((seg ++ [f]) :: lines).

Fixpoint lineText (seg : list frag) : list rune :=
  match seg with
  | [] => []
  | [f] => f_text f ++ (if rh && isSoft f then [45] else [])
  | f :: seg' => f_text f ++ (if isSpaced f then [32] else []) ++ lineText seg'
  end.

(** [m]: width of a fragment, [sp] of a space, [hy] of a hyphen. *)
Variable m : list rune -> Z.
Variable sp hy : Z.
Fixpoint lineWidth (seg : list frag) : Z :=
  match seg with
  | [] => 0
  | [f] => m (f_text f) + (if rh && isSoft f then hy else 0)
  | f :: seg' => m (f_text f) + (if isSpaced f then sp else 0) + lineWidth seg'
  end.

(** How much a line can be stretched. *)
Definition lastSoft (seg : list frag) : bool := match rev seg with f :: _ => isSoft f | [] => false end.
Definition startsWithMark (seg : list frag) : bool := match seg with f :: _ => f_mark f | [] => false end.
Definition lineStretch (firstLine lastLine : bool) (seg : list frag) : Z :=
  (if lastLine then 10000 else if lastSoft seg && negb rh then 0 else 6)
  - (if negb firstLine && startsWithMark seg then 6 else 0).

Variable A : arith.
Variable tol : F A.
Variable W : Z.
(** The adjustment ratio of a line: 0 if it fits exactly, slack / stretch if it is short, 10000 if it cannot be adjusted. *)
Definition lineRatio (w st : Z) : F A :=
  if w <? W then (if 0 <? st then fdiv A (fZ A (W - w)) (fZ A st) else fZ A 10000)
  else if W <? w then fZ A 10000 else fZ A 0.
Definition within (r : F A) : bool := fle A (fZ A (-1)) r && fle A r tol.
Definition lineOk (firstLine lastLine : bool) (seg : list frag) : bool :=
  within (lineRatio (lineWidth seg) (lineStretch firstLine lastLine seg)).
Fixpoint linesOk (firstLine : bool) (lines : list (list frag)) : bool :=
  match lines with
  | [] => true
  | [l] => lineOk firstLine true l
  | l :: ls => lineOk firstLine false l && linesOk false ls
  end.
End Lines.

(** [reflow rh text lines]: the lines are the text cut at some places. *)
Inductive reflow (rh : bool) : list rune -> list (list rune) -> Prop :=
| rf_last : forall t, t <> [] -> reflow rh t [t]
| rf_space : forall t rest ls, t <> [] -> reflow rh rest ls -> reflow rh (t ++ 32 :: rest) (t :: ls)
| rf_inside : forall t rest ls, t <> [] -> reflow rh rest ls -> reflow rh (t ++ rest) (t :: ls)
| rf_hyphen : forall t rest ls, rh = true -> t <> [] -> reflow rh rest ls -> reflow rh (t ++ rest) ((t ++ [45]) :: ls).
