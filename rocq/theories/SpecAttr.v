(** Independent specifications for attribute rendering. Nothing here mentions the model's functions. *)
From Verif Require Import Base.

(** A non-nested document: plain words and formatted runs of words. *)
Inductive seg :=
| Plain (text : list rune)
| Ctx (start : list rune) (w : list rune) (ws : list (list rune)) (stop : list rune).

(** One renderer: its text, its start and stop sequences. *)
Notation word := (list rune * list rune * list rune)%type.

(** The words of a run after the first one: the last one carries the stop sequence. *)
Fixpoint tailWords (w : list rune) (ws : list (list rune)) (start stop : list rune) : list word :=
  match ws with
  | [] => [(w, start, stop)]
  | w' :: ws' => (w, start, []) :: tailWords w' ws' [] stop
  end.
Definition segWords (g : seg) : list word :=
  match g with
  | Plain t => [(t, [], [])]
  | Ctx s w ws e => tailWords w ws s e
  end.

Definition docWords (gs : list seg) : list word := flat_map segWords gs.

Definition okSeg (g : seg) : Prop := match g with Plain _ => True | Ctx s _ _ e => s <> [] /\ e <> [] end.
Definition isCtx (g : seg) : bool := match g with Plain _ => false | Ctx _ _ _ _ => true end.

(** Two formatted runs are always separated by some plain word. *)
Fixpoint separated (gs : list seg) : Prop :=
  match gs with
  | [] => True
  | g :: gs' => match gs' with
                | [] => True
                | g' :: _ => isCtx g && isCtx g' = false
                end /\ separated gs'
  end.

(** A terminal: a start sequence adds a formatting to those in force, a stop sequence resets them all, anything else is
    displayed with the formattings in force. *)
Inductive kind := KText | KStart | KStop.
Definition formats := list (list rune).
Definition turnOn (act : formats) (w : list rune) : formats :=
  if in_dec (list_eq_dec Z.eq_dec) w act then act else act ++ [w].
Fixpoint display (cls : list rune -> kind) (act : formats) (ws : list (list rune))
  : list (list rune * formats) * formats :=
  match ws with
  | [] => ([], act)
  | w :: ws' => match cls w with
                | KText => let (d, a) := display cls act ws' in ((w, act) :: d, a)
                | KStart => display cls (turnOn act w) ws'
                | KStop => display cls [] ws'
                end
  end.
(** What the document should look like (empty words are not written). *)
Definition shown (fmt : formats) (w : list rune) : list (list rune * formats) :=
  match w with [] => [] | _ => [(w, fmt)] end.
Definition expectSeg (g : seg) : list (list rune * formats) :=
  match g with
  | Plain t => shown [] t
  | Ctx s w ws _ => flat_map (shown [s]) (w :: ws)
  end.
Definition segOk (cls : list rune -> kind) (g : seg) : Prop :=
  match g with
  | Plain t => cls t = KText
  | Ctx s w ws e => cls s = KStart /\ cls e = KStop /\ Forall (fun t => cls t = KText) (w :: ws)
  end.

Definition count {A} (p : A -> bool) (l : list A) : Z := zlen (filter p l).

(** The start and stop sequences of the run left open after word [k] of a segment. *)
Definition openAfter (g : seg) (k : nat) : option (list rune * list rune) :=
  match g with
  | Plain _ => None
  | Ctx s w ws e => if (k <? length ws)%nat then Some (s, e) else None
  end.
