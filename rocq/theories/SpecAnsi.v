(** Lexical structure of a text with control sequences, independently of the parser.

    A control sequence is ESC [ then parameters of at most 3 digits separated by ; or : then a final rune. *)
From Verif Require Import Base Unicode.

Section Lex.
Variable u : unicode.

Definition ESC : rune := 27.
Definition digit (r : rune) : Prop := isDigit u r = true.
Definition sepr (r : rune) : Prop := r = 59 \/ r = 58.          (* ; : *)

Inductive skind := Start | Stop | Other.

(** [params l first full]: [l] is a list of parameters with separators; every parameter but the last has at most
    two digits; [first] is the first parameter; [full] says that the last one has three digits. *)
Inductive params : list rune -> list rune -> bool -> Prop :=
| params_one p : Forall digit p -> (length p <= 2)%nat -> params p p false
| params_full p : Forall digit p -> length p = 3%nat -> params p p true
| params_more p s l first full : Forall digit p -> (length p <= 2)%nat -> sepr s ->
    params l first full -> params (p ++ s :: l) p full.

(** Kind of a sequence by its final rune: s h start; u l stop; m by its first parameter (empty or all zeros is a
    reset); anything else is neither. *)
Inductive finalKind (first : list rune) : rune -> skind -> Prop :=
| fk_s : finalKind first 115 Start
| fk_h : finalKind first 104 Start
| fk_u : finalKind first 117 Stop
| fk_l : finalKind first 108 Stop
| fk_m0 : Forall (fun r => r = 48) first -> finalKind first 109 Stop
| fk_m1 : ~ Forall (fun r => r = 48) first -> finalKind first 109 Start
| fk_other r : ~ In r [115; 104; 117; 108; 109] -> finalKind first r Other.

(** [csi rest seq k]: [seq] is a control sequence of kind [k] when followed by [rest] in the text. *)
Inductive csi : list rune -> list rune -> skind -> Prop :=
| csi_done rest ps first f k : params ps first false -> ~ digit f -> ~ sepr f -> finalKind first f k ->
    csi rest (ESC :: 91 :: ps ++ [f]) k
| csi_long rest ps first f : params ps first true ->      (* three digits: the next rune, whatever it is, ends it *)
    csi rest (ESC :: 91 :: ps ++ [f]) Other
| csi_cut ps first : params ps first false ->              (* the text ends in the middle *)
    csi [] (ESC :: 91 :: ps) Other.

Inductive item := Chr (l : list rune) | Ctl (k : skind) (l : list rune).
Definition runesIn (i : item) : list rune := match i with Chr l => l | Ctl _ l => l end.

(** Left-to-right lexing. ESC not followed by [ swallows the next rune. *)
Inductive lexed : list rune -> list item -> Prop :=
| lx_nil : lexed [] []
| lx_chr r l is : r <> ESC -> lexed l is -> lexed (r :: l) (Chr [r] :: is)
| lx_esc : lexed [ESC] [Chr [ESC]]
| lx_esc2 r l is : r <> 91 -> lexed l is -> lexed (ESC :: r :: l) (Chr [ESC; r] :: is)
| lx_csi seq l is k : csi l seq k -> lexed l is -> lexed (seq ++ l) (Ctl k seq :: is).

(** The text ends in the middle of a sequence, right after a parameter of three digits. *)
Definition cutShort (l : list rune) : Prop :=
  exists a ps first, l = a ++ ESC :: 91 :: ps /\ params ps first true.

(** [part items start text stop]: how one part covers a run of items. *)
Definition isText (i : item) : Prop := match i with Chr _ => True | Ctl Other _ => True | Ctl _ _ => False end.
Inductive covers : list item -> list rune -> list rune -> list rune -> Prop :=
| covers_intro st tx sp :
    (st = [] \/ exists l, st = [Ctl Start l]) ->
    Forall isText tx ->
    (sp = [] \/ exists l, sp = [Ctl Stop l]) ->
    covers (st ++ tx ++ sp) (concat (map runesIn st)) (concat (map runesIn tx)) (concat (map runesIn sp)).

(** The parts of a text: a part is a start sequence, then text, then sequences of no kind, then a stop sequence, each of
    them optional. A sequence of no kind that comes before the text ends the part. *)
Inductive phase := Fresh | Started | InText | Trailing.
Fixpoint groupsFrom (ph : phase) (cur : list item) (is : list item) : list (list item) :=
  match is with
  | [] => match ph with Fresh => [] | _ => [cur] end
  | i :: is' =>
      match i, ph with
      | Ctl Stop _, _ => (cur ++ [i]) :: groupsFrom Fresh [] is'
      | Ctl Start _, Fresh => groupsFrom Started [i] is'
      | Ctl Start _, _ => cur :: groupsFrom Started [i] is'
      | Ctl Other _, (Fresh | Started) => (cur ++ [i]) :: groupsFrom Fresh [] is'
      | Ctl Other _, _ => groupsFrom Trailing (cur ++ [i]) is'
      | Chr _, Trailing => cur :: groupsFrom InText [i] is'
      | Chr _, _ => groupsFrom InText (cur ++ [i]) is'
      end
  end.
Definition groups (is : list item) : list (list item) :=
  match is with [] => [[]] | _ => groupsFrom Fresh [] is end.

(** start sequence, text and stop sequence of a part *)
Definition partOf (g : list item) : list rune * list rune * list rune :=
  (flat_map (fun i => match i with Ctl Start l => l | _ => [] end) g,
   flat_map (fun i => match i with Chr l | Ctl Other l => l | _ => [] end) g,
   flat_map (fun i => match i with Ctl Stop l => l | _ => [] end) g).
End Lex.

(** Two adjacent runes ESC [ somewhere. *)
Definition hasCSI (l : list rune) : Prop := exists a b, l = a ++ 27 :: 91 :: b.
