(** Formatted text: runs of text, each with or without a start sequence before it and a stop sequence after it. *)
From Verif Require Import Base Unicode SpecAnsi.

Record run := mkRun { r_start : list rune; r_text : list rune; r_stop : list rune }.
Definition runRunes (r : run) : list rune := r_start r ++ r_text r ++ r_stop r.
(** a token is a list of runs *)
Definition tokenRunes (t : list run) : list rune := flat_map runRunes t.
Definition tokenText (t : list run) : list rune := flat_map r_text t.

Section Format.
Variable u : unicode.
(** [l] is one sequence of kind [k], with parameters of at most two digits *)
Definition sequence (k : skind) (l : list rune) : Prop :=
  exists ps first f, l = ESC :: 91 :: ps ++ [f] /\ params u ps first false /\ finalKind first f k.
Inductive okRun : run -> Prop :=
| ok_run s t e : s = [] \/ sequence Start s -> e = [] \/ sequence Stop e -> t <> [] -> ~ In ESC t -> okRun (mkRun s t e).
(** two runs of a token are separated by a sequence *)
Fixpoint alternating (t : list run) : Prop :=
  match t with
  | [] => True
  | r :: t' => match t' with [] => True | r' :: _ => r_stop r <> [] \/ r_start r' <> [] end /\ alternating t'
  end.
Definition okToken (t : list run) : Prop := t <> [] /\ Forall okRun t /\ alternating t.

(** A passage: texts in one or several tokens, without formatting or all in the same one. *)
Record passage := mkPassage { p_start : list rune; p_texts : list (list rune); p_stop : list rune }.
Definition isPlain (p : passage) : bool := match p_start p with [] => true | _ => false end.
Definition okPassage (p : passage) : Prop :=
  p_texts p <> [] /\ Forall (fun t => t <> [] /\ ~ In ESC t) (p_texts p) /\
  ((p_start p = [] /\ p_stop p = []) \/ (sequence Start (p_start p) /\ sequence Stop (p_stop p))).
(** its runs: the start sequence comes with the first text, the stop sequence with the last one *)
Fixpoint spanRuns (start : list rune) (ts : list (list rune)) (stop : list rune) : list run :=
  match ts with
  | [] => []
  | t :: ts' => match ts' with [] => [mkRun start t stop] | _ => mkRun start t [] :: spanRuns [] ts' stop end
  end.
Definition runsOf (p : passage) : list run := spanRuns (p_start p) (p_texts p) (p_stop p).

(** What is left of a text without its sequences. *)
Definition visible (items : list item) : list rune := flat_map (fun i => match i with Chr l => l | Ctl _ _ => [] end) items.
Definition reads (l p : list rune) : Prop := exists items, lexed u l items /\ visible items = p.
End Format.

(** [decorated seqs l p]: [l] is [p] with some of the sequences [seqs] in it. *)
Inductive decorated (seqs : list (list rune)) : list rune -> list rune -> Prop :=
| de_nil : decorated seqs [] []
| de_rune : forall c l p, decorated seqs l p -> decorated seqs (c :: l) (c :: p)
| de_seq : forall s l p, In s seqs -> decorated seqs l p -> decorated seqs (s ++ l) p.
Definition sequencesOf (t : list run) : list (list rune) := flat_map (fun r => [r_start r; r_stop r]) t.
