(** linebreak/linebreaker.go and options.go: options, nodes of a paragraph.

    A token is the list of runes of the string ([[]rune(word)]); [spare i] is what the backing array of the [i]-th token
    holds past its length. *)
From Verif Require Import Base Unicode Split Ansi Attr Arith KP.

Section Nodes.
Variable A : arith.
Notation F := (F A).
Notation fZ := (fZ A).

(** [wordbreak.SplitFunc] (wordbreak/iface.go). *)
Definition splitFunc := list rune -> go (list (list rune)).

(** Models [options] and [formatterOptions] (options.go:12-36). [looseness], [space] and [glueShrink] are not used by the
    code (only when there is no solution, in which case the result is nil anyway). *)
Record lopts := mkLopts {
  l_search : kopts A;
  l_measurer : list rune -> go F;
  l_scale : F;
  l_wordBreak : bool;
  l_renderHyphens : bool;
  l_hyphenPenalty : F;
  l_hardHyphenPenalty : F;
  l_punctuationPenalty : F;
  l_hyphenator : splitFunc;
  l_punctuator : splitFunc;
  l_minHyphenate : Z;
  l_glueStretch : F
}.

(** Models [LineBreaker] (linebreaker.go:19-31). The other fields are overwritten by each call before they are read. *)
Record breaker := mkBreaker { lb_opts : lopts; lb_spaceWidth : F; lb_hyphenWidth : F; lb_attrs : state }.

Definition scale (o : lopts) (x : F) : F := fround A (fmul A x (l_scale o)).      (* linebreaker.go:110-112 *)
Definition downScale (o : lopts) (x : F) : F := fround A (fdiv A x (l_scale o)).  (* linebreaker.go:114-116 *)
Definition measure (o : lopts) (v : list rune) : go F := let! w := l_measurer o v in Ret (scale o w).

(** Models [New] (linebreaker.go:47-74), once the default word breakers are in the options. *)
Definition newBreaker (o : lopts) : go breaker :=
  let! sp := measure o [32] in
  let! hy := (if l_wordBreak o then measure o [45] else Ret (fZ 0)) in
  Ret (mkBreaker o sp hy newState).

Variable u : unicode.

(** Models [tokenState] (knuth_plass_types.go:55-61): [ts_attrs] is the shared attributes.State, [ts_current] the
    current renderer as an index in it. *)
Record tstate := mkTs { ts_attrs : state; ts_current : option nat; ts_started : bool }.

(** Models [tokenState.Start] (knuth_plass_types.go:216-226). *)
Definition tsStart (start : list rune) (ts : tstate) (text : list rune) : tstate :=
  let r := newAttr text (if ts_started ts then [] else start) [] in
  mkTs (push (ts_attrs ts) (Some r)) (Some (length (ts_attrs ts))) true.

Fixpoint updAt {T} (l : list T) (i : nat) (f : T -> T) : list T :=
  match l, i with
  | [], _ => []
  | x :: l', O => f x :: l'
  | x :: l', S i' => x :: updAt l' i' f
  end.
(** Models [tokenState.Stop] (knuth_plass_types.go:228-235). *)
Definition tsStop (stop : list rune) (ts : tstate) : tstate :=
  match ts_current ts with
  | None => ts
  | Some i => if zlen stop =? 0 then ts else mkTs (updAt (ts_attrs ts) i (fun a => setStop a stop)) (ts_current ts) (ts_started ts)
  end.

Variable lb : breaker.
Notation o := (lb_opts lb).

(** [newBox(l.scale(l.measurer(v)), v, tokenState.Current())] after [tokenState.Start(v)]. *)
Definition startBox (start : list rune) (ts : tstate) (v : list rune) : go (node A * tstate) :=
  let ts' := tsStart start ts v in
  let! w := measure o v in
  Ret (newBox A w v (ts_current ts'), ts').

(** Penalty, glue, box, penalty, glue: a punctuation mark (linebreaker.go:222-239) or an explicit hyphen (251-262). *)
Definition markNodes (bx : node A) (penalty : F) : list (node A) :=
  [newPenalty A (fZ 0) (infinity A) false; newGlue A (fZ 0) (l_glueStretch o) (fZ 0); bx;
   newPenalty A (fZ 0) penalty true; newGlue A (fZ 0) (fopp A (l_glueStretch o)) (fZ 0)].

(** Models [pushHyphen] (linebreaker.go:290-308). *)
Definition pushHyphen : list (node A) :=
  if l_renderHyphens o
  then [newPenalty A (fZ 0) (infinity A) false; newGlue A (fZ 0) (l_glueStretch o) (fZ 0);
        newPenalty A (lb_hyphenWidth lb) (l_hyphenPenalty o) true; newGlue A (fZ 0) (fopp A (l_glueStretch o)) (fZ 0)]
  else [newPenalty A (fZ 0) (l_hyphenPenalty o) true].

(** The loop over word parts (linebreaker.go:268-280); [hyphenated[:len(hyphenated)-1]] panics on an empty list. *)
Fixpoint partNodes (start : list rune) (ts : tstate) (p : list rune) (ps : list (list rune)) (nodes : list (node A))
  : go (list (node A) * tstate) :=
  let! x := startBox start ts p in
  let (bx, ts') := x in
  match ps with
  | [] => Ret (nodes ++ [bx], ts')
  | p' :: ps' => partNodes start ts' p' ps' (nodes ++ [bx] ++ pushHyphen)
  end.

(** The loop over [hyphenator.SplitWord] (linebreaker.go:249-281). *)
Fixpoint wordNodes (start : list rune) (ts : tstate) (words : list (list rune)) (nodes : list (node A))
  : go (list (node A) * tstate) :=
  match words with
  | [] => Ret (nodes, ts)
  | w :: words' =>
      if isHyphen w then
        let! x := startBox start ts w in
        let (bx, ts') := x in
        wordNodes start ts' words' (nodes ++ markNodes bx (l_hardHyphenPenalty o))
      else
        let! hyphenated := l_hyphenator o w in
        match hyphenated with
        | [] => Panic
        | p :: ps => let! x := partNodes start ts p ps nodes in
                     let (nodes', ts') := x in wordNodes start ts' words' nodes'
        end
  end.

(** The loop over [l.punctuator] (linebreaker.go:221-282). *)
Fixpoint pieceNodes (start : list rune) (ts : tstate) (pieces : list (list rune)) (nodes : list (node A))
  : go (list (node A) * tstate) :=
  match pieces with
  | [] => Ret (nodes, ts)
  | p :: pieces' =>
      if isPunctuation u p then
        let! x := startBox start ts p in
        let (bx, ts') := x in
        pieceNodes start ts' pieces' (nodes ++ markNodes bx (l_punctuationPenalty o))
      else if negb (l_wordBreak o) || (zlen p <=? l_minHyphenate o) then
        let! x := startBox start ts p in
        let (bx, ts') := x in
        pieceNodes start ts' pieces' (nodes ++ [bx])
      else
        let! words := splitWord p in
        let! x := wordNodes start ts words nodes in
        let (nodes', ts') := x in
        pieceNodes start ts' pieces' nodes'
  end.

(** Models [boxNodes] (linebreaker.go:213-288): [mem] is the backing array of the token after StripToken. *)
Fixpoint strippedNodes (mem : list rune) (parts : list stripped) (attrs : state) (nodes : list (node A))
  : go (list (node A) * state) :=
  match parts with
  | [] => Ret (nodes, attrs)
  | st :: parts' =>
      let! pieces := l_punctuator o (contents mem (s_text st)) in
      let! x := pieceNodes (contents mem (s_start st)) (mkTs attrs None false) pieces nodes in
      let (nodes', ts) := x in
      strippedNodes mem parts' (ts_attrs (tsStop (contents mem (s_stop st)) ts)) nodes'
  end.
Definition boxNodes (token spare : list rune) (attrs : state) : go (list (node A) * state) :=
  let! x := stripToken u (token ++ spare) (zlen token) in
  let (mem, parts) := x in
  strippedNodes mem parts attrs [].

(** Models [leftAlignedNodes] (linebreaker.go:311-335). *)
Definition spaceNodes : list (node A) :=
  [newGlue A (fZ 0) (l_glueStretch o) (fZ 0); newPenalty A (fZ 0) (fZ 0) false;
   newGlue A (lb_spaceWidth lb) (fopp A (l_glueStretch o)) (fZ 0)].
Definition finalNodes : list (node A) :=
  [newGlue A (fZ 0) (infinity A) (fZ 0); newPenalty A (fZ 0) (minusInfinity A) true].
Fixpoint alignedLoop (token : list rune) (tokens : list (list rune)) (spare : nat -> list rune) (i : nat)
  (attrs : state) (nodes : list (node A)) : go (list (node A) * state) :=
  let! x := boxNodes token (spare i) attrs in
  let (ns, attrs') := x in
  match tokens with
  | [] => Ret (nodes ++ ns ++ finalNodes, attrs')
  | token' :: tokens' => alignedLoop token' tokens' spare (S i) attrs' (nodes ++ ns ++ spaceNodes)
  end.
Definition leftAlignedNodes (tokens : list (list rune)) (spare : nat -> list rune) : go (list (node A) * state) :=
  match tokens with
  | [] => Ret ([], lb_attrs lb)
  | token :: tokens' => alignedLoop token tokens' spare 0 (lb_attrs lb) []
  end.
End Nodes.
Arguments mkLopts {A}. Arguments l_search {A}. Arguments l_measurer {A}. Arguments l_scale {A}. Arguments l_wordBreak {A}.
Arguments l_renderHyphens {A}. Arguments l_hyphenPenalty {A}. Arguments l_hardHyphenPenalty {A}.
Arguments l_punctuationPenalty {A}. Arguments l_hyphenator {A}. Arguments l_punctuator {A}. Arguments l_minHyphenate {A}.
Arguments l_glueStretch {A}. Arguments mkBreaker {A}. Arguments lb_opts {A}. Arguments lb_spaceWidth {A}.
Arguments lb_hyphenWidth {A}. Arguments lb_attrs {A}.
