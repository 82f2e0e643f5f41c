(** linebreak/linebreaker.go: rendering, LeftAlignUniform. Lines are the runes written to the strings.Builder of each line
    (their UTF-8 encoding is [runesio], see Utf8.v). [runesio.AsRunesWriter] does not exist in the pinned source: read as
    [runesio.NewWriter]. *)
From Verif Require Import Base Unicode Attr Arith KP Nodes.

Section Render.
Variable A : arith.
Notation F := (F A).
Notation fZ := (fZ A).
Variable u : unicode.

(** Models [skipNodes] (linebreaker.go:118-129). *)
Fixpoint skip_loop (rest : list (node A)) (j : nat) : option nat :=
  match rest with
  | [] => None
  | n :: rest' => if isBox n || isForcedBreak n then Some j else skip_loop rest' (S j)
  end.
Definition skipNodes (start : nat) (nodes : list (node A)) : nat :=
  match skip_loop (skipn start nodes) 0 with Some j => (start + j)%nat | None => start end.

(** Models the first loop of [render] (linebreaker.go:140-151): the ratio and nodes of each line. *)
Fixpoint cutLines (nodes : list (node A)) (breaks : list (bpoint A)) (lineStart : nat) : go (list (F * list (node A))) :=
  match breaks with
  | [] => Ret []
  | b :: breaks' =>
      let s := skipNodes lineStart nodes in
      let! l := slice nodes (Z.of_nat s) (Z.of_nat (b_position b) + 1) in
      let! ls := cutLines nodes breaks' (b_position b) in
      Ret ((b_ratio b, l) :: ls)
  end.

(** Models [repeatRunes] (linebreaker.go:194-205) on [space]: [make] panics on a negative capacity. *)
Definition repeatSpaces (times : Z) : go (list rune) :=
  if times <? 0 then Panic else Ret (repeat 32 (Z.to_nat times)).

(** Models the rendering of one line (linebreaker.go:158-185); [w] are the runes written so far. *)
Fixpoint renderLine (o : lopts A) (attrs : state) (ratio : F) (nodes : list (node A)) (it : iter) (w : list rune)
  : go (list rune * iter) :=
  match nodes with
  | [] => Ret (w, it)
  | n :: nodes' =>
      match n_type n with
      | TBox =>
          match n_attr n with
          | None => renderLine o attrs ratio nodes' it (w ++ n_value n)
          | Some i => match nth_error attrs i with
                      | None => Panic
                      | Some a => renderLine o attrs ratio nodes' (fst (next attrs it)) (w ++ concat (attrRender a))
                      end
          end
      | TGlue =>
          let pad := fadd A (su_width (n_sums n))
                       (fmul A ratio (if flt A ratio (fZ 0) then su_shrink (n_sums n) else su_stretch (n_sums n))) in
          let! s := repeatSpaces (fint A (downScale A o pad)) in
          renderLine o attrs ratio nodes' it (w ++ s)
      | TPenalty =>
          if l_renderHyphens o && feq A (n_penalty n) (l_hyphenPenalty o) && match nodes' with [] => true | _ => false end
          then renderLine o attrs ratio nodes' it (w ++ [45])
          else renderLine o attrs ratio nodes' it w
      end
  end.

(** Models the second loop of [render] (linebreaker.go:152-191). *)
Fixpoint renderLines (o : lopts A) (attrs : state) (lines : list (F * list (node A))) (it : iter) : go (list (list rune)) :=
  match lines with
  | [] => Ret []
  | (ratio, ns) :: lines' =>
      let! x := renderLine o attrs ratio ns it (concat (startOfLine attrs it)) in
      let (w, it') := x in
      let! ls := renderLines o attrs lines' it' in
      Ret ((w ++ concat (endOfLine attrs it')) :: ls)
  end.
Definition render (o : lopts A) (attrs : state) (nodes : list (node A)) (breaks : list (bpoint A)) : go (list (list rune)) :=
  let! lines := cutLines nodes breaks 0 in
  renderLines o attrs lines (iterator attrs).

(** Models [LeftAlignUniform] (linebreaker.go:80-95): [None] is ErrCannotBeSet; also returns the line breaker after the
    call. *)
Definition leftAlignUniform (ord : nat -> nat -> list fclass) (spare : nat -> list rune) (lb : breaker A)
  (tokens : list (list rune)) (maxWidth : F) : go (option (list (list rune)) * breaker A) :=
  let! x := leftAlignedNodes A u lb tokens spare in
  let (nodes, attrs) := x in
  let lb' := mkBreaker (lb_opts lb) (lb_spaceWidth lb) (lb_hyphenWidth lb) attrs in
  let! breakList := breakPoints A (l_search (lb_opts lb)) ord nodes [scale A (lb_opts lb) maxWidth] in
  match breakList with
  | None => Ret (None, lb')
  | Some breaks => let! ls := render (lb_opts lb) attrs nodes breaks in Ret (Some ls, lb')
  end.
End Render.
