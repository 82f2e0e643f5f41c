(** attributes/attribute.go, iface.go, state.go.

    A [State] is the list of pushed attributes, a [*list.Element] is an index in it (container/list's own pointer
    manipulation is not modelled). Renderers are the package's own [Attribute]s, pushed once each. Writers receive the
    list of WriteRunes calls. *)
From Verif Require Import Base.

(** Models [Attribute] (attribute.go:12-17). *)
Record attr := mkAttr { a_text : list rune; a_start : list rune; a_stop : list rune; a_level : Z }.

(** Models [New] (attribute.go:21-27). *)
Definition newAttr (text start stop : list rune) : attr := mkAttr text start stop 0.

Definition hasStart (a : attr) : bool := 0 <? zlen (a_start a).  (* attribute.go:57-59 *)
Definition hasStop (a : attr) : bool := 0 <? zlen (a_stop a).    (* attribute.go:61-63 *)

(** Calls to WriteRunes. *)
Definition writes := list (list rune).

(** Models [Start], [Stop] and [Render] (attribute.go:29-39, 66-72). *)
Definition attrStart (a : attr) : writes := if hasStart a then [a_start a] else [].
Definition attrStop (a : attr) : writes := if hasStop a then [a_stop a] else [].
Definition attrRender (a : attr) : writes :=
  attrStart a ++ (if 0 <? zlen (a_text a) then [a_text a] else []) ++ attrStop a.

Definition setLevel (a : attr) (l : Z) : attr := mkAttr (a_text a) (a_start a) (a_stop a) l.  (* attribute.go:49-51 *)
Definition setStop (a : attr) (s : list rune) : attr := mkAttr (a_text a) (a_start a) s (a_level a). (* attribute.go:53-55 *)

(** Models [Renderers.Render] (iface.go, the loop skips nil renderers). *)
Definition renderers := list (option attr).
Definition renderersRender (rs : renderers) : writes :=
  flat_map (fun r => match r with None => [] | Some a => attrRender a end) rs.

(** Models [State] (state.go:13-15). *)
Definition state := list attr.
Definition newState : state := [].

(** Models [Push] (state.go:33-57). *)
Definition push (s : state) (r : option attr) : state :=
  match r with
  | None => s
  | Some a =>
      let l0 := match last (map Some s) None with
                | None => 0
                | Some c => if hasStop c then a_level c - 1 else a_level c
                end in
      let l1 := if hasStart a then l0 + 1 else l0 in
      s ++ [setLevel a l1]
  end.
Definition pushAll (s : state) (rs : renderers) : state := fold_left push rs s.

(** Models [StateIterator] (state.go:21-24), [Iterator] and [First] (state.go:60-72). *)
Record iter := mkIter { i_start : bool; i_cur : option nat }.
Definition front (s : state) : option nat := match s with [] => None | _ => Some 0%nat end.
Definition iterator (s : state) : iter := mkIter true (front s).
Definition first (s : state) : iter := mkIter false (front s).

(** [Element.Next]. *)
Definition eltNext (s : state) (n : nat) : option nat := if (S n <? length s)%nat then Some (S n) else None.

(** Models [Next] (state.go:75-89). *)
Definition next (s : state) (i : iter) : iter * bool :=
  if i_start i then (mkIter false (i_cur i), match i_cur i with None => false | Some _ => true end)
  else match i_cur i with
       | None => (i, false)
       | Some n => let c := eltNext s n in (mkIter false c, match c with None => false | Some _ => true end)
       end.

(** Models [Item] (state.go:92-98). *)
Definition item (s : state) (i : iter) : option attr :=
  match i_cur i with None => None | Some n => nth_error s n end.

Definition levelAt (s : state) (n : nat) : Z := match nth_error s n with Some a => a_level a | None => 0 end.

(** Models [backtrack] (state.go:100-127), from index [n]. *)
Fixpoint backtrack (s : state) (level : Z) (n : nat) : nat :=
  match n with
  | O => O
  | S p => if levelAt s p <? level then n else backtrack s level p
  end.

(** The level the line ends with: Level(), minus one after a stop (state.go:136-140, 167-172). *)
Definition lineLevel (a : attr) : Z := if hasStop a then a_level a - 1 else a_level a.

(** Models [StartOfLine] (state.go:130-159): the starts from the backtracked element to the current one. *)
Definition startOfLine (s : state) (i : iter) : writes :=
  match i_cur i with
  | None => []
  | Some n =>
      match nth_error s n with
      | None => []
      | Some a =>
          let l := lineLevel a in
          let b := backtrack s l n in
          if l =? 0 then [] else flat_map attrStart (firstn (n + 1 - b) (skipn b s))
      end
  end.

(** The loop of [EndOfLine] (state.go:181-192). *)
Fixpoint stops_while (l : Z) (s : list attr) : writes :=
  match s with
  | [] => []
  | a :: s' => if a_level a <? l then [] else attrStop a ++ stops_while l s'
  end.

(** Models [EndOfLine] (state.go:162-193). *)
Definition endOfLine (s : state) (i : iter) : writes :=
  match i_cur i with
  | None => []
  | Some n =>
      match nth_error s n with
      | None => []
      | Some a =>
          let l := lineLevel a in
          let b := backtrack s l n in
          if l =? 0 then [] else stops_while l (skipn b s)
      end
  end.

(** The protocol of the line renderer (linebreaker.go:152-186): StartOfLine; for each of the [k] renderers of the line,
    Render it then Next; EndOfLine. [todo] are the renderers still to render. *)
Fixpoint drive (s : state) (i : iter) (todo : list attr) : writes * iter :=
  match todo with
  | [] => ([], i)
  | a :: todo' => let (w, i') := drive s (fst (next s i)) todo' in (attrRender a ++ w, i')
  end.
Fixpoint driveLines (s : state) (i : iter) (lines : list nat) (todo : list attr) : list writes :=
  match lines with
  | [] => []
  | k :: lines' =>
      let (w, i') := drive s i (firstn k todo) in
      (startOfLine s i ++ w ++ endOfLine s i') :: driveLines s i' lines' (skipn k todo)
  end.

(** Client code: [for it.Next() { visit(it.Item()) }]; the non-nil renderers; a [State] filled with given words. *)
Fixpoint visit (fuel : nat) (s : state) (i : iter) : list (option attr) * iter :=
  match fuel with
  | O => ([], i)
  | S f => let (i', b) := next s i in
           if b then let (l, i'') := visit f s i' in (item s i' :: l, i'') else ([], i')
  end.

Definition pushed (rs : renderers) : list attr := flat_map (fun r => match r with None => [] | Some a => [a] end) rs.
Definition ofWord (w : list rune * list rune * list rune) : attr := let '(t, s, e) := w in newAttr t s e.
Definition stateOf (ws : list (list rune * list rune * list rune)) : state :=
  pushAll newState (map (fun w => Some (ofWord w)) ws).
