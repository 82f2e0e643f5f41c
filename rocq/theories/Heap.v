(** attributes/attribute.go, state.go with pointers: renderers are objects in a heap, shared by several States.

    Attr.v has each State own copies of its renderers. Here a State holds the addresses of its renderers ([*list.Element]s are
    still indices in the State, container/list is not modelled). The rune slices of a renderer are values: clients that write into
    them after New are not modelled. *)
From Verif Require Import Base Attr.

Definition addr := nat.
Fixpoint setAt {T} (l : list T) (i : nat) (x : T) : list T :=
  match l, i with
  | [], _ => []
  | _ :: l', O => x :: l'
  | y :: l', S i' => y :: setAt l' i' x
  end.

(** All objects: [w_heap] the [Attribute]s (attribute.go:12-17), [w_states] the [State]s (state.go:13-15). *)
Record world := mkWorld { w_heap : list attr; w_states : list (list addr) }.
Definition noWorld : world := mkWorld [] [].

(** Calls. *)
Inductive call :=
| CNew (text start stop : list rune)          (* attributes.New, at the next address *)
| CNewState                                   (* attributes.NewState *)
| CPush (s : nat) (r : option (option addr))  (* State.Push; [None]: a nil Renderer, [Some None]: a nil *Attribute *)
| CSetStop (a : addr) (stop : list rune)      (* Attribute.SetStop *)
| CSetLevel (a : addr) (level : Z).           (* Attribute.SetLevel *)

(** Models [Push] (state.go:33-57): the level of the last renderer is read where it is now. *)
Definition hpush (w : world) (s : nat) (r : option (option addr)) : go world :=
  match r with
  | None => Ret w
  | Some p =>
      match nth_error (w_states w) s with
      | None => Panic
      | Some l =>
          let! l0 := match last (map Some l) None with
                     | None => Ret 0
                     | Some b => match nth_error (w_heap w) b with None => Panic | Some c => Ret (lineLevel c) end
                     end in
          match p with
          | None => Panic
          | Some a =>
              match nth_error (w_heap w) a with
              | None => Panic
              | Some x => let l1 := if hasStart x then l0 + 1 else l0 in
                          Ret (mkWorld (setAt (w_heap w) a (setLevel x l1)) (setAt (w_states w) s (l ++ [a])))
              end
          end
      end
  end.
Definition onAttr (w : world) (a : addr) (f : attr -> attr) : go world :=
  match nth_error (w_heap w) a with None => Panic | Some x => Ret (mkWorld (setAt (w_heap w) a (f x)) (w_states w)) end.
Definition run1 (w : world) (c : call) : go world :=
  match c with
  | CNew t s e => Ret (mkWorld (w_heap w ++ [newAttr t s e]) (w_states w))  (* attribute.go:21-27 *)
  | CNewState => Ret (mkWorld (w_heap w) (w_states w ++ [[]]))              (* state.go:27-31 *)
  | CPush s r => hpush w s r
  | CSetStop a e => onAttr w a (fun x => setStop x e)                       (* attribute.go:53-55 *)
  | CSetLevel a l => onAttr w a (fun x => setLevel x l)                     (* attribute.go:49-51 *)
  end.
Fixpoint runAll (w : world) (cs : list call) : go world :=
  match cs with
  | [] => Ret w
  | c :: cs' => let! w' := run1 w c in runAll w' cs'
  end.

(** The renderers of a State as they are now: what its iterators work on (Attr.v). *)
Definition view (w : world) (s : nat) : state :=
  flat_map (fun a => match nth_error (w_heap w) a with Some x => [x] | None => [] end) (nth s (w_states w) []).

(** An iterator used while its State grows (state.go:60-98): [Next] and [Push] in any order. *)
Inductive event := ENext | EPush (r : option attr).
(** The renderers seen by the calls of Next that return true, and the number of calls that return false. *)
Fixpoint watch (s : state) (i : iter) (es : list event) : list (option attr) * nat * state * iter :=
  match es with
  | [] => ([], O, s, i)
  | EPush r :: es' => watch (push s r) i es'
  | ENext :: es' =>
      let (i', b) := next s i in
      let '(seen, no, s', i'') := watch s i' es' in
      if b then (item s i' :: seen, no, s', i'') else (seen, S no, s', i'')
  end.

(** Models [Renderers.Start] and [Renderers.Stop] (iface.go:46-64): loops that skip nil renderers. *)
Fixpoint renderersStart (rs : renderers) : writes :=
  match rs with [] => [] | None :: rs' => renderersStart rs' | Some a :: rs' => attrStart a ++ renderersStart rs' end.
Fixpoint renderersStop (rs : renderers) : writes :=
  match rs with [] => [] | None :: rs' => renderersStop rs' | Some a :: rs' => attrStop a ++ renderersStop rs' end.
