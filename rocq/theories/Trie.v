(** wordbreak/hyphenator/internal/trie/rune_trie.go.

    A node's children map is an association list whose order is never observed. A nil map and an empty one are
    identified: the code only takes their length, reads them, and allocates before writing. A value is [None] for a nil
    interface. Nodes are never shared, so in-place updates are rebuilt functionally. *)
From Verif Require Import Base SpecTrie.

Section Trie.
Context {V : Type}.

(** Models [RuneTrie] (rune_trie.go:6-9). *)
Inductive trie := Node (value : option V) (children : list (rune * trie)).

Definition t_value (t : trie) := let 'Node v _ := t in v.
Definition t_children (t : trie) := let 'Node _ c := t in c.

(** Map operations: [children[r]], [children[r] = c], [delete(children, r)]. *)
Fixpoint assoc (r : rune) (ch : list (rune * trie)) : option trie :=
  match ch with
  | [] => None
  | (r', c) :: ch' => if r =? r' then Some c else assoc r ch'
  end.
Fixpoint update (r : rune) (c : trie) (ch : list (rune * trie)) : list (rune * trie) :=
  match ch with
  | [] => [(r, c)]
  | (r', c') :: ch' => if r =? r' then (r, c) :: ch' else (r', c') :: update r c ch'
  end.
Definition remove (r : rune) (ch : list (rune * trie)) : list (rune * trie) :=
  filter (fun e => negb (r =? fst e)) ch.

(** Models [NewRuneTrie] (rune_trie.go:12-14). *)
Definition newTrie : trie := Node None [].

(** Models [isLeaf] (rune_trie.go:101-103). *)
Definition isLeaf (t : trie) : bool := match t_children t with [] => true | _ => false end.

(** Models [Get] (rune_trie.go:19-29). *)
Fixpoint get (t : trie) (key : list rune) : option V :=
  match key with
  | [] => t_value t
  | r :: key' => match assoc r (t_children t) with None => None | Some c => get c key' end
  end.

(** Models [Put] (rune_trie.go:35-53): the trie after the call and the returned boolean. *)
Fixpoint put (t : trie) (key : list rune) (value : option V) : trie * bool :=
  match key with
  | [] => (Node value (t_children t), match t_value t with None => true | Some _ => false end)
  | r :: key' =>
      let child := match assoc r (t_children t) with None => newTrie | Some c => c end in
      let (c', b) := put child key' value in
      (Node (t_value t) (update r c' (t_children t)), b)
  end.

(** The two passes of [Delete] (rune_trie.go:59-93): down the key, then back up to the ancestors while the flag says that
    the node just left is to be removed from its parent. [None]: the node does not exist. *)
Fixpoint delete_path (t : trie) (key : list rune) : option (trie * bool) :=
  match key with
  | [] => let t' := Node None (t_children t) in Some (t', isLeaf t')
  | r :: key' =>
      match assoc r (t_children t) with
      | None => None
      | Some c =>
          match delete_path c key' with
          | None => None
          | Some (c', false) => Some (Node (t_value t) (update r c' (t_children t)), false)
          | Some (c', true) =>
              let ch := remove r (t_children t) in
              let t' := Node (t_value t) ch in
              if negb (isLeaf t') then Some (t', false)
              else Some (Node (t_value t) [], match t_value t with Some _ => false | None => true end)
          end
      end
  end.

(** Models [Delete] (rune_trie.go:59-93). *)
Definition delete (t : trie) (key : list rune) : trie * bool :=
  match delete_path t key with None => (t, false) | Some (t', _) => (t', true) end.

(** The node at the end of a path. *)
Fixpoint nodeAt (t : trie) (p : list rune) : option trie :=
  match p with
  | [] => Some t
  | r :: p' => match assoc r (t_children t) with None => None | Some c => nodeAt c p' end
  end.
Definition hasNode (t : trie) (p : list rune) : bool := match nodeAt t p with Some _ => true | None => false end.

(** Client programs. *)
Definition runOp (t : trie) (o : op V) : trie * answer V :=
  match o with
  | OPut k v => let (t', b) := put t k (Some v) in (t', ABool b)
  | OGet k => (t, AVal (get t k))
  | ODelete k => let (t', b) := delete t k in (t', ABool b)
  end.
Fixpoint runOps (t : trie) (os : list (op V)) : trie * list (answer V) :=
  match os with
  | [] => (t, [])
  | o :: os' => let (t', a) := runOp t o in let (t'', l) := runOps t' os' in (t'', a :: l)
  end.
End Trie.
Arguments trie : clear implicits.
