(** What a trie should be: a finite map, here a plain list of bindings with distinct keys. *)
From Verif Require Import Base.

Section Map.
Context {V : Type}.
Definition binding := (list rune * V)%type.
Definition keyb (k k' : list rune) : bool := if list_eq_dec Z.eq_dec k k' then true else false.

Definition lookup (m : list binding) (k : list rune) : option V :=
  match find (fun b => keyb (fst b) k) m with Some b => Some (snd b) | None => None end.
Definition erase (m : list binding) (k : list rune) : list binding := filter (fun b => negb (keyb (fst b) k)) m.
Definition bind (m : list binding) (k : list rune) (v : V) : list binding := (k, v) :: erase m k.

(** [k] is a prefix of [k'] *)
Definition prefixb (k k' : list rune) : bool := keyb k (firstn (length k) k').
(** some stored key starts with [k] *)
Definition someKey (m : list binding) (k : list rune) : bool := existsb (fun b => prefixb k (fst b)) m.
Definition emptyKey (k : list rune) : bool := match k with [] => true | _ => false end.

(** Operations, and what each should answer: Put says whether the key is new, Delete whether some stored key starts with
    the given one (the empty one always exists). *)
Inductive op := OPut (k : list rune) (v : V) | OGet (k : list rune) | ODelete (k : list rune).
Inductive answer := ABool (b : bool) | AVal (v : option V).
Definition specOp (m : list binding) (o : op) : list binding * answer :=
  match o with
  | OPut k v => (bind m k v, ABool (match lookup m k with None => true | Some _ => false end))
  | OGet k => (m, AVal (lookup m k))
  | ODelete k => (erase m k, ABool (emptyKey k || someKey m k))
  end.
Fixpoint specOps (m : list binding) (os : list op) : list binding * list answer :=
  match os with
  | [] => (m, [])
  | o :: os' => let (m', a) := specOp m o in let (m'', l) := specOps m' os' in (m'', a :: l)
  end.
End Map.
Arguments op : clear implicits.
Arguments answer : clear implicits.
