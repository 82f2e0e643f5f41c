(** Disciplined use of renderers. Nothing here mentions the functions of the model: a program is a list of calls. *)
From Verif Require Import Base Attr Heap.

(** The addresses pushed so far. *)
Definition pushes (cs : list call) : list addr := flat_map (fun c => match c with CPush _ (Some (Some a)) => [a] | _ => [] end) cs.
Definition pushesTo (s : nat) (cs : list call) : list addr :=
  flat_map (fun c => match c with CPush s' (Some (Some a)) => if (s' =? s)%nat then [a] else [] | _ => [] end) cs.
(** Each renderer is pushed at most once, levels are left to Push, and the stop sequence of a renderer is set before the next
    renderer is pushed to its State. *)
Definition once (cs : list call) : Prop := NoDup (pushes cs).
Definition noLevels (cs : list call) : Prop := forall a l, ~ In (CSetLevel a l) cs.
Definition stopsInTime (cs : list call) : Prop :=
  forall c1 s a c2 b c3 e c4, cs <> c1 ++ CPush s (Some (Some a)) :: c2 ++ CPush s (Some (Some b)) :: c3 ++ CSetStop a e :: c4.
Definition disciplined (cs : list call) : Prop := once cs /\ noLevels cs /\ stopsInTime cs.
(** text, start and stop sequence of a renderer as it is now *)
Definition wordNow (x : attr) : list rune * list rune * list rune := (a_text x, a_start x, a_stop x).

(** An iterator used while its State grows: the calls of Next, the renderers pushed. *)
Fixpoint nexts (es : list event) : nat := match es with [] => O | ENext :: es' => S (nexts es') | EPush _ :: es' => nexts es' end.
Fixpoint pushesIn (es : list event) : renderers := match es with [] => [] | ENext :: es' => pushesIn es' | EPush r :: es' => r :: pushesIn es' end.
Definition count1 (r : option attr) : nat := match r with None => O | Some _ => 1%nat end.
(** Next is only called when there is a renderer it has not reached yet, [n] of them at first. *)
Fixpoint timely (n : nat) (es : list event) : Prop :=
  match es with
  | [] => True
  | ENext :: es' => (0 < n)%nat /\ timely (n - 1) es'
  | EPush r :: es' => timely (n + count1 r) es'
  end.

(** A program that only uses the objects it made: [na] renderers and [ns] States exist at first. *)
Fixpoint scoped (na ns : nat) (cs : list call) : Prop :=
  match cs with
  | [] => True
  | CNew _ _ _ :: cs' => scoped (S na) ns cs'
  | CNewState :: cs' => scoped na (S ns) cs'
  | CPush s None :: cs' => scoped na ns cs'
  | CPush s (Some None) :: _ => False
  | CPush s (Some (Some a)) :: cs' => (s < ns)%nat /\ (a < na)%nat /\ scoped na ns cs'
  | CSetStop a _ :: cs' | CSetLevel a _ :: cs' => (a < na)%nat /\ scoped na ns cs'
  end.

(** The start and the stop sequences of renderers, in order. *)
Definition given (x : list rune) : bool := match x with [] => false | _ => true end.
Definition starts (rs : renderers) : list (list rune) := filter given (map a_start (flat_map (fun r => match r with Some a => [a] | None => [] end) rs)).
Definition stops (rs : renderers) : list (list rune) := filter given (map a_stop (flat_map (fun r => match r with Some a => [a] | None => [] end) rs)).
