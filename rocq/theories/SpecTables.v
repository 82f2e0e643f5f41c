(** Tables in canonical form. *)
From Verif Require Import Base Tables SpecWidth.

(** Non-empty intervals in increasing order, with a gap between them. *)
Inductive gapped : table -> Prop :=
| gapped_nil : gapped []
| gapped_one iv : fst iv <= snd iv -> gapped [iv]
| gapped_cons a b t : fst a <= snd a -> snd a + 1 < fst b -> gapped (b :: t) -> gapped (a :: b :: t).
Definition disjoint (t1 t2 : table) : Prop := forall r, ~ (member r t1 /\ member r t2).
