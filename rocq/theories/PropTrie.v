(** C30-C31: the rune trie. *)
From Verif Require Import Base SpecTrie Trie TrieProofs.

(** C30: the answers of any sequence of Put (non-nil), Get and Delete are those of a finite map. *)
Theorem C30_trie_is_a_map : forall (V : Type) (os : list (op V)),
  snd (runOps newTrie os) = snd (specOps [] os).
Proof. exact @trie_is_map. Qed.
Print Assumptions C30_trie_is_a_map.

(** C31: what is left in the trie is exactly the prefixes of the keys stored. (The answers of Delete are in C30.) *)
Theorem C31_no_dead_branch : forall (V : Type) (os : list (op V)) (p : list rune),
  hasNode (fst (runOps newTrie os)) p = emptyKey p || someKey (fst (specOps [] os)) p.
Proof. exact @trie_shape. Qed.
Print Assumptions C31_no_dead_branch.

(* put ab, put abc, delete ab, get ab, get abc, delete a (a prefix: true), delete abc, delete abc (false) *)
Definition exOps : list (op Z) :=
  [OPut [97;98] 1; OPut [97;98;99] 2; OPut [97;98] 3; ODelete [97;98]; OGet [97;98]; OGet [97;98;99]; ODelete [97];
   ODelete [97;98;99]; ODelete [97;98;99]].
Example C30_ex : snd (runOps newTrie exOps) =
  [ABool true; ABool true; ABool false; ABool true; AVal None; AVal (Some 2); ABool true; ABool true; ABool false].
Proof. reflexivity. Qed.
Example C31_ex : hasNode (fst (runOps newTrie exOps)) [97] = false /\
  hasNode (fst (runOps newTrie (firstn 4 exOps))) [97;98] = true.
Proof. split; reflexivity. Qed.
