(** C107: the work of BreakWord. *)
From Verif Require Import Base Unicode Utf8 Text Trie Dict Hyph Lang HyphTests Shipped ShippedProofs Work.
Local Open Scope text_scope.
Local Open Scope Z_scope.

(** [breakWord_work] is [breakWord] with counters. *)
Theorem C107_counter : forall u d o word, (let! r := breakWord_work u d o word in Ret (fst r)) = breakWord u d o word.
Proof. exact work_same. Qed.
Print Assumptions C107_counter.
(** The calls of Get and the reads of the maps of the tries. [deep D t]: Get reads at most [D] maps, whatever the key. Exactly n (n + 5) / 2 calls
    for a word of n runes that is neither left whole nor an exception. *)
Theorem C107_work : forall u d o word D r, deep D (d_patterns d) -> word <> [] -> breakWord_work u d o word = Ret r ->
  (Exists (fun c => isHyphenRune c = true) word \/ zlen word < o_minLength o) /\ snd r = none \/
  isException d word <> None /\ k_gets (snd r) = 1 /\ k_reads (snd r) <= zlen word \/
  2 * k_gets (snd r) = zlen word * (zlen word + 5) /\ k_reads (snd r) <= zlen word + D * (k_gets (snd r) - 1).
Proof. exact work_spec. Qed.
Print Assumptions C107_work.
(** Get reads at most one map more than the longest pattern of the file has runes. *)
Theorem C107_depth : forall u name bs n, 1 <= n -> Forall (fun f => zlen f + 1 <= n) (DictProofs.patternRules (scanLines bs)) -> deep n (d_patterns (loadFile u name bs)).
Proof. exact file_deep. Qed.
Print Assumptions C107_depth.
(** With the embedded patterns, whatever the language. *)
Theorem C107_shipped : forall u l name o word r, word <> [] -> breakWord_work u (loadFile u name (fileOf l)) o word = Ret r ->
  k_gets (snd r) <= zlen word * (zlen word + 5) / 2 /\ k_reads (snd r) <= zlen word + 18 * (zlen word * (zlen word + 5) / 2).
Proof. exact shipped_work. Qed.
Print Assumptions C107_shipped.
(** "subdivision": 88 calls for 11 letters *)
Example C107_ex : exists r, breakWord_work latinLow dUs defaultHopts (str_ "subdivision") = Ret r /\ fst r = [str_ "sub"; str_ "di"; str_ "vi"; str_ "sion"] /\ snd r = mkWork 88 265.
Proof. eexists. split; [vm_compute; reflexivity|]. split; vm_compute; reflexivity. Qed.
