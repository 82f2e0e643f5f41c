(** C128: word breakers one after the other. *)
From Verif Require Import Base Unicode Text Split SpecSplit SplitProofs Orders Hyph Dict Cache Lang HyphTests.
Local Open Scope text_scope.
Local Open Scope Z_scope.

(** [stable], [andThen], [sameParts] are in Orders.v. Breaking the parts again changes nothing *)
Theorem C128_stable : forall u : unicode, stable tokenizerBreakWord /\ stable (punctuatorBreakWord u) /\ stable splitWord.
Proof. exact breakers_stable. Qed.
Print Assumptions C128_stable.

(** Two breakers can be applied in any order, whatever the punctuation table *)
Theorem C128_order : forall u : unicode,
  sameParts (andThen (punctuatorBreakWord u) splitWord) (andThen splitWord (punctuatorBreakWord u)) /\
  sameParts (andThen tokenizerBreakWord (punctuatorBreakWord u)) (andThen (punctuatorBreakWord u) tokenizerBreakWord) /\
  sameParts (andThen tokenizerBreakWord splitWord) (andThen splitWord tokenizerBreakWord).
Proof. exact breakers_swap. Qed.
Print Assumptions C128_order.

Example C128_ex : andThen (punctuatorBreakWord latinLow) splitWord (str_ "well-to-do,(a) b") = strs ["well"; "-"; "to"; "-"; "do"; ","; "("; "a"; ")"; " b"] /\
  andThen splitWord (punctuatorBreakWord latinLow) (str_ "well-to-do,(a) b") = strs ["well"; "-"; "to"; "-"; "do"; ","; "("; "a"; ")"; " b"] /\
  andThen tokenizerBreakWord splitWord (str_ " well-to do") = strs ["well"; "-"; "to"; "do"].
Proof. repeat (split; [vm_compute; reflexivity|]). vm_compute. reflexivity. Qed.

(* Not so for the hyphenator: reci-procity, but re-ci and proc-ity *)
Theorem C128_hyphenator_refuted : ~ stable (breakWord latinLow dUs defaultHopts).
Proof.
  intros H. destruct (H (str_ "reciprocity")) as (ps & E & F).
  assert (E' : breakWord latinLow dUs defaultHopts (str_ "reciprocity") = strs ["reci"; "procity"]) by (vm_compute; reflexivity).
  unfold strs in E'. rewrite E' in E. injection E as <-. cbn [map] in F. inversion F as [|x l K _]; subst.
  assert (K' : breakWord latinLow dUs defaultHopts (str_ "reci") = strs ["re"; "ci"]) by (vm_compute; reflexivity).
  rewrite K' in K. discriminate.
Qed.
Print Assumptions C128_hyphenator_refuted.

(* nor for its place: a word with a hyphen is not hyphenated (C38), its two sides are *)
Theorem C128_hyphen_order_refuted : exists w,
  andThen splitWord (breakWord latinLow dUs defaultHopts) w = strs ["of"; "ten"; "-"; "times"] /\
  andThen (breakWord latinLow dUs defaultHopts) splitWord w = strs ["often"; "-"; "times"].
Proof. exists (str_ "often-times"). split; vm_compute; reflexivity. Qed.
Print Assumptions C128_hyphen_order_refuted.
