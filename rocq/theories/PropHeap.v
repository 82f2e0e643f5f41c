(** C103, C104, C105: renderers shared by several States, iterators used while their State grows, lists of renderers. *)
From Coq Require Import Ascii String.
From Verif Require Import Base Attr SpecAttr AttrProofs Heap SpecHeap HeapProofs.

Definition txt (s : string) : list rune := map (fun c => Z.of_nat (nat_of_ascii c)) (list_ascii_of_string s).
Definition tx : list rune := txt "x". Definition on : list rune := txt "<b>". Definition off : list rune := txt "</b>".

(** ** C103: a State behaves as if it held copies of its renderers *)

(** The renderers of each State are those pushed to it, in order, with the levels they would have if the State were built from
    fresh copies of them. Missing: programs that push a renderer twice, set levels, or set a stop sequence late. *)
Theorem C103_copies_partial : forall cs w, disciplined cs -> runAll noWorld cs = Ret w -> forall s,
  nth s (w_states w) [] = pushesTo s cs /\ length (view w s) = length (pushesTo s cs) /\ view w s = stateOf (map wordNow (view w s)).
Proof. exact heap_view. Qed.
Print Assumptions C103_copies_partial.

(** Two States, filled in turn; a stop sequence set on the last renderer of a State. *)
Definition exCalls : list call :=
  [CNew tx on []; CNew tx [] []; CNewState; CNewState; CPush 0%nat (Some (Some 0%nat)); CPush 1%nat (Some (Some 1%nat)); CPush 0%nat None; CNew tx [] []; CPush 0%nat (Some (Some 2%nat));
   CSetStop 2%nat off; CNew tx [] []; CPush 0%nat (Some (Some 3%nat))].
Example C103_ex : disciplined exCalls /\ exists w, runAll noWorld exCalls = Ret w /\ map a_level (view w 0%nat) = [1; 1; 0] /\ map a_level (view w 1%nat) = [0].
Proof.
  split.
  - split; [|split].
    + unfold once. cbn. repeat (constructor; [cbn; intuition discriminate|]). constructor.
    + intros a l. cbn. intuition discriminate.
    + apply stopsCheck_spec. vm_compute. reflexivity.
  - eexists. split; [vm_compute; reflexivity|]. split; reflexivity.
Qed.

(** No panic in a program that only uses the objects it made. *)
Theorem C103_total : forall cs, scoped 0%nat 0%nat cs -> exists w, runAll noWorld cs = Ret w.
Proof. exact heap_total. Qed.
Print Assumptions C103_total.
Example C103_total_ex : scoped 0%nat 0%nat exCalls.
Proof. cbn. repeat split; lia. Qed.
(** A nil *Attribute is not a nil Renderer: Push panics on it. *)
Example C103_nil : runAll noWorld [CNewState; CPush 0%nat None] = Ret (mkWorld [] [[]]) /\ runAll noWorld [CNewState; CPush 0%nat (Some None)] = Panic.
Proof. split; reflexivity. Qed.

(** A renderer pushed to two States: the second Push changes what the first State writes. The first one holds a run of
    two renderers; once the second of them is pushed to another State its level is 0, and the first State does not open the run
    again when a line starts after it. *)
Definition before : list call := [CNew tx on []; CNew tx [] []; CNewState; CPush 0%nat (Some (Some 0%nat)); CPush 0%nat (Some (Some 1%nat))].
Definition sharing : list call := [CNewState; CPush 1%nat (Some (Some 1%nat))].
Theorem C103_shared_refuted : exists cs more w w' i, runAll noWorld cs = Ret w /\ runAll w more = Ret w' /\
  Forall (fun c => match c with CPush s _ => s <> 0%nat | CSetStop _ _ | CSetLevel _ _ => False | _ => True end) more /\
  view w' 0%nat <> stateOf (map wordNow (view w' 0%nat)) /\
  startOfLine (view w 0%nat) i = [on] /\ startOfLine (view w' 0%nat) i <> [on].
Proof.
  exists before, sharing. eexists. eexists. exists (mkIter false (Some 1%nat)). split; [vm_compute; reflexivity|]. split; [vm_compute; reflexivity|].
  split; [repeat (constructor; [try discriminate; exact I|]); constructor|]. split; [vm_compute; discriminate|]. split; [vm_compute; reflexivity|vm_compute; discriminate].
Qed.
Print Assumptions C103_shared_refuted.
(** The same renderer pushed twice to one State: both places have the level of the second. *)
Theorem C103_twice_refuted : exists cs w, noLevels cs /\ stopsInTime cs /\ runAll noWorld cs = Ret w /\ view w 0%nat <> stateOf (map wordNow (view w 0%nat)) /\
  map a_level (view w 0%nat) = [2; 2] /\ map a_level (stateOf (map wordNow (view w 0%nat))) = [1; 2].
Proof.
  exists [CNew tx on []; CNewState; CPush 0%nat (Some (Some 0%nat)); CPush 0%nat (Some (Some 0%nat))]. eexists.
  split; [intros a l; cbn; intuition discriminate|]. split; [apply stopsCheck_spec; vm_compute; reflexivity|]. split; [vm_compute; reflexivity|].
  split; [vm_compute; discriminate|]. split; vm_compute; reflexivity.
Qed.
Print Assumptions C103_twice_refuted.
(** A stop sequence set after the next Push: the levels are those of a run still open. *)
Theorem C103_late_refuted : exists cs w, once cs /\ noLevels cs /\ runAll noWorld cs = Ret w /\ view w 0%nat <> stateOf (map wordNow (view w 0%nat)) /\
  map a_level (view w 0%nat) = [1; 1] /\ map a_level (stateOf (map wordNow (view w 0%nat))) = [1; 0].
Proof.
  exists [CNew tx on []; CNew tx [] []; CNewState; CPush 0%nat (Some (Some 0%nat)); CPush 0%nat (Some (Some 1%nat)); CSetStop 0%nat off]. eexists.
  split; [repeat (constructor; [cbn; intuition discriminate|]); constructor|]. split; [intros a l; cbn; intuition discriminate|]. split; [vm_compute; reflexivity|].
  split; [vm_compute; discriminate|]. split; vm_compute; reflexivity.
Qed.
Print Assumptions C103_late_refuted.

(** ** C104: an iterator sees the renderers pushed after it was made *)

(** Whatever the order of Next and Push: what it saw is the beginning of the State, in order, each renderer once. *)
Theorem C104_prefix : forall s es, let '(seen, no, s', _) := watch s (iterator s) es in
  s' = pushAll s (pushesIn es) /\ seen = map Some (firstn (length seen) s') /\ (length seen + no = nexts es)%nat.
Proof. exact watch_prefix. Qed.
Print Assumptions C104_prefix.
(** It sees them all, if made on a State with a renderer and never asked for one that is not there yet. *)
Theorem C104_timely_partial : forall s es, s <> [] -> timely (length s) es ->
  let '(seen, no, s', _) := watch s (iterator s) es in no = O /\ seen = map Some (firstn (nexts es) s').
Proof. exact watch_timely. Qed.
Print Assumptions C104_timely_partial.
Definition one : attr := newAttr (txt "1") [] []. Definition two : attr := newAttr (txt "2") on []. Definition three : attr := newAttr (txt "3") [] off.
Example C104_ex : let es := [ENext; EPush (Some two); EPush None; EPush (Some three); ENext; ENext] in timely 1%nat es /\
  fst (fst (fst (watch [one] (iterator [one]) es))) = [Some one; Some (setLevel two 1); Some (setLevel three 1)].
Proof. cbn. repeat split; lia. Qed.
(** Once Next has returned false it does so for ever, whatever is pushed. *)
Theorem C104_stuck : forall s i es, snd (next s i) = false -> forall es1 i1, i1 = fst (next s i) ->
  let '(seen, no, _, _) := watch (pushAll s es1) i1 es in seen = [] /\ no = nexts es.
Proof. exact watch_stuck. Qed.
Print Assumptions C104_stuck.
Example C104_stuck_ex : snd (next [one] (fst (next [one] (iterator [one])))) = false.
Proof. reflexivity. Qed.
(** So a renderer pushed later is missed by an iterator that has reached the end, and by one made on an empty State. *)
Theorem C104_refuted : exists s es, s <> [] /\ fst (watch s (iterator s) es) = ([Some one], 2%nat, [one; setLevel two 1]) /\ fst (watch [] (iterator []) [EPush (Some one); ENext]) = ([], 1%nat, [one]).
Proof. exists [one], [ENext; ENext; EPush (Some two); ENext]. split; [discriminate|]. split; vm_compute; reflexivity. Qed.
Print Assumptions C104_refuted.

(** ** C105: Renderers.Start and Stop *)

(** Start opens the renderers in order and Stop closes them; what they write is what the renderers have, nil ones aside. *)
Theorem C105_order : forall rs, renderersStart rs = starts rs /\ renderersStop rs = stops rs.
Proof. exact renderers_order. Qed.
Print Assumptions C105_order.
(** The last one opened is closed first, if at most one of them has a stop sequence. Missing: two of them or more. *)
Theorem C105_nested_partial : forall rs, (length (stops rs) <= 1)%nat -> renderersStop rs = rev (stops rs).
Proof. exact renderers_one. Qed.
Print Assumptions C105_nested_partial.
(** Exactly when the list of the stop sequences is its own reversal. *)
Theorem C105_nested_iff : forall rs, renderersStop rs = rev (stops rs) <-> stops rs = rev (stops rs).
Proof. exact renderers_iff. Qed.
Print Assumptions C105_nested_iff.
Definition italic : attr := newAttr (txt "2") (txt "<i>") (txt "</i>"). Definition bold : attr := newAttr (txt "1") on off.
Example C105_ex : stops [Some bold; None; Some one] = [off] /\ renderersStart [Some bold; None; Some one] = [on].
Proof. split; reflexivity. Qed.
Theorem C105_nested_refuted : exists rs, renderersStart rs = [on; txt "<i>"] /\ renderersStop rs = [off; txt "</i>"] /\ renderersStop rs <> rev (stops rs).
Proof. exists [Some bold; Some italic]. split; [vm_compute; reflexivity|]. split; [vm_compute; reflexivity|vm_compute; discriminate]. Qed.
Print Assumptions C105_nested_refuted.
