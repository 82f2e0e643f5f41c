(** C26-C29: rendering attributes across line breaks. *)
From Verif Require Import Base Attr SpecAttr AttrProofs SpecBlocks Blocks.

(** C26: pushing [rs] (possibly with nil entries) *)
Theorem C26_levels : forall (rs : renderers) (k : nat) (a : attr),
  nth_error (pushed rs) k = Some a ->
  exists b, nth_error (pushAll newState rs) k = Some b /\
    a_text b = a_text a /\ a_start b = a_start a /\ a_stop b = a_stop a /\
    a_level b = count hasStart (firstn (S k) (pushed rs)) - count hasStop (firstn k (pushed rs)).
Proof. exact levels_spec. Qed.
Print Assumptions C26_levels.

Theorem C26_pushes_all : forall rs : renderers, length (pushAll newState rs) = length (pushed rs).
Proof. exact pushAll_length. Qed.
Print Assumptions C26_pushes_all.

(* "<a", nil, "<b", "c>", "d>" : levels 1 2 2 1 *)
Example C26_ex : map a_level (pushAll newState
  [Some (newAttr [97] [27;1] []); None; Some (newAttr [98] [27;2] []); Some (newAttr [99] [] [27;0]);
   Some (newAttr [100] [] [27;0])]) = [1; 2; 2; 1].
Proof. reflexivity. Qed.

(** C27 *)
Theorem C27_iterator_visits_all : forall (s : state) (fuel : nat), (length s < fuel)%nat ->
  visit fuel s (iterator s) = (map Some s, mkIter false None).
Proof. exact visit_all. Qed.
Print Assumptions C27_iterator_visits_all.

Theorem C27_next_stays_false : forall s : state, next s (mkIter false None) = (mkIter false None, false).
Proof. exact next_done. Qed.
Print Assumptions C27_next_stays_false.

Theorem C27_first : forall (s : state) (fuel : nat), (length s < fuel)%nat ->
  item s (first s) = match s with [] => None | a :: _ => Some a end /\
  fst (visit fuel s (first s)) = map Some (tl s).
Proof. exact visit_first. Qed.
Print Assumptions C27_first.

Example C27_ex : let s := pushAll newState [Some (newAttr [97] [] []); None; Some (newAttr [98] [] [])] in
  map (option_map a_text) (fst (visit 5 s (iterator s))) = [Some [97]; Some [98]].
Proof. reflexivity. Qed.

(** C28, full statement: for every document [gs] of plain words and formatted runs, however the words are laid out on
    lines, every line starts and ends with no formatting and every word shows with its own formatting:
      Forall okSeg gs -> Forall (segOk cls) gs -> list_sum lines = length (docWords gs) ->
      Forall (fun l => snd (display cls [] l) = []) out /\ flat_map (fun l => fst (display cls [] l)) out = flat_map expectSeg gs
    with out := driveLines (stateOf (docWords gs)) (iterator _) lines _.
    It is false when two formatted runs follow each other: the second one is resumed with the formatting of the first. *)
Definition exCls (w : list rune) : kind :=
  match w with 27 :: 0 :: _ => KStop | 27 :: _ => KStart | _ => KText end.
Definition exAdjacent : list seg := [Ctx [27;1] [97] [] [27;0]; Ctx [27;2] [98] [[99]] [27;0]].

Theorem C28_adjacent_runs_refuted : exists (gs : list seg) (lines : list nat),
  Forall okSeg gs /\ Forall (segOk exCls) gs /\ list_sum lines = length (docWords gs) /\
  flat_map (fun l => fst (display exCls [] l))
    (driveLines (stateOf (docWords gs)) (iterator (stateOf (docWords gs))) lines (stateOf (docWords gs)))
  <> flat_map expectSeg gs.
Proof.
  exists exAdjacent, [2%nat; 1%nat].
  split; [repeat constructor; discriminate|]. split; [repeat constructor|]. split; [reflexivity|].
  vm_compute. discriminate.
Qed.
Print Assumptions C28_adjacent_runs_refuted.

(** Missing from the full statement: documents with adjacent runs. *)
Theorem C28_any_layout_partial : forall (cls : list rune -> kind) (gs : list seg),
  Forall okSeg gs -> separated gs -> Forall (segOk cls) gs ->
  forall lines : list nat, list_sum lines = length (docWords gs) ->
  let out := driveLines (stateOf (docWords gs)) (iterator (stateOf (docWords gs))) lines (stateOf (docWords gs)) in
  length out = length lines /\
  Forall (fun l => snd (display cls [] l) = []) out /\
  flat_map (fun l => fst (display cls [] l)) out = flat_map expectSeg gs.
Proof. exact doc_lines. Qed.
Print Assumptions C28_any_layout_partial.

(** What a break after word [k] of segment [g] writes. *)
Theorem C28_break_partial : forall (pre : list seg) (g : seg) (post : list seg) (k : nat),
  let gs := pre ++ g :: post in
  Forall okSeg gs -> separated gs -> (k < length (segWords g))%nat ->
  forall i, i_cur i = Some (length (docWords pre) + k)%nat ->
  endOfLine (stateOf (docWords gs)) i = match openAfter g k with Some (_, e) => [e] | None => [] end /\
  startOfLine (stateOf (docWords gs)) i = match openAfter g k with Some (s, _) => [s] | None => [] end.
Proof. exact break_spec. Qed.
Print Assumptions C28_break_partial.

(** The same for any document. A break closes and resumes a run together with the runs next to it. *)
Theorem C28_break_any : forall (pre : list seg) (g : seg) (post : list seg) (k : nat),
  let gs := pre ++ g :: post in
  Forall okSeg gs -> (k < length (segWords g))%nat ->
  forall i, i_cur i = Some (length (docWords pre) + k)%nat ->
  endOfLine (stateOf (docWords gs)) i = match openAfter g k with Some _ => map stopOf (trailing pre ++ g :: leading post) | None => [] end /\
  startOfLine (stateOf (docWords gs)) i = match openAfter g k with Some _ => map startOf (trailing pre ++ [g]) | None => [] end.
Proof. exact break_any. Qed.
Print Assumptions C28_break_any.

(** Every line of any document ends with no formatting; every word shows with its own formatting at least, plain words with none. *)
Theorem C28_any_document : forall (cls : list rune -> kind) (gs : list seg),
  Forall okSeg gs -> Forall (segOk cls) gs ->
  forall lines : list nat, list_sum lines = length (docWords gs) ->
  let out := driveLines (stateOf (docWords gs)) (iterator (stateOf (docWords gs))) lines (stateOf (docWords gs)) in
  length out = length lines /\
  Forall (fun l => snd (display cls [] l) = []) out /\
  Forall2 shownOver (flat_map (fun l => fst (display cls [] l)) out) (flat_map expectSeg gs).
Proof. exact doc_over. Qed.
Print Assumptions C28_any_document.
Example C28_ex_any : Forall okSeg exAdjacent /\ Forall (segOk exCls) exAdjacent /\
  driveLines (stateOf (docWords exAdjacent)) (iterator (stateOf (docWords exAdjacent))) [2%nat; 1%nat] (stateOf (docWords exAdjacent)) =
    [ [[27;1]; [97]; [27;0]; [27;2]; [98]; [27;0]; [27;0]]; [[27;1]; [27;2]; [99]; [27;0]] ].
Proof. split; [repeat constructor; discriminate|]. split; [repeat constructor|]. reflexivity. Qed.

Example C28_ex_hyp : let gs := [Plain [120]; Ctx [27;1] [97] [[98];[99]] [27;0]; Plain [121]; Ctx [27;2] [100] [[101]] [27;0]] in
  Forall okSeg gs /\ separated gs /\ Forall (segOk exCls) gs /\
  driveLines (stateOf (docWords gs)) (iterator (stateOf (docWords gs))) [3%nat; 4%nat] (stateOf (docWords gs)) =
    [ [[120]; [27;1]; [97]; [98]; [27;0]];
      [[27;1]; [99]; [27;0]; [121]; [27;2]; [100]; [101]; [27;0]] ].
Proof.
  split; [repeat constructor; discriminate|]. split; [repeat split|]. split; [repeat constructor|]. reflexivity.
Qed.

(** C29 *)
Theorem C29_plain_writes_nothing : forall (rs : renderers) (i : iter),
  Forall (fun a => hasStart a = false /\ hasStop a = false) (pushed rs) ->
  startOfLine (pushAll newState rs) i = [] /\ endOfLine (pushAll newState rs) i = [].
Proof. exact plain_nothing. Qed.
Print Assumptions C29_plain_writes_nothing.

Example C29_ex : Forall (fun a => hasStart a = false /\ hasStop a = false)
  (pushed [Some (newAttr [97] [] []); None; Some (newAttr [98] [] [])]).
Proof. repeat constructor. Qed.
