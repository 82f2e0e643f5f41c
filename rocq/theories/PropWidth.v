(** C06-C13, C67: display width of runes. *)
From Verif Require Import Base Tables Width SpecWidth WidthProofs Once OnceProofs.

(** C06: for every option list; the first component says that the call returns normally. *)
Theorem C06_width_total_bounded : forall (r : rune) (opts : list wopt),
  exists w, width r opts = Ret w /\
    (validRune r = false \/ r = 0xfffd -> w = 0) /\
    (eastAsian (optionsWithDefaults opts) = false -> 0 <= w <= 4) /\
    (0 <= defaultAsianAmbiguousWidth (optionsWithDefaults opts) ->
       0 <= w <= Z.max 4 (defaultAsianAmbiguousWidth (optionsWithDefaults opts))).
Proof. exact width_total_bounded. Qed.
Print Assumptions C06_width_total_bounded.

Example C06_ex : width 0x4e2d [] = Ret 2 /\ width (-5) [] = Ret 0 /\ width 0xd800 [] = Ret 0
  /\ width 0xf8 [WithEastAsian true; WithEastAsianAmbiguousWidth 7] = Ret 7.
Proof. repeat split; vm_compute; reflexivity. Qed.

(** C07 *)
Theorem C07_cache_is_direct : forall r : rune, width r [] = runeWidth r (optionsWithDefaults []).
Proof. exact width_is_direct. Qed.
Print Assumptions C07_cache_is_direct.

Example C07_ex : cachedWidth 0x2e3a = Ret 3 /\ runeWidth 0x2e3a (optionsWithDefaults []) = Ret 3
  /\ cachedWidth 0x301 = Ret 0.
Proof. repeat split; vm_compute; reflexivity. Qed.

(** C08, full statement: [forall rs opts, exists ws, Forall2 (fun r w => width r opts = Ret w) rs ws /\
    widths rs opts = Ret (zsum ws)].  It is false: *)
Theorem C08_widths_three_em_dash_refuted :
  exists r w, width r [] = Ret w /\ widths [r] [] = Ret 0 /\ w = 4.
Proof. exact widths_sum_refuted. Qed.
Print Assumptions C08_widths_three_em_dash_refuted.

Theorem C08_widths_panics_refuted : exists r, width r [] = Ret 0 /\ widths [r] [] = Panic.
Proof. exact widths_panic_refuted. Qed.
Print Assumptions C08_widths_panics_refuted.

(** What holds: the sum, as soon as the default mode meets neither U+2E3B nor a rune outside 0..U+10FFFF. *)
Theorem C08_widths_sum_partial : forall (rs : list rune) (opts : list wopt),
  (eastAsian (optionsWithDefaults opts) = false ->
     Forall (fun r => 0 <= r <= 0x10ffff /\ r <> 0x2e3b) rs) ->
  exists ws, Forall2 (fun r w => width r opts = Ret w) rs ws /\ widths rs opts = Ret (zsum ws).
Proof. exact widths_sum_guarded. Qed.
Print Assumptions C08_widths_sum_partial.

Example C08_ex : Forall (fun r => 0 <= r <= 0x10ffff /\ r <> 0x2e3b) [97; 0x4e2d; 0x301; 0x1f600]
  /\ widths [97; 0x4e2d; 0x301; 0x1f600] [] = Ret 5.
Proof. split; [repeat (constructor; [lia|]); constructor|vm_compute; reflexivity]. Qed.

(** C09 (StringWidth is in PropIO.v) *)
Theorem C09_widths_additive : forall (a b : list rune) (opts : list wopt),
  widths (a ++ b) opts = let! x := widths a opts in let! y := widths b opts in Ret (x + y).
Proof. exact widths_app. Qed.
Print Assumptions C09_widths_additive.

Theorem C09_widths_panic_iff : forall (rs : list rune) (opts : list wopt),
  widths rs opts = Panic <->
  (eastAsian (optionsWithDefaults opts) = false /\ exists r, In r rs /\ (r < 0 \/ 0x10ffff < r)).
Proof. exact widths_panic_iff. Qed.
Print Assumptions C09_widths_panic_iff.

Example C09_ex : widths ([97] ++ [0x4e2d]) [] = Ret 3 /\ widths [97; 0x110000] [] = Panic
  /\ widths [97; 0x110000] [WithEastAsian true] = Ret 1.
Proof. repeat split; vm_compute; reflexivity. Qed.

(** C10 *)
Theorem C10_east_asian_only_ambiguous : forall (r : rune) (opts : list wopt) (wa we : Z),
  eastAsian (optionsWithDefaults opts) = true ->
  skipStrictEmojiNeutral (optionsWithDefaults opts) = false ->
  width r [] = Ret wa -> width r opts = Ret we ->
  (wa <> we -> isAmbiguous r = Ret true) /\
  (isAmbiguous r = Ret true -> wa = 1 -> we = defaultAsianAmbiguousWidth (optionsWithDefaults opts)).
Proof. exact east_only_ambiguous. Qed.
Print Assumptions C10_east_asian_only_ambiguous.

Example C10_ex : width 0xf8 [] = Ret 1 /\ width 0xf8 [WithEastAsian true] = Ret 2 /\ isAmbiguous 0xf8 = Ret true.
Proof. repeat split; vm_compute; reflexivity. Qed.

(** C11 *)
Theorem C11_emoji_option : forall (r : rune) (opts : list wopt),
  let o := optionsWithDefaults opts in
  (eastAsian o = false ->
     width r (opts ++ [WithSkipStrictEmojiNeutral true]) = width r (opts ++ [WithSkipStrictEmojiNeutral false])) /\
  (eastAsian o = true -> forall w0 w1,
     width r (opts ++ [WithSkipStrictEmojiNeutral false]) = Ret w0 ->
     width r (opts ++ [WithSkipStrictEmojiNeutral true]) = Ret w1 -> w0 <> w1 ->
     w0 = 1 /\ w1 = 2 /\ member r emoji /\ ~ member r ambiguous /\ ~ member r narrow /\
     ~ member r doublewidth /\ ~ member r nonprint /\ ~ member r combining).
Proof. exact emoji_only. Qed.
Print Assumptions C11_emoji_option.

Example C11_ex : width 0x2702 [WithEastAsian true; WithSkipStrictEmojiNeutral false] = Ret 1
  /\ width 0x2702 [WithEastAsian true; WithSkipStrictEmojiNeutral true] = Ret 2.
Proof. split; vm_compute; reflexivity. Qed.

(** C12 *)
Theorem C12_isambiguous_exact : forall r : rune,
  (isAmbiguous r = Ret true <-> member r ambiguous) /\ (isAmbiguous r = Ret false <-> ~ member r ambiguous).
Proof. exact isAmbiguous_iff. Qed.
Print Assumptions C12_isambiguous_exact.

Theorem C12_lookup_exact_on_sorted_tables : forall (r : rune) (t : table), sorted t -> t <> [] ->
  (inTable r t = Ret true <-> member r t) /\ (inTable r t = Ret false <-> ~ member r t).
Proof. exact inTable_iff. Qed.
Print Assumptions C12_lookup_exact_on_sorted_tables.

Theorem C12_shipped_tables_sorted :
  Forall (fun t => sorted t /\ t <> []) [nonprint; combining; doublewidth; ambiguous; narrow; neutral; emoji].
Proof. exact tables_sorted. Qed.
Print Assumptions C12_shipped_tables_sorted.

Example C12_ex : isAmbiguous 0xe0150 = Ret true /\ isAmbiguous 0xe5 = Ret false.
Proof. split; vm_compute; reflexivity. Qed.

(** C13: in every reachable state of every program, under every schedule *)
Theorem C13_cache_concurrent : forall (progs : nat -> list call) (s : state), reachable progs s ->
  (st_builds s <= 1)%nat /\
  (forall k c rs acc, t_pc (st_threads s k) = PSum c rs acc -> forall i, st_table s i = lookupTable i) /\
  (forall k c w, In (c, w) (t_res (st_threads s k)) ->
     match c with CWidth r => width r [] | CWidths rs => widths rs [] end = Ret w) /\
  (forall k c, t_pc (st_threads s k) = PFail c ->
     match c with CWidth r => width r [] | CWidths rs => widths rs [] end = Panic).
Proof. exact once_safe. Qed.
Print Assumptions C13_cache_concurrent.

Theorem C13_calls_complete_in_order : forall (progs : nat -> list call) (s : state), reachable progs s ->
  forall k, map fst (t_res (st_threads s k)) ++ current (t_pc (st_threads s k)) ++ t_todo (st_threads s k) = progs k.
Proof. exact once_order. Qed.
Print Assumptions C13_calls_complete_in_order.

Theorem C13_no_deadlock : forall (progs : nat -> list call) (s : state), reachable progs s -> forall k,
  (exists c, t_pc (st_threads s k) = PFail c) \/
  (t_pc (st_threads s k) = PIdle /\ t_todo (st_threads s k) = []) \/
  (exists j s', step s j s').
Proof. exact once_progress. Qed.
Print Assumptions C13_no_deadlock.

Example C13_ex : exists s,
  reachable (fun k => match k with 0%nat => [CWidth 97] | 1%nat => [CWidths [97; 0x4e2d]] | _ => [] end) s /\
  t_res (st_threads s 0%nat) = [(CWidth 97, 1)] /\ t_pc (st_threads s 1%nat) = PLock (CWidths [97; 0x4e2d]) /\
  st_builds s = 1%nat.
Proof. exact once_run. Qed.

(** C67: [columns] and [setting] are in SpecWidth.v; [pickEast], [pickSkip], [pickAmb] select an option of a kind *)
Theorem C67_width_exact : forall (r : rune) (opts : list wopt) east skip amb w,
  setting pickEast false opts east -> setting pickSkip false opts skip -> setting pickAmb 2 opts amb ->
  (width r opts = Ret w <-> columns east skip amb r w).
Proof. exact width_exact. Qed.
Print Assumptions C67_width_exact.
Example C67_ex : setting pickAmb 2 [WithEastAsianAmbiguousWidth 7; WithEastAsian true; WithEastAsianAmbiguousWidth 3] 3 /\
  width 0xf8 [WithEastAsianAmbiguousWidth 7; WithEastAsian true; WithEastAsianAmbiguousWidth 3] = Ret 3 /\
  width 0xad [] = Ret 0 /\ width 0x301 [] = Ret 0 /\ width 0x2e3a [] = Ret 3.
Proof.
  split; [right; eexists [_; _], _, []; split; [reflexivity|split; [reflexivity|constructor]]|]. repeat split; vm_compute; reflexivity.
Qed.
