(** C127: stricter options of the hyphenator. *)
From Verif Require Import Base Unicode Text SpecHyph Hyph HyphProofs Minima Dict Cache Lang HyphTests.
Local Open Scope text_scope.
Local Open Scope Z_scope.

(** [stricter o o'] (Minima.v): none of the three minima of [o'] is smaller than that of [o], and minRight is not negative.

    Full statement: each cut made with [o'] is made with [o]. False, see C127_left_refuted. It holds when minLeft is the same:
    with [o'], the last parts made with [o] are one part *)
Theorem C127_right_partial : forall (u : unicode) (d : dictionary) (o o' : hoptions) (w : list rune),
  stricter o o' -> o_minLeft o = o_minLeft o' ->
  exists kept glued, breakWord u d o w = Ret (kept ++ glued) /\ breakWord u d o' w = Ret (kept ++ [concat glued]).
Proof. exact stricter_right. Qed.
Print Assumptions C127_right_partial.

(** and whatever minLeft, there are no more parts with [o'] *)
Theorem C127_count : forall (u : unicode) (d : dictionary) (o o' : hoptions) (w : list rune), stricter o o' ->
  exists parts parts', breakWord u d o w = Ret parts /\ breakWord u d o' w = Ret parts' /\ (length parts' <= length parts)%nat.
Proof. exact stricter_count. Qed.
Print Assumptions C127_count.

(* American patterns: uni-ver-si-ty; with 4 runes on the right of a hyphen at least, uni-ver-sity *)
Example C127_ex : stricter defaultHopts (mkHopts 4 2 4) /\ bw dUs defaultHopts "university" = strs ["uni"; "ver"; "si"; "ty"] /\
  bw dUs (mkHopts 4 2 4) "university" = strs ["uni"; "ver"; "sity"] /\ stricter defaultHopts (mkHopts 5 4 3) /\
  bw dUs (mkHopts 5 4 3) "university" = strs ["univer"; "sity"].
Proof. repeat (split; [first [vm_compute; reflexivity|unfold stricter; cbn; lia]|]). vm_compute. reflexivity. Qed.

(* ed-uca-tion with 2 runes on the left of a hyphen at least; with 3, edu-cation, though 2 did not allow it *)
Theorem C127_left_refuted : exists w, stricter defaultHopts (mkHopts 4 3 2) /\
  bw dUs defaultHopts w = strs ["ed"; "uca"; "tion"] /\ bw dUs (mkHopts 4 3 2) w = strs ["edu"; "cation"].
Proof. exists "education". split; [unfold stricter; cbn; lia|]. split; vm_compute; reflexivity. Qed.
Print Assumptions C127_left_refuted.
