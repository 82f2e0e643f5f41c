(** C32-C42: pattern files and hyphenation. Every statement holds for every Unicode table [u]. *)
From Verif Require Import Base Unicode Utf8 SpecUtf8 SpecTrie Trie Dict SpecHyph DictProofs FileProofs Hyph HyphProofs FileHyph
  Cache CacheProofs.

Definition ascii : unicode := mkUnicode (fun _ => false) (fun _ => false) (fun r => r).

(** C32 *)
Theorem C32_pattern_decoding : forall (u : unicode) (items : list (option Z * rune)) (final : option Z),
  Forall (fun i => okDigit (fst i) /\ isDigit u (snd i) = false) items -> okDigit final ->
  readPattern u (patternText items final) = (map (fun i => toLower u (snd i)) items, patternDigits items final).
Proof. exact readPattern_spec. Qed.
Print Assumptions C32_pattern_decoding.

(* "a5Ban2" *)
Definition exPattern : pattern := ([(None, 97); (Some 5, 66); (None, 97); (None, 110)], Some 2).
Example C32_ex : Forall (fun i => okDigit (fst i) /\ isDigit ascii (snd i) = false) (fst exPattern) /\
  pText exPattern = [97;53;66;97;110;50] /\ readPattern ascii (pText exPattern) = ([97;98;97;110], [0;5;0;0;2]).
Proof. split; [repeat constructor; cbn; lia|]. split; reflexivity. Qed.

(** C33 *)
Theorem C33_exception_decoding : forall (u : unicode) (s : list rune) (ss : list (list rune)),
  Forall (fun s => s <> [] /\ Forall (fun r => isHyphenRune r = false) s) (s :: ss) ->
  (forall r, hd_error s = Some r -> r <> 37 /\ r <> 92 /\ r <> 125) ->
  readException u (hyphenated s ss) = (map (toLower u) (concat (s :: ss)), mask s ss).
Proof. exact readException_spec. Qed.
Print Assumptions C33_exception_decoding.

(* "ta-ble" *)
Example C33_ex : hyphenated [116;97] [[98;108;101]] = [116;97;45;98;108;101] /\
  readException ascii [116;97;45;98;108;101] = ([116;97;98;108;101], [0;0;1;0;0]).
Proof. split; reflexivity. Qed.

(** C34, from the bytes of a file of comments, lines of patterns and exceptions *)
Theorem C34_file_rules : forall (u : unicode) (name : str) (ls : list fline) (excs : list (list rune * list (list rune)))
  (bs : list byte),
  Forall (okLine u) ls -> Forall okExc excs -> utf8s (fileText ls excs) bs ->
  (forall k, get (d_patterns (loadFile u name bs)) k = lastRule k (patternRulesOf (toLower u) ls)) /\
  (forall k, k <> [] -> get (d_exceptions (loadFile u name bs)) k = lastRule k (excRulesOf (toLower u) excs)).
Proof. exact loadFile_rules. Qed.
Print Assumptions C34_file_rules.

(** C34, any lines: each section holds the rules of its lines, in the order of the file, and nothing else *)
Theorem C34_any_lines : forall (u : unicode) (name : str) (lines : list str),
  (forall k, get (d_patterns (loadLines u name lines)) k = lastRule k (map (readPattern u) (patternRules lines))) /\
  (forall k, k <> [] ->
     get (d_exceptions (loadLines u name lines)) k = lastRule k (map (readException u) (exceptionRules lines))).
Proof. exact loadLines_spec. Qed.
Print Assumptions C34_any_lines.

(* "%x", "a1b c2d", "a3b", then the exceptions "ta-ble" and "é-a" *)
Definition exFile : list fline :=
  [Comment [120]; Patterns [([(None,97);(Some 1,98)],None); ([(None,99);(Some 2,100)],None)]; Patterns [([(None,97);(Some 3,98)],None)]].
Definition exExcs : list (list rune * list (list rune)) := [([116;97],[[98;108;101]]); ([0xe9],[[97]])].
Definition exBytes : list byte := runesBytes (fileText exFile exExcs) [].
Example C34_ex_hyp : okFile ascii exFile exExcs /\ utf8s (fileText exFile exExcs) exBytes.
Proof.
  split.
  - split; repeat constructor; cbn; try lia; try discriminate; try reflexivity.
  - apply (Utf8Proofs.encode_all_utf8s (fileText exFile exExcs)). repeat constructor; cbn; lia.
Qed.
Example C34_ex : get (d_patterns (loadFile ascii [] exBytes)) [97;98] = Some [0;3] /\
  get (d_exceptions (loadFile ascii [] exBytes)) [0xe9;97] = Some [0;1].
Proof. split; reflexivity. Qed.

(** C35: in every reachable state of any number of goroutines, under every schedule, for every file system. Results are
    addresses; [nth_error (st_heap s) p] is the dictionary at [p]. *)
Theorem C35_cache_shared : forall (u : unicode) (files : fname -> option (list byte)) (progs : nat -> list fname) (s : state),
  reachable u files progs s ->
  NoDup (st_opened s) /\
  (forall k1 k2 f v1 v2, In (f, v1) (t_res (st_threads s k1)) -> In (f, v2) (t_res (st_threads s k2)) -> v1 = v2) /\
  (forall k f v, In (f, v) (t_res (st_threads s k)) ->
     match files f with
     | None => v = None
     | Some bs => exists p, v = Some p /\ nth_error (st_heap s) p = Some (loadFile u (defaultName f) bs)
     end) /\
  (forall k1 k2 f g p, In (f, Some p) (t_res (st_threads s k1)) -> In (g, Some p) (t_res (st_threads s k2)) -> f = g) /\
  (forall k f, t_pc (st_threads s k) <> PFail f).
Proof. exact cache_safe. Qed.
Print Assumptions C35_cache_shared.

Theorem C35_calls_in_order : forall (u : unicode) (files : fname -> option (list byte)) (progs : nat -> list fname) (s : state),
  reachable u files progs s ->
  forall k, map fst (t_res (st_threads s k)) ++ current (t_pc (st_threads s k)) ++ t_todo (st_threads s k) = progs k.
Proof. exact cache_order. Qed.
Print Assumptions C35_calls_in_order.

Theorem C35_no_deadlock : forall (u : unicode) (files : fname -> option (list byte)) (progs : nat -> list fname) (s : state),
  reachable u files progs s -> forall k,
  (t_pc (st_threads s k) = PIdle /\ t_todo (st_threads s k) = []) \/ exists j s', step u files s j s'.
Proof. exact cache_progress. Qed.
Print Assumptions C35_no_deadlock.

Example C35_ex : let f := [97] in exists s,
  reachable ascii (fun _ => Some []) (fun k => match k with 0%nat | 1%nat => [f] | _ => [] end) s /\
  t_res (st_threads s 0%nat) = [(f, Some 0%nat)] /\ t_res (st_threads s 1%nat) = [(f, Some 0%nat)] /\ st_opened s = [f].
Proof. exact (cache_run ascii). Qed.

(** C36 *)
Theorem C36_lossless : forall (u : unicode) (d : dictionary) (o : hoptions) (w : list rune), 0 <= o_minRight o ->
  exists parts, breakWord u d o w = Ret parts /\ parts <> [] /\ concat parts = w /\
    (forall pre p post, parts = pre ++ p :: post -> post <> [] ->
       o_minLeft o <= zlen p /\ o_minRight o <= zlen (concat post)).
Proof. exact breakWord_lossless. Qed.
Print Assumptions C36_lossless.

(** C37. Full statement: every part but the last has at least max(1, minLeft) runes; false when minLeft is not positive
    and an exception starts with a hyphen. C36_lossless proves it for minLeft >= 1 (and, for any minLeft, with minLeft
    instead of the maximum). *)
Theorem C37_minima_partial : forall (u : unicode) (d : dictionary) (o : hoptions) (w : list rune),
  1 <= o_minLeft o -> 0 <= o_minRight o ->
  exists parts, breakWord u d o w = Ret parts /\
    (forall pre p post, parts = pre ++ p :: post -> post <> [] ->
       Z.max 1 (o_minLeft o) <= zlen p /\ o_minRight o <= zlen (concat post)).
Proof. exact breakWord_minima. Qed.
Print Assumptions C37_minima_partial.

(* header, "-foo", "}" *)
Definition dashFile : list byte := excHeader ++ [10;45;102;111;111;10;125;10].
Theorem C37_empty_part_refuted : exists (u : unicode) (bs : list byte) (o : hoptions) (w : list rune),
  0 <= o_minRight o /\ breakWord u (loadFile u [] bs) o w = Ret ([] :: [w]).
Proof. exists ascii, dashFile, (mkHopts 2 0 0), [102;111;111]. split; [cbn; lia|]. vm_compute. reflexivity. Qed.
Print Assumptions C37_empty_part_refuted.

(** C38 *)
Theorem C38_left_whole : forall (u : unicode) (d : dictionary) (o : hoptions) (w : list rune),
  Exists (fun r => isHyphenRune r = true) w \/ zlen w < o_minLength o -> breakWord u d o w = Ret [w].
Proof. exact breakWord_whole. Qed.
Print Assumptions C38_left_whole.

(** C39, from the bytes of the file. Full statement: the theorem below without the bounds on minRight and on the length of
    the word. Both are needed, see the refutations. *)
Theorem C39_liang_partial : forall (u : unicode) (name : str) (ls : list fline) (excs : list (list rune * list (list rune)))
  (bs : list byte) (o : hoptions) (w : list rune),
  okFile u ls excs -> utf8s (fileText ls excs) bs ->
  w <> [] -> Forall (fun r => isHyphenRune r = false) w -> o_minLength o <= zlen w ->
  lastRule w (excRulesOf (toLower u) excs) = None ->
  1 <= o_minLeft o -> 2 <= o_minRight o -> zlen w <= 27 + o_minRight o ->
  exists allowed : nat -> bool,
    (forall i, (0 < i)%nat -> o_minRight o <= zlen w - Z.of_nat i ->
       exists m, greatest (fun k => lastRule k (patternRulesOf (toLower u) ls)) (dotted (map (toLower u) w)) (S i) m /\
         allowed i = Z.odd m) /\
    breakWord u (loadFile u name bs) o w = Ret (cutAt w 0 (keep allowed (o_minLeft o) (o_minRight o) (length w))).
Proof. exact file_liang. Qed.
Print Assumptions C39_liang_partial.

(** C39, words of any length: what is done exactly. Past position 27, a break needs a pattern reaching further. *)
Theorem C39_any_length_partial : forall (u : unicode) (name : str) (ls : list fline)
  (excs : list (list rune * list (list rune))) (bs : list byte) (o : hoptions) (w : list rune),
  okFile u ls excs -> utf8s (fileText ls excs) bs ->
  w <> [] -> Forall (fun r => isHyphenRune r = false) w -> o_minLength o <= zlen w ->
  lastRule w (excRulesOf (toLower u) excs) = None ->
  1 <= o_minLeft o -> 2 <= o_minRight o ->
  let rules := fun k => lastRule k (patternRulesOf (toLower u) ls) in
  let word := dotted (map (toLower u) w) in
  exists allowed : nat -> bool,
    (forall i, (0 < i)%nat -> o_minRight o <= zlen w - Z.of_nat i ->
       exists m, greatest rules word (S i) m /\
         (allowed i = true <-> Z.odd m = true /\ ((i < 28)%nat \/ reaches rules word (length w) (i + 2)))) /\
    breakWord u (loadFile u name bs) o w = Ret (cutAt w 0 (keep allowed (o_minLeft o) (o_minRight o) (length w))).
Proof. exact file_liang_any. Qed.
Print Assumptions C39_any_length_partial.

(* the only pattern is a1b; the word is 29 a's followed by bc *)
Definition a1b : list fline := [Patterns [([(None,97);(Some 1,98)],None)]].
Definition a1bFile : list byte := runesBytes (fileText a1b []) [].
Definition longWord : list rune := repeat 97 29 ++ [98;99].
Theorem C39_long_word_refuted : exists (u : unicode) (ls : list fline) (bs : list byte) (w : list rune),
  okFile u ls [] /\ utf8s (fileText ls []) bs /\ Forall (fun r => isHyphenRune r = false) w /\
  greatest (fun k => lastRule k (patternRulesOf (toLower u) ls)) (dotted (map (toLower u) w)) 30 1 /\
  zlen w = 31 /\ breakWord u (loadFile u [] bs) defaultHopts w = Ret [w].
Proof.
  exists ascii, a1b, a1bFile, longWord. split; [|split; [|split; [|split; [|split]]]].
  - split; repeat constructor; cbn; try lia; try discriminate; try reflexivity.
  - apply (Utf8Proofs.encode_all_utf8s (fileText a1b [])). repeat constructor; cbn; lia.
  - repeat constructor.
  - split; [|split; [lia|right]].
    + intros v (pre & k & post & digits & _ & _ & Hk & _ & Hn).
      change (lastRule k [([97;98], [0;1])] = Some digits) in Hk. cbn [lastRule] in Hk.
      match type of Hk with context [list_eq_dec ?a ?b ?c] => destruct (list_eq_dec a b c) as [->|]; [|discriminate] end. injection Hk as <-.
      destruct (30 - length pre)%nat as [|[|n]]; cbn in Hn; [injection Hn as <-; lia|injection Hn as <-; lia|].
      destruct n; discriminate.
    + exists (46 :: repeat 97 28), [97;98], [99;46], [0;1]. repeat split; try discriminate. cbn. lia.
  - reflexivity.
  - vm_compute. reflexivity.
Qed.
Print Assumptions C39_long_word_refuted.

(* pattern 1d, word abcd, minima 1 and 1: "abc" "d" expected *)
Definition p1d : list fline := [Patterns [([(Some 1,100)],None)]].
Definition p1dFile : list byte := runesBytes (fileText p1d []) [].
Theorem C39_last_letter_refuted : exists (u : unicode) (ls : list fline) (bs : list byte) (w : list rune),
  okFile u ls [] /\ utf8s (fileText ls []) bs /\ Forall (fun r => isHyphenRune r = false) w /\
  greatest (fun k => lastRule k (patternRulesOf (toLower u) ls)) (dotted (map (toLower u) w)) 4 1 /\
  zlen w = 4 /\ breakWord u (loadFile u [] bs) (mkHopts 4 1 1) w = Ret [w].
Proof.
  exists ascii, p1d, p1dFile, [97;98;99;100]. split; [|split; [|split; [|split; [|split]]]].
  - split; repeat constructor; cbn; try lia; try discriminate; try reflexivity.
  - apply (Utf8Proofs.encode_all_utf8s (fileText p1d [])). repeat constructor; cbn; lia.
  - repeat constructor.
  - split; [|split; [lia|right]].
    + intros v (pre & k & post & digits & _ & _ & Hk & _ & Hn).
      change (lastRule k [([100], [1])] = Some digits) in Hk. cbn [lastRule] in Hk.
      match type of Hk with context [list_eq_dec ?a ?b ?c] => destruct (list_eq_dec a b c) as [->|]; [|discriminate] end. injection Hk as <-.
      destruct (4 - length pre)%nat as [|[|n]]; cbn in Hn; [injection Hn as <-; lia|discriminate..].
    + exists [46;97;98;99], [100], [46], [1]. repeat split; try discriminate. cbn. lia.
  - reflexivity.
  - vm_compute. reflexivity.
Qed.
Print Assumptions C39_last_letter_refuted.

(* with the file of C34_ex, "xabycd": a3b allows "xa" "bycd", c2d forbids *)
Example C39_ex : breakWord ascii (loadFile ascii [] exBytes) defaultHopts [120;97;98;121;99;100] = Ret [[120;97];[98;121;99;100]].
Proof. vm_compute. reflexivity. Qed.

(** C40: a word listed in the file with syllables that meet the minima *)
Theorem C40_listed_word : forall (u : unicode) (name : str) (ls : list fline) (excs : list (list rune * list (list rune)))
  (bs : list byte) (o : hoptions) (s : list rune) (ss : list (list rune)),
  okFile u ls excs -> utf8s (fileText ls excs) bs ->
  lastRule (concat (s :: ss)) (excRulesOf (toLower u) excs) = Some (mask s ss) ->
  Forall okSyllable (s :: ss) -> o_minLength o <= zlen (concat (s :: ss)) ->
  1 <= o_minLeft o -> 0 <= o_minRight o -> longEnough (o_minLeft o) (o_minRight o) s ss ->
  breakWord u (loadFile u name bs) o (concat (s :: ss)) = Ret (s :: ss).
Proof. exact file_exception. Qed.
Print Assumptions C40_listed_word.

(** C40, any minima: the mask of the exception alone decides *)
Theorem C40_exceptions_override : forall (u : unicode) (d : dictionary) (o : hoptions) (w : list rune) (pos : list Z),
  containsHyphen w = false -> o_minLength o <= zlen w -> isException d w = Some pos ->
  1 <= o_minLeft o -> 1 <= o_minRight o ->
  breakWord u d o w = Ret (cutAt w 0 (keep (fun i => Z.odd (nth i pos 0)) (o_minLeft o) (o_minRight o) (length w))).
Proof. exact breakWord_exception. Qed.
Print Assumptions C40_exceptions_override.

Example C40_ex : lastRule [116;97;98;108;101] (excRulesOf (toLower ascii) exExcs) = Some (mask [116;97] [[98;108;101]]) /\
  breakWord ascii (loadFile ascii [] exBytes) defaultHopts [116;97;98;108;101] = Ret [[116;97];[98;108;101]].
Proof. split; vm_compute; reflexivity. Qed.

(** C41. Full statement: without the two hypotheses on exceptions; false, see PropShipped.C41_case_refuted. *)
Theorem C41_case_partial : forall (u : unicode) (d : dictionary) (o : hoptions) (w1 w2 : list rune),
  0 <= o_minRight o -> map (toLower u) w1 = map (toLower u) w2 ->
  (forall r, isHyphenRune (toLower u r) = isHyphenRune r) ->
  isException d w1 = None -> isException d w2 = None ->
  exists p1 p2, breakWord u d o w1 = Ret p1 /\ breakWord u d o w2 = Ret p2 /\
    map (@length rune) p1 = map (@length rune) p2.
Proof. exact breakWord_case. Qed.
Print Assumptions C41_case_partial.

(** C42. Full statement: for every value of minRight; C36_lossless proves it for minRight >= 0. *)
Theorem C42_no_panic_partial : forall (u : unicode) (name : str) (bs : list byte) (o : hoptions) (w : list rune),
  0 <= o_minRight o -> exists parts, breakWord u (loadFile u name bs) o w = Ret parts.
Proof. exact breakWord_returns. Qed.
Print Assumptions C42_no_panic_partial.

(* pattern cd.1 *)
Definition cd1File : list byte := [99;100;46;49;10].
Theorem C42_negative_minright_refuted : exists (u : unicode) (bs : list byte) (o : hoptions) (w : list rune),
  breakWord u (loadFile u [] bs) o w = Panic.
Proof. exists ascii, cd1File, (mkHopts 4 2 (-1)), [97;98;99;100]. vm_compute. reflexivity. Qed.
Print Assumptions C42_negative_minright_refuted.
