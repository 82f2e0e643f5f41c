(** C109: BreakWord for any values of the options. *)
From Verif Require Import Base Unicode Utf8 SpecUtf8 Text SpecTrie Trie Dict SpecHyph SpecHyphAll FileProofs FileHyph Hyph HyphExact Cache Lang Shipped HyphTests HyphSafe PropHyph.
Local Open Scope text_scope.
Local Open Scope Z_scope.

(** From the bytes of the file; minLength, minLeft and minRight of any sign *)
Theorem C109_exact : forall (u : unicode) (name : str) (ls : list fline) (excs : list (list rune * list (list rune)))
  (bs : list byte) (o : hoptions) (w : list rune),
  okFile u ls excs -> utf8s (fileText ls excs) bs ->
  w <> [] -> Forall (fun r => isHyphenRune r = false) w -> o_minLength o <= zlen w ->
  match lastRule w (excRulesOf (toLower u) excs) with
  | Some pos => breakWord u (loadFile u name bs) o w =
      cutOrPanic w (keepFrom (fun i => Z.odd (nth i pos 0)) (o_minLeft o) (o_minRight o) (length w) 0 0 (length pos))
  | None => let rules := fun k => lastRule k (patternRulesOf (toLower u) ls) in let word := dotted (map (toLower u) w) in
      exists (f : nat -> Z) (allowed : nat -> bool) (N : nat), greatestGiven rules word (length w) f /\
        (forall i, allowed i = true <-> mayCut rules word (length w) f i) /\ (forall i, (N <= i)%nat -> allowed i = false) /\
        breakWord u (loadFile u name bs) o w = cutOrPanic w (keepFrom allowed (o_minLeft o) (o_minRight o) (length w) 0 0 N)
  end.
Proof. exact file_exact. Qed.
Print Assumptions C109_exact.

(** C42, C109: with the embedded files, no option makes BreakWord panic *)
Theorem C109_shipped : forall (u : unicode) (l : lang) (name : str) (o : hoptions) (w : list rune) (bs : list byte),
  knows u -> openFile (langToPattern l) = Some bs -> w <> [] ->
  exists parts, breakWord u (loadFile u name bs) o w = Ret parts /\ concat parts = w.
Proof. exact shipped_returns. Qed.
Print Assumptions C109_shipped.

(* the patterns "1ab" and "cd1.", or "cd1." alone, or "cd.1" *)
Definition cutEnds : list fline := [Patterns [([(Some 1,97);(None,98)],None); ([(None,99);(None,100);(Some 1,46)],None)]].
Definition cutEnd : list fline := [Patterns [([(None,99);(None,100);(Some 1,46)],None)]].
Definition pastEnd : list fline := [Patterns [([(None,99);(None,100);(None,46)],Some 1)]].
Definition dictOf (ls : list fline) : dictionary := loadFile ascii [] (runesBytes (fileText ls []) []).
Example C109_meets : okFile ascii cutEnds [] /\ utf8s (fileText cutEnds []) (runesBytes (fileText cutEnds []) []).
Proof.
  split.
  - split; repeat constructor; cbn; try lia; try discriminate; try reflexivity.
  - apply (Utf8Proofs.encode_all_utf8s (fileText cutEnds [])). repeat constructor; cbn; lia.
Qed.
(** "abcd": an empty last part needs a digit before the first letter, and minRight <= 0; a panic needs minRight < 0 *)
Example C109_ex :
  breakWord ascii (dictOf cutEnds) (mkHopts 4 2 0) [97;98;99;100] = Ret [[97;98;99;100]; []] /\
  breakWord ascii (dictOf cutEnds) (mkHopts 4 2 1) [97;98;99;100] = Ret [[97;98;99;100]] /\
  breakWord ascii (dictOf cutEnd) (mkHopts 4 2 0) [97;98;99;100] = Ret [[97;98;99;100]] /\
  breakWord ascii (dictOf pastEnd) (mkHopts 4 2 0) [97;98;99;100] = Ret [[97;98;99;100]] /\
  breakWord ascii (dictOf pastEnd) (mkHopts 4 2 (-1)) [97;98;99;100] = Panic.
Proof. vm_compute. repeat split. Qed.
(** Negative minima with the American patterns, "universities" *)
Example C109_shipped_ex : knows latinLow /\ bw dUs (mkHopts (-1) (-3) (-3)) "universities" = strs ["u"; "ni"; "ver"; "si"; "ties"].
Proof. split; [split; [reflexivity|repeat constructor]|]. vm_compute. reflexivity. Qed.
