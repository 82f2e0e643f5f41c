(** C110: LeftAlignUniform on platforms that convert float64 values that do not fit in an int differently. *)
From Coq Require Import String Ascii Permutation.
From Flocq Require Import BinarySingleNaN.
From Verif Require Import Base Arith ArithB64 Unicode Split SpecSplit Hyph KP Nodes Render SpecKP Options Call Settings AlignProofs Fresh Succeed Platform Total Convert PropAlign.
Open Scope Z_scope.

(** For any options and any tokens: if the widths of the blanks, which only depend on the options, are converted to the same numbers, then two platforms give the
    same result to every sequence of calls. [withInt A conv] is [A] with [conv] for int(x) (Convert.v) *)
Theorem C110_conversion : forall A conv u calls lb, sameBlanks A conv lb -> setAll (withInt A conv) u (clb A conv lb) calls = setAll A u lb calls.
Proof. exact all_conv. Qed.
Print Assumptions C110_conversion.
(** float64: if these widths fit in an int *)
Theorem C110_same : forall c1 c2 pow u (opts : list (lbOption (b64on c1 pow))) lb1, newLineBreaker (b64on c1 pow) u opts = Ret lb1 -> blanksFit lb1 = true ->
  exists lb2, newLineBreaker (b64on c2 pow) u (platform c2 opts) = Ret lb2 /\ forall calls, setAll (b64on c2 pow) u lb2 calls = setAll (b64on c1 pow) u lb1 calls.
Proof. exact platforms_all. Qed.
Print Assumptions C110_same.

(** Over the iteration orders of the map, the same lines are returned on both *)
Theorem C110_lines : forall (c1 c2 : binary64 -> Z) pow (L1 : laws (b64on c1 pow)) (L2 : laws (b64on c2 pow)) u (o : lopts (b64on c1 pow))
    m punct parts tokens (maxWidth : binary64) W lb1 spare1 ord1 lb2 spare2 ord2,
  plainCall (b64on c1 pow) L1 u o m punct parts lb1 tokens spare1 maxWidth W ord1 ->
  plainCall (b64on c2 pow) L2 u (onPlatform c2 o) m punct parts lb2 tokens spare2 maxWidth W ord2 -> forall ls,
  (exists ord lb', (forall i k, Permutation (ord i k) [C0; C1; C2; C3]) /\
     leftAlignUniform (b64on c1 pow) u ord spare1 lb1 tokens maxWidth = Ret (Some ls, lb')) ->
  (exists ord lb', (forall i k, Permutation (ord i k) [C0; C1; C2; C3]) /\
     leftAlignUniform (b64on c2 pow) u ord spare2 lb2 tokens maxWidth = Ret (Some ls, lb')).
Proof. exact platforms_same. Qed.
Print Assumptions C110_lines.
(** whether there are lines does not depend on either *)
Theorem C110_set : forall (c1 c2 : binary64 -> Z) pow (L1 : laws (b64on c1 pow)) (L2 : laws (b64on c2 pow)) u (o : lopts (b64on c1 pow))
    m punct parts tokens (maxWidth : binary64) W lb1 spare1 ord1 lb2 spare2 ord2,
  plainCall (b64on c1 pow) L1 u o m punct parts lb1 tokens spare1 maxWidth W ord1 ->
  plainCall (b64on c2 pow) L2 u (onPlatform c2 o) m punct parts lb2 tokens spare2 maxWidth W ord2 ->
  exists r1 lb1' r2 lb2', leftAlignUniform (b64on c1 pow) u ord1 spare1 lb1 tokens maxWidth = Ret (r1, lb1') /\
    leftAlignUniform (b64on c2 pow) u ord2 spare2 lb2 tokens maxWidth = Ret (r2, lb2') /\ (r1 = None <-> r2 = None).
Proof. exact platforms_set. Qed.
Print Assumptions C110_set.

(** New(opts...) then LeftAlignUniform on a platform *)
Definition runOn (c : binary64 -> Z) (opts : list (lbOption (b64on c mulPow))) (tokens : list string) (width : Z) : go (option (list (list rune))) :=
  let! lb := newLineBreaker (b64on c mulPow) ascii opts in
  let! x := leftAlignUniform (b64on c mulPow) ascii (from 0) (fun _ => []) lb (map txt tokens) (ofInt width) in
  Ret (fst x).
Definition optsOn c : list (lbOption (b64on c mulPow)) := [WithHyphenator (Some byTwo)].
Definition lawsOn c : laws (b64on c mulPow) := platformLaws c mulPow mulPow_ok.
Definition oOn c : lopts (b64on c mulPow) := withOptions (b64on c mulPow) (defaultHyphenator ascii) (defaultPunctuator ascii) (optsOn c).
Example C110_settings c : settings (b64on c mulPow) (lawsOn c) ascii (oOn c) exM exPunct pairs.
Proof.
  apply (make_settings (b64on c mulPow) (lawsOn c) ascii (optsOn c) (fun n => 1 * n) cols).
  - apply (tol_inf (b64on c mulPow) (lawsOn c)).
  - apply scaling_int; [lia|]. apply (rep_Z (b64on c mulPow) (lawsOn c)). unfold exactZ. lia.
  - apply default_measures.
  - vm_compute. reflexivity.
  - vm_compute. discriminate.
  - apply default_punctuator.
  - apply byTwo_cuts.
  - destruct (default_reached (b64on c mulPow) (lawsOn c) ascii) as [_ _ _ _ _ H]. exact H.
Qed.
Example C110_call c w k : 0 < w <= 2 ^ 30 -> exists lb,
  plainCall (b64on c mulPow) (lawsOn c) ascii (oOn c) exM exPunct pairs lb (map txt exTokens) (fun _ => []) (ofInt w) (1 * w) (from k).
Proof.
  intros Hw. destruct (settings_new (b64on c mulPow) (lawsOn c) ascii (oOn c) exM exPunct pairs (C110_settings c)) as (sp & hy & E & _).
  exists (mkBreaker (oOn c) sp hy []). apply make_call; [exact (C110_settings c)|now apply us_new|exact ex_plain| | | | |lia|apply from_all].
  - split; [discriminate|]. repeat constructor; discriminate.
  - intros a b. unfold exM. rewrite cols_app. lia.
  - vm_compute. discriminate.
  - apply scaled_width with (k := 1) (n := w); [apply (rep_Z _ (lawsOn c)); unfold exactZ; lia|lia|apply (rep_Z _ (lawsOn c)); unfold exactZ; lia|lia|lia].
Qed.
Example C110_same_options c1 c2 : onPlatform c2 (oOn c1) = oOn c2.
Proof. reflexivity. Qed.
Example C110_ex : runOn amd64 (optsOn amd64) exTokens 8 = lines ["ab, ab-"; "cdef gh-"; "ijk xyz"]%string /\
  runOn arm64 (optsOn arm64) exTokens 8 = lines ["ab, ab-"; "cdef gh-"; "ijk xyz"]%string.
Proof. split; vm_compute; reflexivity. Qed.

(** a negative scale factor, a scale factor of 1/3, an infinite hyphen penalty and no tolerance; a paragraph, then one that is too wide, then one that starts with
    three empty tokens *)
Definition inf64 : binary64 := fdiv B (ofInt 1) (ofInt 0).
Definition oddOn c (k : binary64) : list (lbOption (b64on c mulPow)) :=
  [WithHyphenator (Some byTwo); @WithScaleFactor (b64on c mulPow) k; @WithHyphenPenalty (b64on c mulPow) inf64; @WithTolerance (b64on c mulPow) inf64].
Definition exCalls (w : Z) : list ((nat -> nat -> list fclass) * (nat -> list rune) * list (list rune) * binary64) :=
  [(from 0, fun _ => [], map txt ["ab"; "abcdef"], ofInt w); (from 1, fun _ => [], map txt ["abcdef"], ofInt 1); (from 0, fun _ => [], map txt [""; ""; ""; "a"], ofInt 1)]%string.
Definition fitsOn c (opts : list (lbOption (b64on c mulPow))) : bool := match newLineBreaker (b64on c mulPow) ascii opts with Ret lb => blanksFit lb | Panic => false end.
Definition allOn c (opts : list (lbOption (b64on c mulPow))) (w : Z) : list (go (option (list (list rune)))) :=
  match newLineBreaker (b64on c mulPow) ascii opts with Ret lb => setAll (b64on c mulPow) ascii lb (exCalls w) | Panic => [] end.
Example C110_same_ex c : fitsOn c (oddOn c (ofInt (-1))) = true /\ fitsOn c (oddOn c (fdiv B (ofInt 1) (ofInt 3))) = true /\ fitsOn c (oddOn c (ofInt 0)) = false /\
  allOn amd64 (optsOn amd64) 6 = [lines ["ab"; "abcdef"]; Ret None; Panic]%string /\ platform amd64 (oddOn c inf64) = oddOn amd64 inf64.
Proof. repeat (split; [vm_compute; reflexivity|]). reflexivity. Qed.

(** With any options: no. A scale factor of 0 makes the call panic on one platform, and drops the blanks on the other *)
Theorem C110_platform_refuted : exists tokens w,
  runOn amd64 [@WithScaleFactor (b64on amd64 mulPow) (ofInt 0); WithWordBreak false] tokens w = Panic /\
  runOn arm64 [@WithScaleFactor (b64on arm64 mulPow) (ofInt 0); WithWordBreak false] tokens w = lines ["ab"]%string.
Proof. exists ["a"; "b"]%string, 10. split; vm_compute; reflexivity. Qed.
Print Assumptions C110_platform_refuted.
