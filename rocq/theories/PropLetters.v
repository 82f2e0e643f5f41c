(** C129: characters replaced by others of the same kind and width. [alike], [sameCase], [wordsOf], [keeps], [followed] are in Letters.v. *)
From Coq Require Import String Ascii.
From Verif Require Import Base Arith ArithB64 Unicode Split SpecSplit Width Hyph Dict Lang HyphTests Ansi SpecAnsi Attr Nodes KP Render Align Options Call Settings PropAlign Letters.
Open Scope Z_scope.

(** For any measurer and word breakers: same lines, with the characters replaced; same error, same panics *)
Theorem C129_replaced : forall A u o f lb1 lb2 ord spare1 spare2 tokens maxWidth, keeps A u o f -> Forall (followed A o f) tokens ->
  usable A u o lb1 -> usable A u o lb2 -> plainTokens tokens spare1 -> plainTokens (map (map f) tokens) spare2 ->
  (let! x := leftAlignUniform A u ord spare2 lb2 (map (map f) tokens) maxWidth in Ret (fst x)) =
  (let! x := leftAlignUniform A u ord spare1 lb1 tokens maxWidth in Ret (option_map (map (map f)) (fst x))).
Proof. exact lines_replaced. Qed.
Print Assumptions C129_replaced.

(** Words not broken, default measurer and punctuator *)
Theorem C129_kinds : forall A u o f lb1 lb2 ord spare1 spare2 tokens maxWidth, l_measurer o = defaultMeasurer A -> l_punctuator o = punctuatorBreakWord u -> alike u f ->
  usable A u o lb1 -> usable A u o lb2 -> plainTokens tokens spare1 -> plainTokens (map (map f) tokens) spare2 -> l_wordBreak o = false ->
  (let! x := leftAlignUniform A u ord spare2 lb2 (map (map f) tokens) maxWidth in Ret (fst x)) =
  (let! x := leftAlignUniform A u ord spare1 lb1 tokens maxWidth in Ret (option_map (map (map f)) (fst x))).
Proof. exact lines_kinds. Qed.
Print Assumptions C129_kinds.

(** Case, with the hyphenator of a dictionary. Full statement: without the condition on exceptions; false, see below. *)
Theorem C129_case_partial : forall A u o f lb1 lb2 ord spare1 spare2 tokens maxWidth, l_measurer o = defaultMeasurer A -> l_punctuator o = punctuatorBreakWord u -> alike u f ->
  usable A u o lb1 -> usable A u o lb2 -> plainTokens tokens spare1 -> plainTokens (map (map f) tokens) spare2 ->
  forall d ho, l_hyphenator o = breakWord u d ho -> 0 <= o_minRight ho -> sameCase u f ->
  (forall t w, In t tokens -> In w (wordsOf u t) -> isException d w = None /\ isException d (map f w) = None) ->
  (let! x := leftAlignUniform A u ord spare2 lb2 (map (map f) tokens) maxWidth in Ret (fst x)) =
  (let! x := leftAlignUniform A u ord spare1 lb1 tokens maxWidth in Ret (option_map (map (map f)) (fst x))).
Proof. exact lines_case. Qed.
Print Assumptions C129_case_partial.

(** Capitals *)
Definition upper (r : rune) : rune := if (97 <=? r) && (r <=? 122) then r - 32 else r.
Lemma upper_all (P : rune -> rune -> Prop) : (forall r, P r r) -> Forall (fun k => P (Z.of_nat k) (Z.of_nat k - 32)) (seq 97 26) -> forall r, P r (upper r).
Proof.
  intros H F r. unfold upper. destruct ((97 <=? r) && (r <=? 122)) eqn:E; [|apply H]. apply andb_prop in E. destruct E as [E1 E2].
  apply Z.leb_le in E1, E2. rewrite Forall_forall in F. specialize (F (Z.to_nat r)). rewrite Z2Nat.id in F by lia. apply F. apply in_seq. lia.
Qed.
Lemma upper_alike : alike ascii upper.
Proof.
  constructor; try reflexivity.
  - apply (upper_all (fun r s => widths [s] [] = widths [r] [])); [reflexivity|]. repeat (constructor; [vm_compute; reflexivity|]). constructor.
  - apply (upper_all (fun r s => punctSplitFunc ascii s = punctSplitFunc ascii r)); [reflexivity|]. repeat (constructor; [vm_compute; reflexivity|]). constructor.
  - apply (upper_all (fun r s => isHyphenRune s = isHyphenRune r)); [reflexivity|]. repeat (constructor; [vm_compute; reflexivity|]). constructor.
Qed.
Definition usOpts : list (lbOption B) := [WithHyphenator (Some (breakWord ascii dUs defaultHopts))].
Definition usText : list string := ["a"; "subdivision"; "of"; "majestuous,"; "ancillary"; "words"]%string.
Definition usCaps : list string := ["A"; "SUBDIVISION"; "OF"; "MAJESTUOUS,"; "ANCILLARY"; "WORDS"]%string.
Example C129_ex : alike ascii upper /\ (forall r, toLower ascii (upper r) = toLower ascii r) /\ map (map upper) (map txt usText) = map txt usCaps /\
  flat_map (wordsOf ascii) (map txt usText) = map txt ["a"; "subdivision"; "of"; "majestuous"; ","; "ancillary"; "words"]%string /\
  forallb (fun w => match isException dUs w, isException dUs (map upper w) with None, None => true | _, _ => false end) (flat_map (wordsOf ascii) (map txt usText)) = true /\
  run usOpts (from 0) usText (n 9) = lines ["a sub-"; "division"; "of ma-"; "jestuous,"; "ancillary"; "words"]%string /\
  run usOpts (from 0) usCaps (n 9) = lines ["A SUB-"; "DIVISION"; "OF MA-"; "JESTUOUS,"; "ANCILLARY"; "WORDS"]%string.
Proof.
  split; [exact upper_alike|]. split; [apply (upper_all (fun r s => toLower ascii s = toLower ascii r)); [reflexivity|]; repeat (constructor; [vm_compute; reflexivity|]); constructor|].
  repeat (split; [vm_compute; reflexivity|]). vm_compute. reflexivity.
Qed.

(** Exceptions of the American file: a word that can be cut cannot in capitals *)
Theorem C129_exception_refuted : exists t1 t2 w, map (map upper) (map txt t1) = map txt t2 /\
  run usOpts (from 0) t1 (n w) = lines ["ta-"; "ble"]%string /\ run usOpts (from 0) t2 (n w) = Ret None.
Proof. exists ["table"%string], ["TABLE"%string], 4. repeat (split; [vm_compute; reflexivity|]). vm_compute. reflexivity. Qed.
Print Assumptions C129_exception_refuted.
