(** C115: LeftAlignUniform terminates, whatever the values of the options. [breakPointsWith], [measuresAll], [cutsAll], [cutsSome], [returnsOption], [decided]
    are in Total.v, [reached] and [readable] in AnyCall.v. *)
From Coq Require Import String Ascii.
From Verif Require Import Base Arith ArithB64 Unicode Split SpecSplit Ansi SpecAnsi Attr Hyph Nodes KP Render Align Options Call Settings PropAlign SpecFormat Format PropFormat
  SpecAny AnyCall PropAny Total.
Open Scope Z_scope.

(** C115: the search ends on its own on any nodes and widths, whatever the numbers in them: more turns change nothing *)
Theorem C115_search : forall A ko ord nodes widths, widths <> [] ->
  exists res, breakPoints A ko ord nodes widths = Ret res /\ forall extra, breakPointsWith A ko extra ord nodes widths = Ret res.
Proof. exact search_ends. Qed.
Print Assumptions C115_search.

(** with any options, on any tokens that can be read, the nodes are made and the breaks are decided; what is left is to write the lines *)
Theorem C115_call : forall A u opts, Forall returnsOption opts -> let o := withOptions A (defaultHyphenator u) (defaultPunctuator u) opts in
  forall lb seqs ord spare tokens itemss maxWidth, reached A u o lb seqs -> readable u tokens spare itemss ->
  exists nodes attrs res, decided A u lb ord spare tokens maxWidth nodes attrs res /\
    leftAlignUniform A u ord spare lb tokens maxWidth =
      let lb' := mkBreaker (lb_opts lb) (lb_spaceWidth lb) (lb_hyphenWidth lb) attrs in
      match res with None => Ret (None, lb') | Some bs => let! ls := render A (lb_opts lb) attrs nodes bs in Ret (Some ls, lb') end.
Proof. exact options_total. Qed.
Print Assumptions C115_call.

(** not a number everywhere, and a measurer that finds all words infinitely wide *)
Definition nan : F B := fdiv B (n 0) (n 0).
Definition inf : F B := fdiv B (n 1) (n 0).
Definition oddOpts : list (lbOption B) :=
  [WithTolerance nan; WithHyphenPenalty nan; WithScaleFactor nan; WithMeasurer (fun _ => Ret inf); WithHyphenator (Some byTwo); WithLooseness (-7)].
Definition lowOpts : list (lbOption B) := [WithHyphenPenalty (n (-15)); WithHyphenator (Some byTwo)].
Lemma byTwo_some : cutsSome byTwo.
Proof.
  intros w Hn Hw. destruct (pairs_ok (length w) w (le_n _)) as [E _]. destruct (pairs w) as [|p ps] eqn:Ep; [cbn in E; congruence|].
  exists p, ps. unfold byTwo. rewrite Ep. split; [reflexivity|]. apply words_concat. now rewrite E.
Qed.
Example C115_ex : Forall returnsOption oddOpts /\ PropAlign.run oddOpts (from 0) ["ab"; "abcdef"; "a"]%string nan = Ret None /\
  Forall returnsOption lowOpts /\ PropAlign.run lowOpts (from 0) ["a"; "ccc"; "abcdef"]%string (n 3) = Panic /\
  PropAlign.run lowOpts (from 0) ["a"; "ccc"; "abcdef"]%string (n 12) = lines ["a ccc abcdef"]%string.
Proof.
  assert (forall p, Forall returnsOption [@WithHyphenPenalty B p; WithHyphenator (Some byTwo)]) as K
    by (intros p; constructor; [exact I|]; constructor; [exact byTwo_some|constructor]).
  split; [|split; [vm_compute; reflexivity|split; [apply K|split; vm_compute; reflexivity]]].
  constructor; [exact I|]. constructor; [exact I|]. constructor; [exact I|]. constructor; [intros w _; now exists inf|]. constructor; [exact byTwo_some|].
  constructor; [exact I|constructor].
Qed.

(** a panic is due to blanks of a negative width, which depends on the options only, or to a line that has neither text nor a forced break *)
Theorem C115_panics : forall A u opts, Forall returnsOption opts -> let o := withOptions A (defaultHyphenator u) (defaultPunctuator u) opts in
  forall lb seqs ord spare tokens itemss maxWidth, reached A u o lb seqs -> readable u tokens spare itemss ->
  leftAlignUniform A u ord spare lb tokens maxWidth = Panic ->
  negativeBlank A lb \/ exists nodes attrs bs, decided A u lb ord spare tokens maxWidth nodes attrs (Some bs) /\ emptyLine A nodes 0 (map b_position bs).
Proof. exact options_panics. Qed.
Print Assumptions C115_panics.
(** a measurer with negative widths; and the widths of all the blanks with [lowOpts] *)
Definition minusOpts : list (lbOption B) := [WithMeasurer (fun w => Ret (n (- zlen w))); WithWordBreak false].
Definition blanks (opts : list (lbOption B)) : list Z :=
  match newLineBreaker B ascii opts with
  | Ret lb => flat_map (fun w => map (fun s => fint B (downScale B (lb_opts lb) (fadd B w (fmul B (n 0) s)))) [n 0; l_glueStretch (lb_opts lb); fopp B (l_glueStretch (lb_opts lb)); infinity B]) [n 0; lb_spaceWidth lb]
  | Panic => []
  end.
Example C115_ex_panics : Forall returnsOption minusOpts /\ PropAlign.run minusOpts (from 0) ["a"; "b"]%string (n 10) = Panic /\ blanks minusOpts = [0; 0; 0; 0; -1; -1; -1; -1] /\
  PropAlign.run lowOpts (from 0) ["a"; "ccc"; "abcdef"]%string (n 3) = Panic /\ blanks lowOpts = [0; 0; 0; 0; 1; 1; 1; 1].
Proof.
  split; [constructor; [intros w _; eexists; reflexivity|]; constructor; [exact I|constructor]|].
  split; [vm_compute; reflexivity|]. split; [vm_compute; reflexivity|]. split; vm_compute; reflexivity.
Qed.

(** and there is a panic whenever a line has neither text nor a forced break *)
Theorem C115_empty : forall A u lb, feq A (minusInfinity A) (minusInfinity A) = true ->
  forall ord spare tokens maxWidth nodes attrs bs, decided A u lb ord spare tokens maxWidth nodes attrs (Some bs) ->
  emptyLine A nodes 0 (map b_position bs) -> leftAlignUniform A u ord spare lb tokens maxWidth = Panic.
Proof. exact empty_panics. Qed.
Print Assumptions C115_empty.
(** the breaks of C115_ex_panics with [lowOpts]: the third line is from node 5 to node 6, and none of the nodes 5, 6, 7 is a box or a forced break *)
Example C115_ex_empty : feq B (minusInfinity B) (minusInfinity B) = true /\
  match newLineBreaker B ascii lowOpts with
  | Ret lb =>
      match leftAlignedNodes B ascii lb (map txt ["a"; "ccc"; "abcdef"]%string) (fun _ => []) with
      | Ret (nodes, attrs) =>
          match breakPoints B (l_search (lb_opts lb)) (from 0) nodes [scale B (lb_opts lb) (n 3)] with
          | Ret (Some bs) => map b_position bs = [2; 5; 6; 11; 16; 20]%nat /\ map (fun nd => isBox nd || isForcedBreak nd) (firstn 3 (skipn 5 nodes)) = [false; false; false]
          | _ => False
          end
      | Panic => False
      end
  | Panic => False
  end.
Proof. split; [vm_compute; reflexivity|]. vm_compute. split; reflexivity. Qed.
