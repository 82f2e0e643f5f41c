(** C130: no-break characters. [startsFree], [follows] are in Combine.v, [endsFree], [partsFree] in Joined.v, [call], [offOpts] in PropCombine.v. *)
From Coq Require Import String Ascii.
From Verif Require HyphTests.
From Verif Require Import Base Arith ArithB64 Unicode Split SpecSplit Ansi SpecAnsi Hyph Nodes KP Render SpecKP Align Options Call Settings
  Fresh Combine Joined PropAlign PropCombine.
Open Scope Z_scope.

(** Full statement: for any tokens, and texts cut by the tokenizer. False, see below.

    [tied]: runes that are neither punctuation marks nor hyphens. No line starts or ends with one of them, if no token does, none comes after a punctuation mark or a
    hyphen, and the hyphenator cuts next to none of them *)
Theorem C130_joined_partial : forall (tied : rune -> Prop) A L u o m punct parts lb tokens spare maxWidth W ord,
  plainCall A L u o m punct parts lb tokens spare maxWidth W ord ->
  (forall r, tied r -> punctSplitFunc u r || isHyphenRune r = false) ->
  (forall t, punct t = splitAt (punctSplitFunc u) t) ->
  (l_wordBreak o = true -> forall w, (startsFree tied w -> Forall (startsFree tied) (parts w)) /\ partsFree tied (parts w)) ->
  Forall (fun t => startsFree tied t /\ endsFree tied t /\ follows tied (fun r => punctSplitFunc u r || isHyphenRune r) t) tokens ->
  forall ls lb', leftAlignUniform A u ord spare lb tokens maxWidth = Ret (Some ls, lb') -> Forall (fun l => startsFree tied l /\ endsFree tied l) ls.
Proof. exact joined_both. Qed.
Print Assumptions C130_joined_partial.

(** "a 10 km bbb", with a no-break space in the second token *)
Definition nbsp (r : rune) : Prop := r = 160 \/ r = 0x202f \/ r = 0x2060.
Definition km : list (list rune) := [[97]; [49; 48; 160; 107; 109]; [98; 98; 98]].
Example C130_ex : exists lb, newLineBreaker B ascii offOpts = Ret lb /\
  plainCall B BL ascii offO (fun t => 1 * cols t) (splitAt (punctSplitFunc ascii)) (partsOf (defaultHyphenator ascii)) lb km (fun _ => []) (n 6) (1 * 6) (from 0) /\
  (forall r, nbsp r -> punctSplitFunc ascii r || isHyphenRune r = false) /\ l_wordBreak offO = false /\
  Forall (fun t => startsFree nbsp t /\ endsFree nbsp t /\ follows nbsp (fun r => punctSplitFunc ascii r || isHyphenRune r) t) km /\
  call ascii offOpts km 6 = Ret (Some km).
Proof.
  destruct (settings_new B BL ascii _ _ _ _ off_settings) as (sp & hy & E & _). eexists. split; [exact E|]. split; [|split; [|split; [reflexivity|split]]].
  - apply make_call; [exact off_settings|now apply us_new|apply plain_check; vm_compute; reflexivity| | | | |lia|apply from_all].
    + split; [discriminate|]. repeat (constructor; [discriminate|]). constructor.
    + intros a b. rewrite cols_app. lia.
    + vm_compute. discriminate.
    + apply scaled_width with (k := 1) (n := 6); [apply (rep_Z B BL); unfold exactZ; lia|lia|apply (rep_Z B BL); unfold exactZ; lia|lia|lia].
  - intros r [->|[->| ->]]; vm_compute; reflexivity.
  - assert (forall t, forallb (fun r => negb (punctSplitFunc ascii r || isHyphenRune r)) t = true -> match t with [] => True | r :: _ => r < 160 end -> last t 0 < 160 ->
      startsFree nbsp t /\ endsFree nbsp t /\ follows nbsp (fun r => punctSplitFunc ascii r || isHyphenRune r) t) as C.
    { intros t H1 H2 H3. split; [intros r x ->; unfold nbsp; lia|]. split; [intros x r ->; rewrite last_last in H3; unfold nbsp; lia|].
      intros a x r b -> _. rewrite forallb_forall in H1. specialize (H1 x). apply Bool.negb_true_iff, H1. apply in_or_app. right. now left. }
    repeat (constructor; [apply C; (vm_compute; reflexivity) || lia|]). constructor.
  - vm_compute. reflexivity.
Qed.

(** The tokenizer cuts at no-break spaces, and drops them *)
Theorem C130_tokenizer_refuted : exists text tokens w ls, In 160 text /\ tokenizerBreakWord text = Ret tokens /\
  call ascii offOpts tokens w = Ret (Some ls) /\ ls = [[49; 48]; [107; 109]] /\ text = [49; 48] ++ 160 :: [107; 109].
Proof. exists [49; 48; 160; 107; 109], [[49; 48]; [107; 109]], 4, [[49; 48]; [107; 109]]. split; [right; right; now left|]. repeat (split; [vm_compute; reflexivity|]). reflexivity. Qed.
Print Assumptions C130_tokenizer_refuted.
(** U+2011, the hyphen that does not break, is a hyphen like the others *)
Theorem C130_hyphen_refuted : exists t w, call ascii [WithHyphenator (Some (fun w => Ret [w]))] [t] w = Ret (Some [[97; 98; 99; 100; 0x2011]; [101; 102]]) /\
  t = [97; 98; 99; 100; 0x2011; 101; 102].
Proof. exists [97; 98; 99; 100; 0x2011; 101; 102], 6. split; [|reflexivity]. vm_compute. reflexivity. Qed.
Print Assumptions C130_hyphen_refuted.
(** French quotes have a no-break space inside: the line is cut between the opening quote and the space *)
Theorem C130_mark_refuted : exists t w, call ascii offOpts [t] w = Ret (Some [[171]; [160; 109; 111; 116; 160; 187]]) /\ t = [171; 160; 109; 111; 116; 160; 187].
Proof. exists [171; 160; 109; 111; 116; 160; 187], 6. split; [|reflexivity]. vm_compute. reflexivity. Qed.
Print Assumptions C130_mark_refuted.
(** American patterns cut before U+2060, the word joiner *)
Theorem C130_joiner_refuted : exists t w, call ascii [WithHyphenator (Some (breakWord HyphTests.latinLow HyphTests.dUs defaultHopts))] [t] w =
    Ret (Some [[109; 105; 115; 45]; [0x2060; 114; 105; 121; 121; 97]]) /\ t = [109; 105; 115; 0x2060; 114; 105; 121; 121; 97].
Proof. exists [109; 105; 115; 0x2060; 114; 105; 121; 121; 97], 6. split; [|reflexivity]. vm_compute. reflexivity. Qed.
Print Assumptions C130_joiner_refuted.
