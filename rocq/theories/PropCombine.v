(** C119: combining marks stay with their base character. [startsFree], [follows] are in Combine.v, [plainCall] in Call.v. *)
From Coq Require Import String Ascii.
From Verif Require HyphTests ShippedProofs.
From Verif Require Import Base Arith ArithB64 Unicode Split SpecSplit Width SpecWidth WidthProofs Tables Ansi SpecAnsi Hyph Nodes KP Render SpecKP Align Options Call Settings
  Fresh Combine PropAlign.
Open Scope Z_scope.

(** C119, for any runes [tied] that are neither punctuation marks nor hyphens, with the default punctuator: no line starts with one of them, if no token does, none comes
    after a punctuation mark or a hyphen, and the hyphenator cuts before none of them *)
Theorem C119_combining_partial : forall (tied : rune -> Prop) A L u o m punct parts lb tokens spare maxWidth W ord,
  plainCall A L u o m punct parts lb tokens spare maxWidth W ord ->
  (forall r, tied r -> punctSplitFunc u r || isHyphenRune r = false) ->
  (forall t, punct t = splitAt (punctSplitFunc u) t) ->
  (l_wordBreak o = true -> forall w, startsFree tied w -> Forall (startsFree tied) (parts w)) ->
  Forall (fun t => startsFree tied t /\ follows tied (fun r => punctSplitFunc u r || isHyphenRune r) t) tokens ->
  forall ls lb', leftAlignUniform A u ord spare lb tokens maxWidth = Ret (Some ls, lb') -> Forall (startsFree tied) ls.
Proof. exact tied_lines. Qed.
Print Assumptions C119_combining_partial.

(** a text as runes; word breaking off *)
Definition call (u : unicode) (opts : list (lbOption B)) (tokens : list (list rune)) (w : Z) : go (option (list (list rune))) :=
  let! lb := newLineBreaker B u opts in
  let! x := leftAlignUniform B u (from 0) (fun _ => []) lb tokens (n w) in
  Ret (fst x).
Definition offOpts : list (lbOption B) := [WithWordBreak false].
Definition offO : lopts B := withOptions B (defaultHyphenator ascii) (defaultPunctuator ascii) offOpts.
Lemma off_settings : settings B BL ascii offO (fun t => 1 * cols t) (splitAt (punctSplitFunc ascii)) (partsOf (defaultHyphenator ascii)).
Proof.
  apply (make_settings B BL ascii offOpts (fun n => 1 * n) cols).
  - apply (tol_inf B BL).
  - apply scaling_int; [lia|]. apply (rep_Z B BL). unfold exactZ. lia.
  - apply default_measures.
  - vm_compute. reflexivity.
  - vm_compute. discriminate.
  - apply default_punctuator.
  - apply default_hyphenator.
  - apply (default_reached B BL ascii).
Qed.
(** é, è written as e and an accent that combines with it: "élève, été" *)
Definition accents : list (list rune) := [[101; 0x301; 108; 101; 0x300; 118; 101; 44]; [101; 0x301; 116; 101; 0x301]].
Definition accent (r : rune) : Prop := 0x300 <= r <= 0x36f.
Example C119_ex : exists lb, newLineBreaker B ascii offOpts = Ret lb /\
  plainCall B BL ascii offO (fun t => 1 * cols t) (splitAt (punctSplitFunc ascii)) (partsOf (defaultHyphenator ascii)) lb accents (fun _ => []) (n 6) (1 * 6) (from 0) /\
  (forall r, accent r -> punctSplitFunc ascii r || isHyphenRune r = false) /\ l_wordBreak offO = false /\
  Forall (fun t => startsFree accent t /\ follows accent (fun r => punctSplitFunc ascii r || isHyphenRune r) t) accents /\
  call ascii offOpts accents 6 = Ret (Some accents).
Proof.
  destruct (settings_new B BL ascii _ _ _ _ off_settings) as (sp & hy & E & _). eexists. split; [exact E|]. split; [|split; [|split; [reflexivity|split]]].
  - apply make_call; [exact off_settings|now apply us_new|apply plain_check; vm_compute; reflexivity| | | | |lia|apply from_all].
    + split; [discriminate|]. constructor; [discriminate|]. constructor; [discriminate|constructor].
    + intros a b. rewrite cols_app. lia.
    + vm_compute. discriminate.
    + apply scaled_width with (k := 1) (n := 6); [apply (rep_Z B BL); unfold exactZ; lia|lia|apply (rep_Z B BL); unfold exactZ; lia|lia|lia].
  - intros r Hr. unfold accent in Hr. apply Bool.orb_false_intro.
    + unfold punctSplitFunc, isPunct. replace (r <=? 255) with false by lia. cbn [u_punct ascii]. replace (r =? 124) with false by lia. replace (r =? 44) with false by lia. replace (0 <=? r) with true by lia. replace (r <? 0) with false by lia. reflexivity.
    + unfold isHyphenRune, hyphen_table. cbn [existsb]. lia.
  - assert (forall t, forallb (fun p => negb ((0x300 <=? snd p) && (snd p <=? 0x36f)) || negb (punctSplitFunc ascii (fst p) || isHyphenRune (fst p))) (combine t (tl t)) = true ->
      match t with [] => True | r :: _ => r < 0x300 end -> startsFree accent t /\ follows accent (fun r => punctSplitFunc ascii r || isHyphenRune r) t) as C.
    { intros t H1 H2. split; [intros r x ->; unfold accent; lia|]. intros a x r b -> Hr. rewrite forallb_forall in H1.
      assert (In (x, r) (combine (a ++ x :: r :: b) (tl (a ++ x :: r :: b)))) as Hin.
      { clear. induction a as [|y a IH]; [now left|]. cbn [app tl combine]. destruct a; cbn [app] in *; [now right; left|right; exact IH]. }
      specialize (H1 _ Hin). cbn [fst snd] in H1. unfold accent in Hr. replace ((0x300 <=? r) && (r <=? 0x36f)) with true in H1 by lia. cbn [negb orb] in H1. now apply Bool.negb_true_iff in H1. }
    constructor; [|constructor; [|constructor]]; apply C; (vm_compute; reflexivity) || lia.
  - vm_compute. reflexivity.
Qed.

(** false after a punctuation mark: the symbol of the # key is U+0023 U+20E3 (a frame that combines with the rune before), and it is cut there *)
Theorem C119_mark_refuted : exists ls l r x, call ascii offOpts [[97; 98; 99; 35; 0x20e3; 100; 101; 102]] 4 = Ret (Some ls) /\ In l ls /\ l = r :: x /\ member r combining.
Proof.
  exists [[97; 98; 99; 35]; [0x20e3; 100; 101; 102]], [0x20e3; 100; 101; 102], 0x20e3, [100; 101; 102]. split; [vm_compute; reflexivity|]. split; [right; left; reflexivity|]. split; [reflexivity|].
  apply memberb_iff. vm_compute. reflexivity.
Qed.
Print Assumptions C119_mark_refuted.
(** false with the American patterns, the default: misriyya with a dot below the s, written as U+0073 U+0323, is cut before the dot *)
Theorem C119_hyphen_refuted : exists ls l r x,
  call ascii [WithHyphenator (Some (breakWord HyphTests.latinLow HyphTests.dUs defaultHopts))] [[109; 105; 115; 0x323; 114; 105; 121; 121; 97]] 6 = Ret (Some ls) /\
  In l ls /\ l = r :: x /\ member r combining.
Proof.
  exists [[109; 105; 115; 45]; [0x323; 114; 105; 121; 121; 97]], [0x323; 114; 105; 121; 121; 97], 0x323, [114; 105; 121; 121; 97]. split; [vm_compute; reflexivity|]. split; [right; left; reflexivity|]. split; [reflexivity|].
  apply memberb_iff. vm_compute. reflexivity.
Qed.
Print Assumptions C119_hyphen_refuted.
