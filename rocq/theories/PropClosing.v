(** C120: punctuation marks at the start of a line. [plainCall] is in Call.v. *)
From Coq Require Import String Ascii.
From Verif Require Import Base Arith ArithB64 Unicode Split SpecSplit SpecAnsi Hyph Nodes KP Render SpecKP Align Options Call Settings Fresh PropAlign Closing.
Open Scope Z_scope.

(** C120, with the default punctuator: a line other than the first that starts with a mark or a hyphen starts with the first character of a token, or with one that
    comes in its token just after another mark or hyphen, with which the line before ends *)
Theorem C120_closing : forall A L u o m punct parts lb tokens spare maxWidth W ord,
  plainCall A L u o m punct parts lb tokens spare maxWidth W ord ->
  (forall t, t <> [] -> punct t = splitAt (punctSplitFunc u) t) ->
  forall ls lb', leftAlignUniform A u ord spare lb tokens maxWidth = Ret (Some ls, lb') ->
  forall pre l1 r x post, ls = pre ++ l1 :: (r :: x) :: post -> punctSplitFunc u r || isHyphenRune r = true ->
  exists t, In t tokens /\ ((exists y, t = r :: y) \/
    exists a c y, t = a ++ c :: r :: y /\ punctSplitFunc u c || isHyphenRune c = true /\ exists z, l1 = z ++ [c]).
Proof. exact closing. Qed.
Print Assumptions C120_closing.

(** No line starts with a mark or a hyphen when no token does and none has two of them in a row *)
Theorem C120_no_mark_first : forall A L u o m punct parts lb tokens spare maxWidth W ord,
  plainCall A L u o m punct parts lb tokens spare maxWidth W ord ->
  (forall t, t <> [] -> punct t = splitAt (punctSplitFunc u) t) ->
  forall ls lb',
  Forall (fun t => (forall r y, t = r :: y -> punctSplitFunc u r || isHyphenRune r = false) /\
    forall a c r y, t = a ++ c :: r :: y -> punctSplitFunc u r || isHyphenRune r = true -> punctSplitFunc u c || isHyphenRune c = false) tokens ->
  leftAlignUniform A u ord spare lb tokens maxWidth = Ret (Some ls, lb') ->
  Forall (fun l => forall r x, l = r :: x -> punctSplitFunc u r || isHyphenRune r = false) ls.
Proof. exact closing_all. Qed.
Print Assumptions C120_no_mark_first.

(** [ex_call] of PropAlign.v is such a call, for every width: its punctuator is the default one *)
Example C120_ex_call w k : 0 < w <= 2 ^ 30 ->
  plainCall B BL ascii exO exM exPunct pairs exB (map txt exTokens) (fun _ => []) (n w) (1 * w) (from k) /\
  (forall t, t <> [] -> exPunct t = splitAt (punctSplitFunc ascii) t) /\
  Forall (fun t => (forall r y, t = r :: y -> punctSplitFunc ascii r || isHyphenRune r = false) /\
    forall a c r y, t = a ++ c :: r :: y -> punctSplitFunc ascii r || isHyphenRune r = true -> punctSplitFunc ascii c || isHyphenRune c = false) (map txt exTokens).
Proof.
  intros Hw. split; [now apply ex_call|]. split; [reflexivity|].
  assert (forall (sep : rune -> bool) (t : list rune), match t with r :: _ => negb (sep r) | [] => true end && forallb (fun p => negb (sep (fst p) && sep (snd p))) (combine t (tl t)) = true ->
    (forall r y, t = r :: y -> sep r = false) /\ forall a c r y, t = a ++ c :: r :: y -> sep r = true -> sep c = false) as Hc.
  { intros sep t H. apply andb_prop in H. destruct H as [H1 H2]. split; [intros r y ->; now destruct (sep r)|]. intros a c r y -> Hr. rewrite forallb_forall in H2.
    assert (In (c, r) (combine (a ++ c :: r :: y) (tl (a ++ c :: r :: y)))) as Hin.
    { clear. induction a as [|x a IH]; [now left|]. cbn [app tl]. assert (exists h z, a ++ c :: r :: y = h :: z) as (h & z & E) by (destruct a; cbn; eauto). rewrite E in *. cbn [combine tl] in *. now right. }
    specialize (H2 _ Hin). cbn [fst snd] in H2. rewrite Hr, andb_true_r in H2. now destruct (sep c). }
  repeat constructor; apply (Hc (fun r => punctSplitFunc ascii r || isHyphenRune r)); vm_compute; reflexivity.
Qed.
(** marks at the end of words stay there; a mark that starts a token can come first; of two marks, the second one can too *)
Example C120_ex_run : run exOpts (from 0) ["abc,"; "abc."; "abc;"]%string (n 4) = lines ["abc,"; "abc."; "abc;"]%string /\
  run exOpts (from 0) ["abc,"; "abc."; "abc;"]%string (n 3) = Ret None /\
  run exOpts (from 0) ["xyz"; "(abc"]%string (n 4) = lines ["xyz"; "(abc"]%string /\
  run exOpts (from 0) ["abc,)"]%string (n 4) = lines ["abc,"; ")"]%string.
Proof. repeat split; vm_compute; reflexivity. Qed.
