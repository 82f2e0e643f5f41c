(** C117, C118: the lines of LeftAlignUniform in terminal columns and in characters. [columnMeasurer], [counted] are in Display.v, [usable], [plainTokens] in Call.v,
    [okOption] in Settings.v. *)
From Coq Require Import String Ascii.
From Verif Require Import Base Arith ArithB64 Unicode Split SpecSplit Width SpecWidth Ansi SpecAnsi Hyph Nodes KP Render Align Options Call Settings Display PropAlign.
Open Scope Z_scope.

(** runes.Widths, with any options, is a permissible measurer *)
Theorem C117_measurer : forall wo, 0 <= defaultAsianAmbiguousWidth (optionsWithDefaults wo) -> forall A L, okOption A L (WithMeasurer (columnMeasurer A wo)).
Proof. exact column_ok. Qed.
Print Assumptions C117_measurer.

(** C117: with such a measurer, by default without options, no line has more columns than asked for, as runes.Width counts them with the same options.
    Text with U+2E3B is excluded if not in East-Asian mode. *)
Theorem C117_columns_partial : forall A L u opts wo, let o := withOptions A (defaultHyphenator u) (defaultPunctuator u) opts in
  Forall (okOption A L) opts -> l_measurer o = columnMeasurer A wo -> l_scale o = fZ A 1 -> 0 <= defaultAsianAmbiguousWidth (optionsWithDefaults wo) ->
  forall lb tokens spare maxWidth n ord, usable A u o lb -> plainTokens tokens spare -> tokens <> [] /\ Forall (fun t => t <> []) tokens ->
  Z.max 4 (defaultAsianAmbiguousWidth (optionsWithDefaults wo)) * zlen (joinWith 32 tokens) <= 2 ^ 50 -> rep A L maxWidth n -> 0 < n <= 2 ^ 50 -> (forall i k c, In c (ord i k)) ->
  forall ls lb', Forall (counted wo) tokens -> leftAlignUniform A u ord spare lb tokens maxWidth = Ret (Some ls, lb') ->
  Forall (fun l => exists ws, Forall2 (fun r x => width r wo = Ret x) l ws /\ zsum ws <= n) ls.
Proof. exact display_width. Qed.
Print Assumptions C117_columns_partial.

(** a text as runes *)
Definition call (opts : list (lbOption B)) (tokens : list (list rune)) (w : Z) : go (option (list (list rune))) :=
  let! lb := newLineBreaker B ascii opts in
  let! x := leftAlignUniform B ascii (from 0) (fun _ => []) lb tokens (n w) in
  Ret (fst x).
(** U+4E2D has two columns; U+00F8 one, and two in East-Asian mode *)
Definition wideTokens : list (list rune) := [[0x4e2d; 0x4e2d]; txt "ab"; [0xf8; 0xf8]; txt "cde"]%string.
Definition eastOpts : list (lbOption B) := [WithMeasurer (columnMeasurer B [WithEastAsian true]); WithHyphenator (Some byTwo)].
Lemma byTwo_ok : okOption B BL (WithHyphenator (Some byTwo)).
Proof. exists pairs. intros w _. split; [reflexivity|]. exact (pairs_ok (length w) w (le_n _)). Qed.
Example C117_ex : Forall (okOption B BL) exOpts /\ l_measurer exO = columnMeasurer B [] /\ l_scale exO = n 1 /\ usable B ascii exO exB /\
  plainTokens wideTokens (fun _ => []) /\ Forall (counted []) wideTokens /\ call exOpts wideTokens 7 = Ret (Some [[0x4e2d; 0x4e2d; 32; 97; 98]; [0xf8; 0xf8; 32; 99; 100; 101]]) /\
  Forall (okOption B BL) eastOpts /\ call eastOpts wideTokens 7 = Ret (Some [[0x4e2d; 0x4e2d]; [97; 98; 32; 0xf8; 0xf8]; [99; 100; 101]]).
Proof.
  split; [constructor; [exact byTwo_ok|constructor]|]. split; [reflexivity|]. split; [reflexivity|]. split; [exact ex_usable|].
  split; [apply plain_check; vm_compute; reflexivity|]. split.
  { apply Forall_forall. intros t Ht _. cbn in Ht. destruct Ht as [<-|[<-|[<-|[<-|[]]]]]; cbn; intuition lia. }
  split; [vm_compute; reflexivity|]. split; [|vm_compute; reflexivity].
  constructor; [|constructor; [exact byTwo_ok|constructor]]. apply column_ok. vm_compute. discriminate.
Qed.
(** false for U+2E3B, which has four columns and is counted for none *)
Theorem C117_columns_refuted : exists tokens ls, call [WithWordBreak false] tokens 4 = Ret (Some ls) /\
  exists l ws, In l ls /\ Forall2 (fun r x => width r [] = Ret x) l ws /\ zsum ws = 17.
Proof.
  exists [[0x2e3b; 0x2e3b; 0x2e3b]; [0x2e3b]], [[0x2e3b; 0x2e3b; 0x2e3b; 32; 0x2e3b]]. split; [vm_compute; reflexivity|].
  exists [0x2e3b; 0x2e3b; 0x2e3b; 32; 0x2e3b], [4; 4; 4; 1; 4]. split; [now left|]. split; [|reflexivity].
  constructor; [vm_compute; reflexivity|]. constructor; [vm_compute; reflexivity|]. constructor; [vm_compute; reflexivity|].
  constructor; [vm_compute; reflexivity|]. constructor; [vm_compute; reflexivity|constructor].
Qed.
Print Assumptions C117_columns_refuted.

(** C118: the documentation of WithMeasurer, "by default, all characters in a token are considered with width 1", holds of characters of one column *)
Theorem C118_characters_partial : forall A L u opts wo, let o := withOptions A (defaultHyphenator u) (defaultPunctuator u) opts in
  Forall (okOption A L) opts -> l_measurer o = columnMeasurer A wo -> l_scale o = fZ A 1 -> 0 <= defaultAsianAmbiguousWidth (optionsWithDefaults wo) ->
  forall lb tokens spare maxWidth n ord, usable A u o lb -> plainTokens tokens spare -> tokens <> [] /\ Forall (fun t => t <> []) tokens ->
  Z.max 4 (defaultAsianAmbiguousWidth (optionsWithDefaults wo)) * zlen (joinWith 32 tokens) <= 2 ^ 50 -> rep A L maxWidth n -> 0 < n <= 2 ^ 50 -> (forall i k c, In c (ord i k)) ->
  Forall (Forall (fun r => width r wo = Ret 1)) tokens ->
  (forall ls lb', leftAlignUniform A u ord spare lb tokens maxWidth = Ret (Some ls, lb') -> Forall (fun l => zlen l <= n) ls) /\
  (k_tolerance (l_search o) = fTolerance A -> zlen (joinWith 32 tokens) <= n <= 4997 ->
   exists lb', leftAlignUniform A u ord spare lb tokens maxWidth = Ret (Some [joinWith 32 tokens], lb')).
Proof. exact display_runes. Qed.
Print Assumptions C118_characters_partial.
Example C118_ex : Forall (Forall (fun r => width r [] = Ret 1)) [txt "ab"; [0xf8; 0xf8]; txt "c,d-e"]%string /\
  call exOpts [txt "ab"; [0xf8; 0xf8]; txt "c,d-e"]%string 5 = Ret (Some [[97; 98; 32; 0xf8; 0xf8]; [99; 44; 100; 45; 101]]).
Proof.
  split; [|vm_compute; reflexivity].
  assert (forall ts, forallb (forallb (fun r => match width r [] with Ret w => w =? 1 | Panic => false end)) ts = true -> Forall (Forall (fun r => width r [] = Ret 1)) ts) as K.
  { intros ts H. apply Forall_forall. intros t Ht. apply Forall_forall. intros r Hr. rewrite forallb_forall in H. specialize (H t Ht). rewrite forallb_forall in H. specialize (H r Hr).
    destruct (width r []) as [w|]; [|discriminate]. apply Z.eqb_eq in H. now subst. }
  apply K. vm_compute. reflexivity.
Qed.
(** three characters do not fit in three; and a line has more characters than asked for (e with an acute accent that combines with it) *)
Theorem C118_characters_refuted : (exists tokens, zlen (joinWith 32 tokens) = 3 /\ call [WithWordBreak false] tokens 3 = Ret None) /\
  exists tokens ls, call [WithWordBreak false] tokens 3 = Ret (Some ls) /\ exists l, In l ls /\ 3 < zlen l.
Proof.
  split; [exists [[0x4e2d; 0x4e2d; 0x4e2d]]; split; vm_compute; reflexivity|].
  exists [[101; 0x301; 101; 0x301; 101; 0x301]], [[101; 0x301; 101; 0x301; 101; 0x301]]. split; [vm_compute; reflexivity|].
  eexists. split; [now left|]. vm_compute. reflexivity.
Qed.
Print Assumptions C118_characters_refuted.
