(** C132: texts written without spaces. [plainCall] is in Call.v, [call] in PropCombine.v. *)
From Coq Require Import String Ascii.
From Verif Require Import Base Arith ArithB64 Unicode Split SpecSplit Ansi SpecAnsi Hyph Nodes KP Render SpecKP Align Options Call Settings
  Fresh Parts PropAlign PropCombine.
Open Scope Z_scope.

(** Hyphens printed: every text without marks whose parts, each with a hyphen, fit in a line can be set *)
Theorem C132_parts_partial : forall A L u o m punct parts lb tokens spare maxWidth W ord,
  plainCall A L u o m punct parts lb tokens spare maxWidth W ord -> l_punctuator o = defaultPunctuator u ->
  k_tolerance (l_search o) = fTolerance A -> W <= 85948 -> l_wordBreak o = true -> l_renderHyphens o = true ->
  feq A (l_hyphenPenalty o) (fZ A 10000) = false ->
  Forall (fun t => Forall (fun r => punctSplitFunc u r = false /\ isHyphenRune r = false) t /\
    (zlen t <= 4 -> m t <= W /\ m t + m [32] <= 52) /\
    (4 < zlen t -> Forall (fun p => m p + m [45] <= W /\ m p + m [45] + m [32] <= 52) (parts t))) tokens ->
  exists ls lb', leftAlignUniform A u ord spare lb tokens maxWidth = Ret (Some ls, lb').
Proof. exact align_parts. Qed.
Print Assumptions C132_parts_partial.

(** A hyphenator that cuts between any two runes *)
Definition each : splitFunc := fun w => Ret (map (fun r => [r]) w).
Definition eachOpts : list (lbOption B) := [WithHyphenator (Some each)].
Definition han : list rune := [0x65e5; 0x672c; 0x8a9e; 0x306e; 0x6587; 0x7ae0].
Definition eachO : lopts B := withOptions B (defaultHyphenator ascii) (defaultPunctuator ascii) eachOpts.
Definition singles (w : list rune) : list (list rune) := map (fun r => [r]) w.
Lemma each_cuts : cuts each singles.
Proof.
  intros w _. split; [reflexivity|]. induction w as [|r w [IH1 IH2]]; [split; [reflexivity|constructor]|]. unfold singles in *. cbn [map concat app].
  rewrite IH1. split; [reflexivity|]. constructor; [discriminate|exact IH2].
Qed.
Example each_settings : settings B BL ascii eachO exM exPunct singles.
Proof.
  apply (make_settings B BL ascii eachOpts (fun n => 1 * n) cols).
  - apply (tol_inf B BL).
  - apply scaling_int; [lia|]. apply (rep_Z B BL). unfold exactZ. lia.
  - apply default_measures.
  - vm_compute. reflexivity.
  - vm_compute. discriminate.
  - apply default_punctuator.
  - apply each_cuts.
  - destruct (default_reached B BL ascii) as [_ _ _ _ _ H]. exact H.
Qed.
Example each_call : exists lb, newBreaker B eachO = Ret lb /\
  plainCall B BL ascii eachO exM exPunct singles lb [han] (fun _ => []) (n 7) 7 (from 0) /\
  l_punctuator eachO = defaultPunctuator ascii /\ k_tolerance (l_search eachO) = fTolerance B /\ l_wordBreak eachO = true /\
  l_renderHyphens eachO = true /\ feq B (l_hyphenPenalty eachO) (fZ B 10000) = false.
Proof.
  destruct (settings_new B BL ascii _ _ _ _ each_settings) as (sp & hy & E & _). eexists. split; [exact E|]. split; [|repeat split].
  apply make_call; [exact each_settings|now apply us_new|apply plain_check; vm_compute; reflexivity| | | | |lia|apply from_all].
  + split; [discriminate|]. repeat constructor; discriminate.
  + intros a b. unfold exM. rewrite cols_app. lia.
  + vm_compute. discriminate.
  + apply scaled_width with (k := 1) (n := 7); [apply (rep_Z B BL); unfold exactZ; lia|lia|apply (rep_Z B BL); unfold exactZ; lia|lia|lia].
Qed.
Example C132_ex : Forall (fun r => punctSplitFunc ascii r = false /\ isHyphenRune r = false) han /\ 4 < zlen han /\
  Forall (fun p => cols p + cols [45] <= 7 /\ cols p + cols [45] + cols [32] <= 52) (singles han) /\
  call ascii eachOpts [han] 7 = Ret (Some [[0x65e5; 0x672c; 0x8a9e; 45]; [0x306e; 0x6587; 0x7ae0]]).
Proof.
  split; [repeat constructor|]. split; [reflexivity|]. split; [repeat constructor; vm_compute; discriminate|]. vm_compute. reflexivity.
Qed.

(** Hyphens not printed, as such texts are: set on lines of 6 columns, refused on lines of 7 *)
Theorem C132_odd_refuted : exists t w, cols t <= 2 * w /\
  call ascii (WithRenderHyphens false :: eachOpts) [t] w = Ret (Some [firstn 3 t; skipn 3 t]) /\
  call ascii (WithRenderHyphens false :: eachOpts) [t] (w + 1) = Ret None.
Proof. exists han, 6. split; [vm_compute; discriminate|]. split; vm_compute; reflexivity. Qed.
Print Assumptions C132_odd_refuted.
(** Zero-width spaces (U+200B) do not help *)
Theorem C132_zero_width_refuted : exists t w, cols t = 12 /\ call ascii offOpts [t] w = Ret None /\ w = 6 /\ nth 3 t 0 = 0x200b /\
  call ascii offOpts [firstn 3 t; skipn 4 t] w = Ret (Some [firstn 3 t; skipn 4 t]).
Proof.
  exists (firstn 3 han ++ 0x200b :: skipn 3 han), 6. split; [vm_compute; reflexivity|]. split; [vm_compute; reflexivity|]. split; [reflexivity|]. split; vm_compute; reflexivity.
Qed.
Print Assumptions C132_zero_width_refuted.
