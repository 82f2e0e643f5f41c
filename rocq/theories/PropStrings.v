(** C75, C76: LeftAlignUniform on strings (UTF-8 bytes). [plainCall] (Call.v) is about the decoded tokens. *)
From Coq Require Import String.
From Verif Require Import Base Arith ArithB64 Unicode Utf8 SpecUtf8 Utf8Proofs Split SpecSplit SplitProofs Hyph Nodes KP Render SpecKP SpecAnsi Align Options Call Settings Fresh AlignProofs Reuse Strings PropAlign.
Open Scope Z_scope.

(** ** Setting of the examples: "élan", "vital" and "naïf" in UTF-8 *)
Definition accents : list (list rune) := [[233; 108; 97; 110]; [118; 105; 116; 97; 108]; [110; 97; 239; 102]].
Definition accentBytes : list (list byte) := [[195; 169; 108; 97; 110]; [118; 105; 116; 97; 108]; [110; 97; 195; 175; 102]].
Lemma utf8s_check rs bs : (if list_eq_dec Z.eq_dec (runesBytes rs []) bs then true else false) = true ->
  forallb (fun r => (0 <=? r) && (r <=? 0x10ffff) && negb ((0xd800 <=? r) && (r <=? 0xdfff))) rs = true -> utf8s rs bs.
Proof.
  destruct (list_eq_dec _ _ _) as [<-|]; [|discriminate]. intros _ H. apply enc_utf8s. apply Forall_forall. intros r Hr.
  rewrite forallb_forall in H. specialize (H r Hr). unfold scalar. lia.
Qed.
Example accents_utf8 : Forall2 utf8s accents accentBytes.
Proof. repeat (constructor; [apply utf8s_check; vm_compute; reflexivity|]). constructor. Qed.
Example accents_call w k : 0 < w <= 2 ^ 30 ->
  plainCall B BL ascii exO exM exPunct pairs exB accents (fun _ => []) (n w) (1 * w) (from k).
Proof.
  intros Hw. apply make_call; [exact ex_settings|exact ex_usable|apply plain_check; vm_compute; reflexivity| | | | |lia|apply from_all].
  - split; [discriminate|]. repeat constructor; discriminate.
  - intros a b. unfold exM. rewrite cols_app. lia.
  - vm_compute. discriminate.
  - apply scaled_width with (k := 1) (n := w); [apply (rep_Z B BL); unfold exactZ; lia|lia|apply (rep_Z B BL); unfold exactZ; lia|lia|lia].
Qed.
(** New(opts...) then LeftAlignUniform(tokens, width) on bytes *)
Definition runBytes (opts : list (lbOption B)) (tokens : list (list byte)) (width : F B) : go (option (list (list byte))) :=
  let! lb := newLineBreaker B ascii opts in
  let! x := leftAlignStrings B ascii (from 0) (fun _ => []) lb tokens width in
  Ret (fst x).

(** ** Theorems *)

(** C75: on UTF-8 tokens, lossless byte for byte; the lines are the UTF-8 encodings of those of the theorems of PropAlign *)
Theorem C75_strings : forall A L u o m punct parts lb rtokens tokens spare maxWidth W ord, Forall2 utf8s rtokens tokens ->
  plainCall A L u o m punct parts lb rtokens spare maxWidth W ord -> forall ls lb',
  leftAlignStrings A u ord spare lb tokens maxWidth = Ret (Some ls, lb') ->
  reflow (l_renderHyphens o) (joinWith 32 tokens) ls /\
  exists rls, Forall2 utf8s rls ls /\ leftAlignUniform A u ord spare lb rtokens maxWidth = Ret (Some rls, lb').
Proof. exact strings_reflow. Qed.
Print Assumptions C75_strings.
Theorem C75_errors : forall A L u o m punct parts lb rtokens tokens spare maxWidth W ord, Forall2 utf8s rtokens tokens ->
  plainCall A L u o m punct parts lb rtokens spare maxWidth W ord ->
  exists res lb', leftAlignStrings A u ord spare lb tokens maxWidth = Ret (res, lb') /\
   (res = None <-> leftAlignUniform A u ord spare lb rtokens maxWidth = Ret (None, lb')).
Proof. exact strings_total. Qed.
Print Assumptions C75_errors.
Example C75_ex : runBytes exOpts accentBytes (n 7) = Ret (Some
  [[195; 169; 108; 97; 110]; [118; 105; 116; 97; 45]; [108; 32; 110; 97; 195; 175; 102]]).
Proof. vm_compute. reflexivity. Qed.
(** whatever the bytes of the tokens, the lines are UTF-8 *)
Theorem C75_valid : forall A L u o m punct parts lb tokens spare maxWidth W ord, Forall (Forall isByte) tokens ->
  plainCall A L u o m punct parts lb (map runesOf tokens) spare maxWidth W ord -> forall ls lb',
  leftAlignStrings A u ord spare lb tokens maxWidth = Ret (Some ls, lb') -> exists rls, Forall2 utf8s rls ls.
Proof. exact strings_valid. Qed.
Print Assumptions C75_valid.
(** bytes that are not UTF-8 are not kept: they become U+FFFD *)
Theorem C75_invalid_refuted : exists token, Forall isByte token /\
  runBytes [] [token] (n 10) = Ret (Some [[99; 97; 102; 239; 191; 189]]) /\ token = [99; 97; 102; 233].
Proof. exists [99; 97; 102; 233]. split; [repeat constructor; lia|]. split; [vm_compute; reflexivity|reflexivity]. Qed.
Print Assumptions C75_invalid_refuted.

(** C76: the tokenizer, then LeftAlignUniform *)
Theorem C76_text : forall A L u o m punct parts lb text rtext spare maxWidth W ord rtokens, utf8s rtext text -> fields isSpace rtext rtokens ->
  plainCall A L u o m punct parts lb rtokens spare maxWidth W ord ->
  exists tokens, tokenizeString text = Ret tokens /\ Forall2 utf8s rtokens tokens /\
  forall ls lb', leftAlignStrings A u ord spare lb tokens maxWidth = Ret (Some ls, lb') ->
  reflow (l_renderHyphens o) (joinWith 32 tokens) ls /\
  (l_renderHyphens o = false -> exists rls, Forall2 utf8s rls ls /\
    filter (fun r => negb (isSpace r)) (concat rls) = filter (fun r => negb (isSpace r)) rtext).
Proof. exact pipeline. Qed.
Print Assumptions C76_text.
(* a no-break space, a line feed and an ideographic space between the words *)
Example C76_ex : tokenizeString ([32; 194; 160] ++ nth 0 accentBytes [] ++ [10] ++ nth 1 accentBytes [] ++ [227; 128; 128] ++ nth 2 accentBytes []) = Ret accentBytes /\
  fields isSpace ([32; 160] ++ nth 0 accents [] ++ [10] ++ nth 1 accents [] ++ [12288] ++ nth 2 accents []) accents.
Proof.
  split; [vm_compute; reflexivity|].
  match goal with |- fields isSpace ?x _ => destruct (fieldsFunc_full x isSpace) as (ts & E & F & _) end.
  vm_compute in E. injection E as <-. exact F.
Qed.
