(** C131: each line is one line. [plainCall] is in Call.v, [call], [offOpts] in PropCombine.v. *)
From Coq Require Import String Ascii.
From Verif Require Import Base Arith ArithB64 Unicode Split SpecSplit Ansi SpecAnsi Hyph Nodes KP Render SpecKP Align Options Call Settings
  Fresh OneLine PropAlign PropCombine.
Open Scope Z_scope.

(** Nothing is in the lines but what is in the tokens, spaces and '-' *)
Theorem C131_runes : forall A L u o m punct parts lb tokens spare maxWidth W ord,
  plainCall A L u o m punct parts lb tokens spare maxWidth W ord -> forall ls lb',
  leftAlignUniform A u ord spare lb tokens maxWidth = Ret (Some ls, lb') ->
  forall l r, In l ls -> In r l -> r = 32 \/ (l_renderHyphens o = true /\ r = 45) \/ exists t, In t tokens /\ In r t.
Proof. exact lines_runes. Qed.
Print Assumptions C131_runes.
(** With the tokens of the tokenizer, the only blank (unicode.IsSpace: line feeds, tabs, no-break spaces...) is the space *)
Theorem C131_text_partial : forall A L u o m punct parts lb text tokens spare maxWidth W ord, tokenizerBreakWord text = Ret tokens ->
  plainCall A L u o m punct parts lb tokens spare maxWidth W ord -> forall ls lb',
  leftAlignUniform A u ord spare lb tokens maxWidth = Ret (Some ls, lb') ->
  forall l r, In l ls -> In r l -> isSpace r = true -> r = 32.
Proof. exact lines_text. Qed.
Print Assumptions C131_text_partial.
(** "ab<LF>cd<TAB>ef<CR><LF>gh" on lines of 5 columns *)
Example C131_ex : tokenizerBreakWord (txt "ab" ++ 10 :: txt "cd" ++ 9 :: txt "ef" ++ 13 :: 10 :: txt "gh") = Ret (map txt ["ab"; "cd"; "ef"; "gh"]%string) /\
  call ascii offOpts (map txt ["ab"; "cd"; "ef"; "gh"]%string) 5 = lines ["ab cd"; "ef gh"]%string.
Proof. split; vm_compute; reflexivity. Qed.

(** Tokens with a line feed inside: it is kept, and counts for no column: what is returned as one line of 5 columns is two *)
Theorem C131_feed_refuted : exists t w, call ascii offOpts [t] w = Ret (Some [t]) /\ t = txt "abc" ++ 10 :: txt "de" /\ w = 5.
Proof. exists (txt "abc" ++ 10 :: txt "de"), 5. split; [vm_compute; reflexivity|]. now split. Qed.
Print Assumptions C131_feed_refuted.
