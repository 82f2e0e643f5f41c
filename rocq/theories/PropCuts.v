(** C57: where lines are cut, in terms of the tokens, of their characters and of the parts of words. *)
From Coq Require Import String Ascii.
From Verif Require Import Base Arith ArithB64 Unicode Split SpecSplit SpecAnsi Hyph Nodes KP Render SpecKP Align Options Call Settings AlignProofs PropAlign Cuts.
Open Scope Z_scope.

(** [texts]: the lines without the added hyphens. Between a text and the next one, either a token ends (and the space is dropped), or the
    text ends with a punctuation mark or a hyphen of its own, or [concat (x ++ y)] is a word, cut by the hyphenator after the parts [x]. *)
Theorem C57_cuts : forall A L u o m punct parts lb tokens spare maxWidth W ord,
  plainCall A L u o m punct parts lb tokens spare maxWidth W ord -> forall ls lb',
  leftAlignUniform A u ord spare lb tokens maxWidth = Ret (Some ls, lb') ->
  exists texts, length texts = length ls /\ last ls [] = last texts [] /\
  forall pre t t' post l, texts = pre ++ t :: t' :: post -> nth_error ls (length pre) = Some l ->
  exists before after,
    (exists ts1 ts2, tokens = ts1 ++ ts2 /\ ts1 <> [] /\ ts2 <> [] /\ joinWith 32 ts1 = before ++ t /\ joinWith 32 ts2 = t' ++ after /\ l = t) \/
    (joinWith 32 tokens = before ++ t ++ t' ++ after /\
     ((exists b r, t = b ++ [r] /\ (punctSplitFunc u r = true \/ isHyphenRune r = true) /\ l = t) \/
      (l_wordBreak o = true /\ exists tok p w x y b a, In tok tokens /\ In p (punct tok) /\ 4 < zlen p /\ In w (splitAt isHyphenRune p) /\
        parts w = x ++ y /\ x <> [] /\ y <> [] /\ before ++ t = b ++ concat x /\ t' ++ after = concat y ++ a /\
        l = t ++ (if l_renderHyphens o then [45] else [])))).
Proof. exact align_places. Qed.
Print Assumptions C57_cuts.
(** the call: [ex_call]. After "ab," and "cdef" a token ends, after "gh-" there is a hyphen in the text, "ab-" and "ij-" end within words *)
Example C57_ex : run exOpts (from 0) exTokens (n 5) = lines ["ab,"; "ab-"; "cdef"; "gh-"; "ij-"; "k xyz"]%string /\
  joinWith 32 (map txt exTokens) = txt "ab, " ++ (txt "ab" ++ txt "cdef") ++ txt " gh-" ++ txt "ij" ++ txt "k xyz" /\
  pairs (txt "abcdef") = map txt ["ab"; "cd"; "ef"]%string /\ pairs (txt "ijk") = map txt ["ij"; "k"]%string.
Proof. repeat split; vm_compute; reflexivity. Qed.
