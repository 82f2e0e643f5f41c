(** C77: the words that LeftAlignUniform cuts, and the dictionary. [knows u] as in PropShipped. [placed]: Words.v. *)
From Coq Require Import String.
From Verif Require Import Base Arith Unicode Split SpecSplit SpecAnsi Text SpecTrie Trie Dict SpecHyph DictProofs FileProofs Hyph HyphProofs Shipped
  PatUs Cache Lang ShippedProofs KP Nodes Render SpecKP Tokens Align Options Call Settings AlignProofs Reuse Fresh Words PropAlign.
Open Scope Z_scope.

Example C77_knows : knows ascii.
Proof. split; [reflexivity|]. repeat constructor. Qed.

(** the hyphenator of any language, with its default options *)
Theorem C77_any_language : forall A L u, knows u -> forall l, exists ps : list pattern,
  map pText ps = patternRules (scanLines (fileOf l)) /\
  forall name o m punct parts lb tokens spare maxWidth W ord, plainCall A L u o m punct parts lb tokens spare maxWidth W ord ->
  l_hyphenator o = breakWord u (loadFile u name (fileOf l)) defaultHopts -> forall ls lb',
  leftAlignUniform A u ord spare lb tokens maxWidth = Ret (Some ls, lb') ->
  exists segs, concat segs = fragsOf u o punct parts tokens /\
  Forall2 (fun l s => exists pre f, s = pre ++ [f] /\
    l = paraText pre ++ f_text f ++ (if l_renderHyphens o && isSoft f then [45] else [])) ls segs /\
  (forall pre s post, segs = pre ++ s :: post -> post <> [] -> lastSoft s = true ->
     exists t p w i before after, In t tokens /\ In p (punct t) /\ In w (splitAt isHyphenRune p) /\ w <> [] /\
       paraText (concat pre ++ s) = before ++ firstn i w /\ paraText (concat post) = skipn i w ++ after /\
       placed (fun k => lastRule k (map pRule ps)) (toLower u) (isException (loadFile u name (fileOf l)) w) w i).
Proof. exact align_places. Qed.
Print Assumptions C77_any_language.

(** the default hyphenator: any options that set no other *)
Theorem C77_default : forall A L u, knows u -> exists (ps : list pattern) (es : list (list rune * list (list rune))),
  map pText ps = patternRules (scanLines us_file) /\ map excText es = exceptionRules (scanLines us_file) /\
  forall opts, Forall (fun opt => match opt with WithHyphenator (Some _) => False | _ => True end) opts ->
  let o := withOptions A (defaultHyphenator u) (defaultPunctuator u) opts in
  forall m punct parts lb tokens spare maxWidth W ord, plainCall A L u o m punct parts lb tokens spare maxWidth W ord -> forall ls lb',
  leftAlignUniform A u ord spare lb tokens maxWidth = Ret (Some ls, lb') ->
  exists segs, concat segs = fragsOf u o punct parts tokens /\
  Forall2 (fun l s => exists pre f, s = pre ++ [f] /\
    l = paraText pre ++ f_text f ++ (if l_renderHyphens o && isSoft f then [45] else [])) ls segs /\
  (forall pre s post, segs = pre ++ s :: post -> post <> [] -> lastSoft s = true ->
     exists t p w i before after, In t tokens /\ In p (punct t) /\ In w (splitAt isHyphenRune p) /\
       paraText (concat pre ++ s) = before ++ firstn i w /\ paraText (concat post) = skipn i w ++ after /\
       placed (fun k => lastRule k (map pRule ps)) (toLower u) (lastRule w (map eRule es)) w i).
Proof. exact align_default_places. Qed.
Print Assumptions C77_default.

(** a call with the default options *)
Definition dfO : lopts B := withOptions B (defaultHyphenator ascii) (defaultPunctuator ascii) [].
Definition dfTokens : list string := ["a"; "subdivision"; "of"; "tables"; "(table)"]%string.
Definition dfB : breaker B := match newBreaker B dfO with Ret lb => lb | Panic => mkBreaker dfO (n 0) (n 0) [] end.
Example C77_settings : settings B BL ascii dfO exM exPunct (partsOf (defaultHyphenator ascii)).
Proof.
  apply (make_settings B BL ascii [] (fun n => 1 * n) cols).
  - apply (tol_inf B BL).
  - apply scaling_int; [lia|]. apply (rep_Z B BL). unfold exactZ. lia.
  - apply default_measures.
  - vm_compute. reflexivity.
  - vm_compute. discriminate.
  - apply default_punctuator.
  - apply default_hyphenator.
  - destruct (default_reached B BL ascii) as [_ _ _ _ _ H]. exact H.
Qed.
Example C77_call w k : 0 < w <= 2 ^ 30 ->
  plainCall B BL ascii dfO exM exPunct (partsOf (defaultHyphenator ascii)) dfB (map txt dfTokens) (fun _ => []) (n w) (1 * w) (from k).
Proof.
  intros Hw. apply make_call; [exact C77_settings| |apply plain_check; vm_compute; reflexivity| | | | |lia|apply from_all].
  - destruct (settings_new B BL ascii dfO exM exPunct _ C77_settings) as (sp & hy & E & _). apply us_new. unfold dfB. rewrite E. reflexivity.
  - split; [discriminate|]. repeat constructor; discriminate.
  - intros a b. unfold exM. rewrite cols_app. lia.
  - vm_compute. discriminate.
  - apply scaled_width with (k := 1) (n := w); [apply (rep_Z B BL); unfold exactZ; lia|lia|apply (rep_Z B BL); unfold exactZ; lia|lia|lia].
Qed.
Example C77_ex : run [] (from 0) dfTokens (n 9) = lines ["a sub-"; "division"; "of tables"; "(table)"]%string.
Proof. vm_compute. reflexivity. Qed.
(** an exception of the file, spelt as in the file *)
Example C77_exception : run [] (from 0) ["as"; "table"; "s"]%string (n 6) = lines ["as ta-"; "ble s"]%string.
Proof. vm_compute. reflexivity. Qed.
