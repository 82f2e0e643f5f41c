(** C135: a text can be set exactly when each of its words can. [plainCall], [fragsOf] are in Call.v, [marksGlued] in Compare.v. *)
From Coq Require Import String Ascii.
From Verif Require Import Base Arith ArithB64 Unicode Split SpecSplit Ansi SpecAnsi Hyph Nodes KP Render SpecKP Align Options Call Settings
  Fresh Compare EachWord PropAlign PropCombine PropCompare PropFewest.
Open Scope Z_scope.

Theorem C135_each_partial : forall A L u o m punct parts lb tokens spare maxWidth W ord lbs spares ords,
  plainCall A L u o m punct parts lb tokens spare maxWidth W ord ->
  (forall t, In t tokens -> plainCall A L u o m punct parts (lbs t) [t] (spares t) maxWidth W (ords t)) ->
  k_tolerance (l_search o) = fTolerance A -> l_renderHyphens o = true \/ l_wordBreak o = false ->
  marksGlued (negb (feq A (l_hyphenPenalty o) (fZ A 10000))) (fragsOf u o punct parts tokens) ->
  (l_renderHyphens o = true -> Forall (fun f => hyphenW o m <= m (f_text f)) (fragsOf u o punct parts tokens)) -> W + m [32] <= 52 ->
  ((exists ls lb', leftAlignUniform A u ord spare lb tokens maxWidth = Ret (Some ls, lb')) <->
   forall t, In t tokens -> exists ls lb', leftAlignUniform A u (ords t) (spares t) (lbs t) [t] maxWidth = Ret (Some ls, lb')).
Proof. exact align_each. Qed.
Print Assumptions C135_each_partial.
(** C133_ex has what it asks of the text *)
Example C135_ex w k : 0 < w <= 51 ->
  (forall t, In t (map txt oneTokens) -> plainCall B BL ascii exO exM exPunct pairs exB [t] (fun _ => []) (n w) (1 * w) (from k)) /\
  run exOpts (from 0) ["abcdefgh"]%string (n 2) = Ret None /\ run exOpts (from 0) oneTokens (n 2) = Ret None /\
  run exOpts (from 0) ["abcdefgh"]%string (n 3) = lines ["ab-"; "cd-"; "ef-"; "gh"]%string /\
  run exOpts (from 0) (rev oneTokens) (n 3) = lines ["xyz"; "ab-"; "cd-"; "ef-"; "gh"; "one"]%string.
Proof.
  intros H. split.
  - intros t Ht. apply in_map_iff in Ht. destruct Ht as (s & <- & Hs). change [txt s] with (map txt [s]).
    destruct Hs as [<-|[<-|[<-|[]]]]; (apply any_call; [vm_compute; reflexivity|discriminate|vm_compute; reflexivity|vm_compute; discriminate|lia|apply from_all]).
  - repeat split; vm_compute; reflexivity.
Qed.
(** Two words of 60 columns on lines of 118 *)
Theorem C135_wide_refuted : exists t1 t2 w, run [WithWordBreak false] (from 0) [t1] (n w) = lines [t1] /\
  run [WithWordBreak false] (from 0) [t2] (n w) = lines [t2] /\ run [WithWordBreak false] (from 0) [t1; t2] (n w) = Ret None.
Proof. exists (sixty "a"), (sixty "c"), 118. repeat split; vm_compute; reflexivity. Qed.
Print Assumptions C135_wide_refuted.
(** Marks: each token is set on 7 columns, the order of the words matters *)
Theorem C135_mark_refuted : exists t1 t2 t3 w, run [WithWordBreak false] (from 0) [t1] (n w) = lines [t1] /\
  run [WithWordBreak false] (from 0) [t2] (n w) = lines [t2] /\ run [WithWordBreak false] (from 0) [t3] (n w) = lines [t3] /\
  run [WithWordBreak false] (from 0) [t1; t2; t3] (n w) = Ret None /\ run [WithWordBreak false] (from 0) [t2; t1; t3] (n w) = lines [t2; t1; t3].
Proof. exists "bbbbbb"%string, ",aaaaa"%string, "cccccc"%string, 7. repeat split; vm_compute; reflexivity. Qed.
Print Assumptions C135_mark_refuted.
