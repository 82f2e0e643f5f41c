(** C102: lines of formatted text displayed alone, and text after a stop sequence. *)
From Coq Require Import String Ascii.
From Verif Require Import Base Arith ArithB64 Unicode Split SpecSplit Ansi SpecAnsi Hyph Nodes KP Render SpecKP Align Options Call Settings
  PropAlign SpecAttr SpecFormat Format SpecLines FormatLines SpecScreen Screen FormatCall PropFormat Span.
Open Scope Z_scope.

(** In passages between one start sequence and one stop sequence, each line leaves no formatting in force, so that lines can
    be displayed alone, in any order. *)
Theorem C102_alone_partial : forall A L u o m punct parts lb ts ps spare maxWidth W ord,
  formattedCall A L u o m punct parts lb ts ps spare maxWidth W ord ->
  exists res lb', leftAlignUniform A u ord spare lb (map tokenRunes ts) maxWidth = Ret (res, lb') /\
  match res with None => True | Some ls => Forall (standsAlone u) ls end.
Proof. exact lines_alone. Qed.
Print Assumptions C102_alone_partial.
Example C102_ex : exists ls, format fO (map tokenRunes exSpan) (n 6) = Ret (Some ls) /\ (2 <= List.length ls)%nat.
Proof. eexists. split; [apply C65_ex_span|]. cbn. lia. Qed.

(** Without a stop sequence, lines leave their formatting in force. *)
Definition exOpen : list (list SpecFormat.run) := [[mkRun boldOn (txt "ab") []]; [plain "cd"]; [plain "ef"]]%string.
Theorem C102_open_refuted : exists ts ls l,
  Forall (okToken digits) ts /\ format fO (map tokenRunes ts) (n 5) = Ret (Some ls) /\ In l ls /\ ~ standsAlone digits l.
Proof.
  exists exOpen. eexists. exists (boldOn ++ txt "cd ef"%string). split; [apply tokens_check; vm_compute; reflexivity|].
  split; [vm_compute; reflexivity|]. split; [right; now left|]. apply (not_alone digits _ (map (fun c => ([c], [boldOn])) [99; 100; 32; 101; 102]) [boldOn]).
  - change (shows digits [] (boldOn ++ [99; 100; 32; 101; 102]) ([] ++ map (fun c => ([c], [boldOn])) [99; 100; 32; 101; 102]) [boldOn]).
    apply shows_app with (a' := [boldOn]); [exact (shows_start digits [] _ bold_start)|]. apply shows_text, noEsc. reflexivity.
  - discriminate.
Qed.
Print Assumptions C102_open_refuted.

(** After two start sequences and one stop sequence, which resets both, the text that follows is shown in both. *)
Definition exTwice : list (list SpecFormat.run) :=
  [[mkRun boldOn (txt "ab") []]; [mkRun redOn (txt "cd") []]; [mkRun [] (txt "ef") off]; [plain "gh"]; [plain "ij"]; [plain "kl"]]%string.
Lemma twice_shows : shows digits [] (concat (map tokenRunes exTwice))
  (map (fun c => ([c], [boldOn])) [97; 98] ++ map (fun c => ([c], [boldOn; redOn])) ([99; 100] ++ [101; 102]) ++ map (fun c => ([c], [])) [103; 104; 105; 106; 107; 108]) [].
Proof.
  change (shows digits [] (boldOn ++ [97; 98] ++ redOn ++ ([99; 100] ++ [101; 102]) ++ off ++ [103; 104; 105; 106; 107; 108])
      ([] ++ map (fun c => ([c], [boldOn])) [97; 98] ++ [] ++ map (fun c => ([c], [boldOn; redOn])) ([99; 100] ++ [101; 102]) ++ [] ++ map (fun c => ([c], [])) [103; 104; 105; 106; 107; 108]) []).
  apply shows_app with (a' := [boldOn]); [exact (shows_start digits [] _ bold_start)|].
  apply shows_app with (a' := [boldOn]); [apply shows_text, noEsc; reflexivity|].
  apply shows_app with (a' := [boldOn; redOn]); [exact (shows_start digits [boldOn] _ red_start)|].
  apply shows_app with (a' := [boldOn; redOn]); [apply shows_text, noEsc; reflexivity|].
  apply shows_app with (a' := []); [apply shows_stop, off_stop|]. apply shows_text, noEsc; reflexivity.
Qed.
Lemma twice_displays : displays digits (concat (map tokenRunes exTwice))
  (map (fun c => ([c], [boldOn])) [97; 98] ++ map (fun c => ([c], [boldOn; redOn])) ([99; 100] ++ [101; 102]) ++ map (fun c => ([c], [])) [103; 104; 105; 106; 107; 108]).
Proof. exact (shows_displays _ _ _ _ twice_shows). Qed.
Theorem C102_leak_refuted : exists ts ls l input output,
  Forall (okToken digits) ts /\ format fO (map tokenRunes ts) (n 5) = Ret (Some ls) /\
  displays digits (concat (map tokenRunes ts)) input /\ In (txt "i"%string, []) input /\
  In l ls /\ displays digits l output /\ In (txt "i"%string, [boldOn; redOn]) output.
Proof.
  exists exTwice. eexists. exists (boldOn ++ redOn ++ txt "ij kl"%string ++ off).
  exists (map (fun c => ([c], [boldOn])) [97; 98] ++ map (fun c => ([c], [boldOn; redOn])) ([99; 100] ++ [101; 102]) ++ map (fun c => ([c], [])) [103; 104; 105; 106; 107; 108]).
  exists (map (fun c => ([c], [boldOn; redOn])) [105; 106; 32; 107; 108]).
  split; [apply tokens_check; vm_compute; reflexivity|]. split; [vm_compute; reflexivity|].
  split; [|split; [cbn; tauto|split; [cbn; tauto|split; [|cbn; tauto]]]]; apply shows_displays with (act := []).
  - exact twice_shows.
  - change (shows digits [] (boldOn ++ redOn ++ [105; 106; 32; 107; 108] ++ off)
      ([] ++ [] ++ map (fun c => ([c], [boldOn; redOn])) [105; 106; 32; 107; 108] ++ []) []).
    apply shows_app with (a' := [boldOn]); [exact (shows_start digits [] _ bold_start)|].
    apply shows_app with (a' := [boldOn; redOn]); [exact (shows_start digits [boldOn] _ red_start)|].
    apply shows_app with (a' := [boldOn; redOn]); [apply shows_text, noEsc; reflexivity|]. apply shows_stop, off_stop.
Qed.
Print Assumptions C102_leak_refuted.

(** On the same tokens, text under both start sequences is shown with the last one only. *)
Theorem C102_lost_refuted : exists ts ls l input output,
  Forall (okToken digits) ts /\ format fO (map tokenRunes ts) (n 5) = Ret (Some ls) /\
  displays digits (concat (map tokenRunes ts)) input /\ In (txt "e"%string, [boldOn; redOn]) input /\
  In l ls /\ displays digits l output /\ In (txt "e"%string, [redOn]) output.
Proof.
  exists exTwice. eexists. exists (redOn ++ txt "ef"%string ++ off ++ txt " gh"%string ++ off).
  exists (map (fun c => ([c], [boldOn])) [97; 98] ++ map (fun c => ([c], [boldOn; redOn])) ([99; 100] ++ [101; 102]) ++ map (fun c => ([c], [])) [103; 104; 105; 106; 107; 108]).
  exists (map (fun c => ([c], [redOn])) [101; 102] ++ map (fun c => ([c], [])) [32; 103; 104]).
  split; [apply tokens_check; vm_compute; reflexivity|]. split; [vm_compute; reflexivity|].
  split; [exact twice_displays|]. split; [cbn; tauto|split; [cbn; tauto|split; [|cbn; tauto]]]. apply shows_displays with (act := []).
  change (shows digits [] (redOn ++ [101; 102] ++ off ++ [32; 103; 104] ++ off)
      ([] ++ map (fun c => ([c], [redOn])) [101; 102] ++ [] ++ map (fun c => ([c], [])) [32; 103; 104] ++ []) []).
  apply shows_app with (a' := [redOn]); [exact (shows_start digits [] _ red_start)|].
  apply shows_app with (a' := [redOn]); [apply shows_text, noEsc; reflexivity|].
  apply shows_app with (a' := []); [apply shows_stop, off_stop|].
  apply shows_app with (a' := []); [apply shows_text, noEsc; reflexivity|]. apply shows_stop, off_stop.
Qed.
Print Assumptions C102_lost_refuted.
