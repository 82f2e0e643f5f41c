(** C78, C79: LeftAlignUniform on any tokens: empty ones, made of sequences only, with formatting that is not closed or closed twice...
    [keptText], [formatting] and [added] are in SpecAny.v, [reached] and [readable] in AnyCall.v, [decorated] in SpecFormat.v. *)
From Coq Require Import String Ascii.
From Verif Require Import Base Arith ArithB64 Unicode Split SpecSplit Ansi SpecAnsi Hyph Nodes KP Render Align Options Call Settings PropAlign SpecFormat Format PropFormat
  SpecAny AnyCall.
Open Scope Z_scope.

(** One of the first three tokens must have some text, if there are more ([soonText]), and no token may end in the middle of a sequence after three digits ([lexed]). *)
Theorem C78_any_tokens_partial : forall A L u opts, Forall (okOption A L) opts ->
  let o := withOptions A (defaultHyphenator u) (defaultPunctuator u) opts in
  (exists ps, l_punctuator o [] = Ret ps /\ concat ps = []) ->
  exists mz, measures A L (l_measurer o) mz /\
  forall lb seqs tokens spare itemss maxWidth n ord, reached A u o lb seqs -> readable u tokens spare itemss -> soonText itemss ->
    mz (joinWith 32 (map keptText itemss)) <= 2 ^ 30 -> rep A L maxWidth n -> 0 < n <= 2 ^ 30 -> (forall i k c, In c (ord i k)) ->
    exists res lb', leftAlignUniform A u ord spare lb tokens maxWidth = Ret (res, lb') /\ reached A u o lb' (seqs ++ flat_map formatting itemss) /\
    match res with
    | None => True
    | Some ls => ls <> [] /\ exists ts, Forall2 (decorated (seqs ++ flat_map formatting itemss)) ls ts /\
        decorated (added (l_renderHyphens o)) (concat ts) (concat (map keptText itemss))
    end.
Proof. exact options_any. Qed.
Print Assumptions C78_any_tokens_partial.

Theorem C78_any_width_partial : forall A L u opts k, Forall (okOption A L) opts ->
  let o := withOptions A (defaultHyphenator u) (defaultPunctuator u) opts in
  1 <= k <= 2 ^ 20 -> rep A L (l_scale o) k -> (exists ps, l_punctuator o [] = Ret ps /\ concat ps = []) ->
  exists mz, measures A L (l_measurer o) mz /\
  forall lb seqs tokens spare itemss maxWidth n ord ls lb', reached A u o lb seqs -> readable u tokens spare itemss -> soonText itemss ->
    mz (joinWith 32 (map keptText itemss)) <= 2 ^ 30 -> rep A L maxWidth n -> 0 < n <= 2 ^ 30 -> (forall i k c, In c (ord i k)) ->
    leftAlignUniform A u ord spare lb tokens maxWidth = Ret (Some ls, lb') ->
    exists ts, Forall2 (decorated (seqs ++ flat_map formatting itemss)) ls ts /\ Forall (fun t => mz t <= n) ts /\
      decorated (added (l_renderHyphens o)) (concat ts) (concat (map keptText itemss)).
Proof. exact options_any_width. Qed.
Print Assumptions C78_any_width_partial.

(** bold is opened and not closed, closed twice, opened again; the first and third tokens are empty, the last one has no text *)
Definition exTokens : list (list rune) := [[]; boldOn ++ txt "ab"; []; txt "c" ++ off ++ off ++ txt "d"; redOn ++ boldOn].
Definition exItems : list (list SpecAnsi.item) :=
  [[]; [Ctl Start boldOn; Chr (txt "a"); Chr (txt "b")]; []; [Chr (txt "c"); Ctl Stop off; Ctl Stop off; Chr (txt "d")]; [Ctl Start redOn; Ctl Start boldOn]].
Example C78_ex : readable digits exTokens (fun _ => []) exItems /\ soonText exItems /\ reached B digits fO fB [] /\
  (exists ps, l_punctuator fO [] = Ret ps /\ concat ps = []) /\
  map keptText exItems = [[]; txt "ab"; []; txt "cd"; []]%string /\
  format fO exTokens (n 4) = Ret (Some [boldOn ++ boldOn ++ txt "ab " ++ off; boldOn ++ txt "c" ++ off ++ txt "d "]).
Proof.
  assert (forall rest k l, sequence digits k l -> k <> Other -> csi digits rest l k) as K by (intros; now apply sequence_csi).
  assert (forall rest, csi digits rest boldOn Start) as Kb by (intros; apply K; [exact bold_start|discriminate]).
  assert (forall rest, csi digits rest redOn Start) as Kr by (intros; apply K; [exact red_start|discriminate]).
  assert (forall rest, csi digits rest off Stop) as Ko by (intros; apply K; [exact off_stop|discriminate]).
  split; [split; [|split]|split; [|split; [|split; [|split]]]].
  - repeat (apply Forall2_cons || apply Forall2_nil).
    + apply lx_nil.
    + apply lx_csi; [apply Kb|]. apply lx_chr; [discriminate|]. apply lx_chr; [discriminate|]. apply lx_nil.
    + apply lx_nil.
    + apply lx_chr; [discriminate|]. apply lx_csi; [apply Ko|]. apply lx_csi; [apply Ko|]. apply lx_chr; [discriminate|]. apply lx_nil.
    + apply lx_csi; [apply Kr|]. rewrite <- (app_nil_r boldOn). apply lx_csi; [apply Kb|]. apply lx_nil.
  - repeat constructor; vm_compute; discriminate.
  - intros [|[|[|[|[|j]]]]] t; cbn [nth_error exTokens]; intros E; try (injection E as <-; vm_compute; reflexivity). destruct j; discriminate E.
  - right. exists 1%nat, [Ctl Start boldOn; Chr (txt "a"); Chr (txt "b")]. split; [auto|]. split; [reflexivity|discriminate].
  - apply re_new. exact f_new.
  - exists []. split; vm_compute; reflexivity.
  - reflexivity.
  - vm_compute. reflexivity.
Qed.

(** An empty list, an empty token, and tokens that are all empty are fine too *)
Example C78_ex_empty : map (fun tokens => PropAlign.run [] (from 0) tokens (n 5)) [[]; [""]; [""; ""]; [""; ""; ""]]%string = [Ret None; Ret None; Ret (Some [[]]); Ret (Some [[]])].
Proof. vm_compute. reflexivity. Qed.

(** Tokens without text count: without the first token, there is one line *)
Theorem C78_empty_token_refuted : exists tokens w, PropAlign.run [] (from 0) tokens (n w) = Ret (Some [joinWith 32 (map txt tokens)]) /\
  PropAlign.run [] (from 0) (""%string :: tokens) (n w) = Ret None.
Proof. exists ["ab"; "cd"]%string, 5. vm_compute. split; reflexivity. Qed.
Print Assumptions C78_empty_token_refuted.

(** Not so if the first three tokens are empty. *)
Theorem C78_leading_empty_refuted : exists tokens, PropAlign.run [WithHyphenator (Some byTwo)] (from 0) tokens (n 1) = Panic.
Proof. exists [""; ""; ""; "a"]%string. vm_compute. reflexivity. Qed.
Print Assumptions C78_leading_empty_refuted.

(** C79: there are no lines of width zero, or less *)
Theorem C79_no_width : forall A L u opts k, Forall (okOption A L) opts ->
  let o := withOptions A (defaultHyphenator u) (defaultPunctuator u) opts in
  1 <= k <= 2 ^ 20 -> rep A L (l_scale o) k -> (exists ps, l_punctuator o [] = Ret ps /\ concat ps = []) ->
  exists mz, measures A L (l_measurer o) mz /\
  forall lb seqs tokens spare itemss maxWidth n ord, reached A u o lb seqs -> readable u tokens spare itemss ->
    mz (joinWith 32 (map keptText itemss)) <= 2 ^ 30 -> rep A L maxWidth n -> - 2 ^ 30 <= n <= 0 -> (forall i k c, In c (ord i k)) ->
    (n < 0 /\ soonText itemss) \/ (firstText itemss /\ 0 < mz (concat (map keptText itemss))) ->
    exists lb', leftAlignUniform A u ord spare lb tokens maxWidth = Ret (None, lb') /\ reached A u o lb' (seqs ++ flat_map formatting itemss).
Proof. exact no_width. Qed.
Print Assumptions C79_no_width.
Example C79_ex : map (fun w => format fO exTokens (n w)) [0; -1; -20] = [Ret None; Ret None; Ret None].
Proof. vm_compute. reflexivity. Qed.
