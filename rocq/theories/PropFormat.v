(** C64, C65, C66: LeftAlignUniform on tokens made of runs, with or without a start and a stop sequence. [run], [okToken] and
    [passage] are in SpecFormat.v, [showDoc] and the marks in SpecLines.v, [lineShown] in SpecScreen.v, [formattedCall] in FormatCall.v. *)
From Coq Require Import String Ascii.
From Verif Require Import Base Arith ArithB64 Unicode Split SpecSplit Ansi SpecAnsi Hyph Nodes KP Render SpecKP Align Options Call Settings
  PropAlign SpecFormat Format SpecLines FormatLines SpecScreen FormatCall.
Open Scope Z_scope.

(** ** Setting of the examples *)
Definition boldOn : list rune := [27; 91; 49; 109].
Definition redOn : list rune := [27; 91; 51; 49; 109].
Definition off : list rune := [27; 91; 48; 109].
Definition digits : unicode := mkUnicode (fun r => (48 <=? r) && (r <=? 57)) (fun r => r =? 44) (fun r => r).
Definition plain (s : string) : SpecFormat.run := mkRun [] (txt s) [].
Definition fmt (on : list rune) (s : string) : SpecFormat.run := mkRun on (txt s) off.
Definition exDoc : list (list SpecFormat.run) :=
  [[plain "ab,"]; [fmt boldOn "abcdef"; plain ","]; [fmt boldOn "gh"; fmt redOn "-ijklm"; fmt boldOn ","]; [plain "xyz"]]%string.
Definition words (l : list string) : passage := mkPassage [] (map txt l) [].
Definition span (on : list rune) (l : list string) : passage := mkPassage on (map txt l) off.
Definition exPassages : list passage :=
  [words ["ab,"]; span boldOn ["abcdef"]; words [","]; span boldOn ["gh"]; span redOn ["-ijklm"]; span boldOn [","]; words ["xyz"]]%string.
(** the second passage goes over three tokens *)
Definition exSpan : list (list SpecFormat.run) :=
  [[plain "ab,"]; [mkRun boldOn (txt "abcdef") []]; [plain "gh"]; [mkRun [] (txt "ij") off; fmt redOn "kl"; plain ","]; [plain "xyz"]]%string.
Definition exSpanPassages : list passage :=
  [words ["ab,"]; span boldOn ["abcdef"; "gh"; "ij"]; span redOn ["kl"]; words [","; "xyz"]]%string.
Definition fO : lopts B := withOptions B (defaultHyphenator digits) (defaultPunctuator digits) exOpts.
Definition fPunct := splitAt (punctSplitFunc digits).
Definition fB : breaker B := match newBreaker B fO with Ret lb => lb | Panic => mkBreaker fO (n 0) (n 0) [] end.
Lemma f_settings : settings B BL digits fO exM fPunct pairs.
Proof.
  apply (make_settings B BL digits exOpts (fun n => 1 * n) cols).
  - apply (tol_inf B BL).
  - apply scaling_int; [lia|]. apply (rep_Z B BL). unfold exactZ. lia.
  - apply default_measures.
  - vm_compute. reflexivity.
  - vm_compute. discriminate.
  - apply default_punctuator.
  - apply byTwo_cuts.
  - destruct (default_reached B BL digits) as [_ _ _ _ _ H]. exact H.
Qed.
Lemma f_new : newBreaker B fO = Ret fB.
Proof. destruct (settings_new B BL digits fO exM fPunct pairs f_settings) as (sp & hy & E & _). unfold fB. rewrite E. reflexivity. Qed.
Lemma bold_start : sequence digits Start boldOn.
Proof.
  exists [49], [49], 109. split; [reflexivity|]. split; [apply params_one; [repeat constructor|cbn; lia]|]. apply fk_m1. intros H. inversion H. discriminate.
Qed.
Lemma red_start : sequence digits Start redOn.
Proof.
  exists [51; 49], [51; 49], 109. split; [reflexivity|]. split; [apply params_one; [repeat constructor|cbn; lia]|]. apply fk_m1. intros H. inversion H. discriminate.
Qed.
Lemma off_stop : sequence digits Stop off.
Proof. exists [48], [48], 109. split; [reflexivity|]. split; [apply params_one; [repeat constructor|cbn; lia]|]. apply fk_m0. repeat constructor. Qed.
Lemma noEsc t : forallb (fun r => negb (r =? ESC)) t = true -> ~ In ESC t.
Proof. intros H Hin. rewrite forallb_forall in H. specialize (H _ Hin). discriminate H. Qed.
Lemma okRunes_check t : forallb (fun r => (0 <=? r) && (r <=? 0x10ffff)) t = true -> Forall okRune t.
Proof. intros H. rewrite forallb_forall in H. apply Forall_forall. intros r Hr. specialize (H r Hr). unfold okRune. lia. Qed.
Definition reqb (a b : list rune) : bool := if list_eq_dec Z.eq_dec a b then true else false.
Lemma reqb_eq a b : reqb a b = true -> a = b. Proof. unfold reqb. destruct (list_eq_dec Z.eq_dec a b); [auto|discriminate]. Qed.
Definition startCheck (s : list rune) : bool := reqb s boldOn || reqb s redOn.
Definition textCheck (t : list rune) : bool :=
  negb (reqb t []) && forallb (fun r => negb (r =? ESC)) t && forallb (fun r => (0 <=? r) && (r <=? 0x10ffff)) t.
Definition runCheck (r : SpecFormat.run) : bool :=
  (reqb (r_start r) [] || startCheck (r_start r)) && (reqb (r_stop r) [] || reqb (r_stop r) off) && textCheck (r_text r).
Fixpoint apart (t : list SpecFormat.run) : bool :=
  match t with [] => true | r :: t' => match t' with [] => true | r' :: _ => negb (reqb (r_stop r) []) || negb (reqb (r_start r') []) end && apart t' end.
Definition tokenCheck (t : list SpecFormat.run) : bool := match t with [] => false | _ => forallb runCheck t && apart t end.
Definition passageCheck (p : passage) : bool := match p_texts p with [] => false | _ => forallb textCheck (p_texts p) end &&
  ((reqb (p_start p) [] && reqb (p_stop p) []) || (startCheck (p_start p) && reqb (p_stop p) off)).
Lemma start_check s : startCheck s = true -> sequence digits Start s.
Proof. unfold startCheck. intros H. apply orb_true_iff in H. destruct H as [H|H]; apply reqb_eq in H; subst s; [exact bold_start|exact red_start]. Qed.
Lemma text_check t : textCheck t = true -> t <> [] /\ ~ In ESC t /\ Forall okRune t.
Proof.
  unfold textCheck. rewrite !andb_true_iff. intros [[H1 H2] H3]. split; [intros ->; discriminate H1|]. split; [now apply noEsc|now apply okRunes_check].
Qed.
Lemma run_check r : runCheck r = true -> okRun digits r /\ Forall okRune (r_text r).
Proof.
  unfold runCheck. rewrite !andb_true_iff, !orb_true_iff. intros [[H1 H2] H3]. destruct (text_check _ H3) as (T1 & T2 & T3). split; [|exact T3].
  destruct r as [s t e]. cbn [r_start r_text r_stop] in *. constructor; [| |exact T1|exact T2].
  - destruct H1 as [H|H]; [left; now apply reqb_eq|right; now apply start_check].
  - destruct H2 as [H|H]; apply reqb_eq in H; [now left|right; subst e; exact off_stop].
Qed.
Lemma token_check t : tokenCheck t = true -> okToken digits t /\ Forall (fun r => Forall okRune (r_text r)) t.
Proof.
  intros H. assert (t <> [] /\ forallb runCheck t = true /\ apart t = true) as (H1 & H2 & H3).
  { destruct t; [discriminate H|]. cbn [tokenCheck] in H. apply andb_true_iff in H. split; [discriminate|exact H]. }
  rewrite forallb_forall in H2. split; [split; [exact H1|]; split|].
  - apply Forall_forall. intros r Hr. now apply run_check, H2.
  - clear - H3. induction t as [|r t IH]; [exact I|]. cbn [apart] in H3. apply andb_true_iff in H3. destruct H3 as [Ha Hb]. split; [|now apply IH].
    destruct t as [|r' t]; [exact I|]. apply orb_true_iff in Ha. destruct Ha as [Ha|Ha]; [left|right]; intros E; rewrite E in Ha; discriminate Ha.
  - apply Forall_forall. intros r Hr. now apply run_check, H2.
Qed.
Lemma tokens_check ts : forallb tokenCheck ts = true -> Forall (okToken digits) ts /\ Forall (fun t => Forall (fun r => Forall okRune (r_text r)) t) ts.
Proof. intros H. rewrite forallb_forall in H. split; apply Forall_forall; intros t Ht; now apply token_check, H. Qed.
Lemma passage_check p : passageCheck p = true -> okPassage digits p.
Proof.
  unfold passageCheck, okPassage. intros H. apply andb_true_iff in H. destruct H as [H1 H2]. destruct (p_texts p) as [|t l] eqn:E; [discriminate H1|].
  split; [discriminate|]. split.
  - rewrite forallb_forall in H1. apply Forall_forall. intros x Hx. destruct (text_check x (H1 x Hx)) as (T1 & T2 & _). now split.
  - rewrite orb_true_iff, !andb_true_iff in H2. destruct H2 as [[H2 H3]|[H2 H3]]; [left; split; now apply reqb_eq|right; split; [now apply start_check|]].
    apply reqb_eq in H3. rewrite H3. exact off_stop.
Qed.
Lemma small_cap (l : list rune) : (length l <= 1000)%nat -> zlen l < 2 ^ 63.
Proof. unfold zlen. lia. Qed.
Lemma doc_call ts ps w k : ts <> [] -> forallb tokenCheck ts = true -> forallb passageCheck ps = true -> concat ts = flat_map runsOf ps ->
  forallb (fun t => (length (tokenRunes t) <=? 1000)%nat) ts = true ->
  (lineWidth (l_renderHyphens fO) exM (exM [32]) (hyphenW fO exM) (formattedFrags digits fO fPunct pairs ts) <=? 2 ^ 50) = true -> 0 < w <= 2 ^ 30 ->
  formattedCall B BL digits fO exM fPunct pairs fB ts ps (fun _ => []) (n w) (1 * w) (from k).
Proof.
  intros H1 H2 H3 H4 H5 H6 Hw. destruct (tokens_check ts H2) as [T1 T2]. constructor.
  - exact f_settings.
  - exact f_new.
  - split; assumption.
  - split; [|exact H4]. apply Forall_forall. rewrite forallb_forall in H3. intros p Hp. now apply passage_check, H3.
  - exact T2.
  - intros j t Hj. apply nth_error_In in Hj. rewrite forallb_forall in H5. specialize (H5 t Hj). apply Nat.leb_le in H5. apply small_cap. now rewrite app_nil_r.
  - now apply Z.leb_le.
  - apply scaled_width with (k := 1) (n := w); [apply (rep_Z B BL); unfold exactZ; lia|lia|apply (rep_Z B BL); unfold exactZ; lia|lia|lia].
  - lia.
  - apply from_all.
Qed.
Lemma ex_okDoc : Forall (okToken digits) exDoc.
Proof. apply tokens_check. vm_compute. reflexivity. Qed.
Example ex_formatted_call w k : 0 < w <= 2 ^ 30 ->
  formattedCall B BL digits fO exM fPunct pairs fB exDoc exPassages (fun _ => []) (n w) (1 * w) (from k).
Proof. apply doc_call; [discriminate|vm_compute; reflexivity..]. Qed.
Example ex_span_call w k : 0 < w <= 2 ^ 30 ->
  formattedCall B BL digits fO exM fPunct pairs fB exSpan exSpanPassages (fun _ => []) (n w) (1 * w) (from k).
Proof. apply doc_call; [discriminate|vm_compute; reflexivity..]. Qed.

(** ** Theorems *)

(** C64: [token] (Format.v): the token is made of such runs, and the runs begin and end between two pieces of the punctuator. *)
Theorem C64_formatting_neutral : forall A u o lb, usable A u o lb -> forall ord spare1 spare2 (ts : list (list SpecFormat.run)) maxWidth,
  (forall j x, nth_error ts j = Some x -> token A u o x (spare1 j) (spare2 j)) ->
  match leftAlignUniform A u ord spare1 lb (map tokenRunes ts) maxWidth, leftAlignUniform A u ord spare2 lb (map tokenText ts) maxWidth with
  | Ret (Some l1, _), Ret (Some l2, _) =>
      Forall2 (fun l p => decorated (sequencesOf (concat ts)) l p /\ (~ In ESC p -> reads u l p)) l1 l2
  | Ret (None, _), Ret (None, _) => True
  | Panic, Panic => True
  | _, _ => False
  end.
Proof. exact format_neutral. Qed.
Print Assumptions C64_formatting_neutral.
Definition exDoc64 : list (list SpecFormat.run) := [[plain "ab,"]; [fmt boldOn "abcdef"; plain ","]; [plain "xyz"]]%string.
Example C64_ex_token j x : nth_error exDoc64 j = Some x -> token B digits fO x [] [].
Proof.
  intros H. assert (In x exDoc) as Hin by (apply nth_error_In in H; cbn in *; tauto). split; [pose proof ex_okDoc as K; rewrite Forall_forall in K; now apply K|].
  apply nth_error_In in H. cbn in H. split; [|split; apply small_cap]; repeat (destruct H as [<-|H]; [vm_compute; repeat constructor|]); destruct H.
Qed.
Definition format (o : lopts B) (tokens : list (list rune)) (width : F B) : go (option (list (list rune))) :=
  let! lb := newBreaker B o in let! x := leftAlignUniform B digits (from 0) (fun _ => []) lb tokens width in Ret (fst x).
Example C64_ex : format fO (map tokenRunes exDoc64) (n 5) =
  Ret (Some [txt "ab,"; boldOn ++ txt "ab-" ++ off; boldOn ++ txt "cdef" ++ off ++ txt ","; txt "xyz"]) /\
  format fO (map tokenText exDoc64) (n 5) = lines ["ab,"; "ab-"; "cdef,"; "xyz"]%string.
Proof. split; vm_compute; reflexivity. Qed.

(** C65: the exact lines *)
Theorem C65_formatted_lines : forall A L u o m punct parts lb ts ps spare maxWidth W ord,
  formattedCall A L u o m punct parts lb ts ps spare maxWidth W ord ->
  let frs := formattedFrags u o punct parts ts in
  let softOn := negb (feq A (l_hyphenPenalty o) (fZ A 10000)) in
  let linesOk := linesOk (l_renderHyphens o) m (m [32]) (hyphenW o m) A (k_tolerance (l_search o)) W true in
  exists res lb', leftAlignUniform A u ord spare lb (map tokenRunes ts) maxWidth = Ret (res, lb') /\
  match res with
  | None => ~ exists segs, layout softOn frs segs /\ linesOk segs = true
  | Some ls => exists segs, ls = showDoc (l_renderHyphens o) segs /\ concat segs = combine frs (formattedMarks u o punct parts ps) /\
      layout softOn frs (map (map fst) segs) /\ linesOk (map (map fst) segs) = true /\
      (W <= 4997 -> forall segs', layout softOn frs segs' -> linesOk segs' = true ->
         (List.length (last segs' []) <= List.length (last (map (map fst) segs) []))%nat)
  end.
Proof. exact formatted_call. Qed.
Print Assumptions C65_formatted_lines.
(** the run "-ijklm" is split: the runs next to it are closed and opened with it *)
Example C65_ex : format fO (map tokenRunes exDoc) (n 6) =
  Ret (Some [txt "ab,"; boldOn ++ txt "ab-" ++ off; boldOn ++ txt "cdef" ++ off ++ txt ",";
             boldOn ++ txt "gh" ++ off ++ redOn ++ txt "-" ++ off ++ off ++ off;
             boldOn ++ redOn ++ txt "ijkl-" ++ off ++ off ++ off;
             boldOn ++ redOn ++ txt "m" ++ off ++ boldOn ++ txt "," ++ off ++ txt " xyz"]).
Proof. vm_compute. reflexivity. Qed.

(** the passage over three tokens is closed at the end of the lines and opened again; the red one next to it comes with it *)
Example C65_ex_span : format fO (map tokenRunes exSpan) (n 6) =
  Ret (Some [txt "ab,"; boldOn ++ txt "abcd-" ++ off ++ off; boldOn ++ txt "ef gh" ++ off ++ off;
             boldOn ++ txt "ij" ++ off ++ redOn ++ txt "kl" ++ off ++ txt ","; txt "xyz"]).
Proof. vm_compute. reflexivity. Qed.

(** C66: the lines on a terminal *)
Theorem C66_formatted_screen : forall A L u o m punct parts lb ts ps spare maxWidth W ord,
  formattedCall A L u o m punct parts lb ts ps spare maxWidth W ord ->
  let frs := formattedFrags u o punct parts ts in
  let softOn := negb (feq A (l_hyphenPenalty o) (fZ A 10000)) in
  exists res lb', leftAlignUniform A u ord spare lb (map tokenRunes ts) maxWidth = Ret (res, lb') /\
  match res with
  | None => True
  | Some ls => exists lines, concat lines = combine frs (formattedOrigins u o punct parts ps) /\
      layout softOn frs (map (map fst) lines) /\ Forall2 (lineShown u (l_renderHyphens o)) ls lines
  end.
Proof. exact formatted_screen. Qed.
Print Assumptions C66_formatted_screen.
(** the fourth line of C65_ex on a terminal *)
Example C66_ex : exists items, lexed digits (boldOn ++ txt "gh" ++ off ++ redOn ++ txt "-" ++ off ++ off ++ off) items /\
  screen [] items = ([(txt "g", [boldOn]); (txt "h", [boldOn]); (txt "-", [redOn])]%string, []).
Proof.
  assert (forall rest k l, sequence digits k l -> k <> Other -> csi digits rest l k) as K by (intros; now apply sequence_csi).
  eexists. split.
  - apply (lx_csi digits boldOn); [apply K; [exact bold_start|discriminate]|]. change (txt "gh"%string) with ([103; 104]). cbn [app].
    apply lx_chr; [discriminate|]. apply lx_chr; [discriminate|].
    apply (lx_csi digits off); [apply K; [exact off_stop|discriminate]|]. apply (lx_csi digits redOn); [apply K; [exact red_start|discriminate]|].
    change (txt "-"%string) with [45]. cbn [app]. apply lx_chr; [discriminate|].
    apply (lx_csi digits off); [apply K; [exact off_stop|discriminate]|]. apply (lx_csi digits off); [apply K; [exact off_stop|discriminate]|].
    rewrite <- (app_nil_r off). apply (lx_csi digits off); [apply K; [exact off_stop|discriminate]|]. apply lx_nil.
  - reflexivity.
Qed.
