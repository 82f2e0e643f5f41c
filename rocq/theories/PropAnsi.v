(** C20-C25: ansi.StripToken and ansi.StripANSIFromRunes.

    A token is a slice [tok] followed in its backing array by [spare] (capacity minus length). The only hypothesis
    on sizes is that the capacity fits an int. *)
From Verif Require Import Base Unicode Split SpecSplit Ansi SpecAnsi AnsiProofs Sgr.

Definition ascii : unicode := mkUnicode (fun _ => false) (fun _ => false) (fun r => r).
(* "a ESC[1m b ESC[0m ESC[K c" *)
Definition sample : list rune := [97; 27; 91; 49; 109; 98; 27; 91; 48; 109; 27; 91; 75; 99].
Definition sampleItems : list item :=
  [Chr [97]; Ctl Start [27; 91; 49; 109]; Chr [98]; Ctl Stop [27; 91; 48; 109]; Ctl Other [27; 91; 75]; Chr [99]].
Example sample_lexed : mcap (sample ++ [7; 7]) /\ lexed ascii sample sampleItems.
Proof.
  split; [reflexivity|]. apply lx_chr; [discriminate|].
  apply (lx_csi ascii [27; 91; 49; 109] [98; 27; 91; 48; 109; 27; 91; 75; 99]).
  { apply (csi_done ascii _ [49] [49] 109 Start); [apply params_one; [repeat constructor|cbn; lia]|discriminate|intros [H|H]; discriminate|].
    apply fk_m1. intros H. inversion H. discriminate. }
  apply lx_chr; [discriminate|]. apply (lx_csi ascii [27; 91; 48; 109] [27; 91; 75; 99]).
  { apply (csi_done ascii _ [48] [48] 109 Stop); [apply params_one; [repeat constructor|cbn; lia]|discriminate|intros [H|H]; discriminate|].
    apply fk_m0. repeat constructor. }
  apply (lx_csi ascii [27; 91; 75] [99]).
  { apply (csi_done ascii _ [] [] 75 Other); [apply params_one; [constructor|cbn; lia]|discriminate|intros [H|H]; discriminate|].
    apply fk_other. cbn. intuition discriminate. }
  apply lx_chr; [discriminate|]. apply lx_nil.
Qed.

(** C20, termination: past the length of the token, fuel changes nothing, whatever the token. *)
Theorem C20_striptoken_terminates : forall (u : unicode) (tok spare : list rune) (fuel : nat),
  mcap (tok ++ spare) -> (length tok < fuel)%nat ->
  stripTokenWith u fuel (tok ++ spare) (zlen tok) = stripToken u (tok ++ spare) (zlen tok).
Proof. exact stripToken_terminates. Qed.
Print Assumptions C20_striptoken_terminates.

(** C20, lossless. Full statement: without the hypothesis [lexed]. It is false, see the next theorem; what is
    excluded is a token ending right after a third digit of a parameter (C24_lexing_exists). *)
Theorem C20_striptoken_lossless_partial : forall (u : unicode) (tok spare : list rune) (items : list item),
  mcap (tok ++ spare) -> lexed u tok items ->
  exists parts, stripToken u (tok ++ spare) (zlen tok) = Ret (tok ++ spare, parts) /\ joined (tok ++ spare) parts = tok.
Proof. exact stripToken_lossless. Qed.
Print Assumptions C20_striptoken_lossless_partial.

Example C20_ex :
  match stripToken ascii (sample ++ [7; 7]) (zlen sample) with
  | Ret (m, ps) => length ps = 4%nat /\ joined m ps = sample
  | Panic => False
  end.
Proof. vm_compute. auto. Qed.

(* ESC[123 in an array with one more rune: that rune is returned too *)
Theorem C20_striptoken_lossless_refuted : exists (tok spare : list rune) (m : list rune) (parts : list stripped),
  mcap (tok ++ spare) /\ stripToken ascii (tok ++ spare) (zlen tok) = Ret (m, parts) /\ joined m parts <> tok.
Proof.
  exists [27; 91; 49; 50; 51], [88]. eexists _, _. split; [reflexivity|].
  split; [vm_compute; reflexivity|]. vm_compute. discriminate.
Qed.
Print Assumptions C20_striptoken_lossless_refuted.

(* a ESC[0m ESC[123 in an array with one more rune: the m of ESC[0m is returned twice *)
Theorem C20_twice_refuted : exists (tok spare : list rune) (m : list rune) (parts : list stripped),
  mcap (tok ++ spare) /\ stripToken ascii (tok ++ spare) (zlen tok) = Ret (m, parts) /\
  map (fun p => (contents m (s_start p), contents m (s_text p), contents m (s_stop p))) parts =
    [([], [97], [27; 91; 48; 109]); ([], [109; 27; 91; 49; 50; 51; 88], [])].
Proof.
  exists [97; 27; 91; 48; 109; 27; 91; 49; 50; 51], [88]. eexists _, _. split; [reflexivity|].
  split; [vm_compute; reflexivity|]. vm_compute. reflexivity.
Qed.
Print Assumptions C20_twice_refuted.

(** C21. Full statement: StripToken returns and every slice it returns lies in [0, len). False: *)
Theorem C21_striptoken_panics_refuted : exists tok : list rune,
  mcap tok /\ stripToken ascii (tok ++ []) (zlen tok) = Panic.
Proof. exists [27; 91; 49; 50; 51]. split; [reflexivity|vm_compute; reflexivity]. Qed.
Print Assumptions C21_striptoken_panics_refuted.

Theorem C21_striptoken_overread_refuted : exists (tok spare : list rune) (m : list rune) (parts : list stripped),
  mcap (tok ++ spare) /\ stripToken ascii (tok ++ spare) (zlen tok) = Ret (m, parts) /\
  ~ Forall (partWithin [] tok) parts.
Proof.
  exists [27; 91; 49; 50; 51], [88]. eexists _, _. split; [reflexivity|].
  split; [vm_compute; reflexivity|]. intros H. inversion H as [|? ? (_ & H1 & _) _]; subst.
  vm_compute in H1. destruct H1 as (_ & _ & H1). now apply H1.
Qed.
Print Assumptions C21_striptoken_overread_refuted.

(** C21 outside of that case. *)
Theorem C21_striptoken_in_bounds_partial : forall (u : unicode) (tok spare : list rune) (items : list item),
  mcap (tok ++ spare) -> lexed u tok items ->
  exists parts, stripToken u (tok ++ spare) (zlen tok) = Ret (tok ++ spare, parts) /\ Forall (partWithin [] tok) parts.
Proof. exact stripToken_in_bounds. Qed.
Print Assumptions C21_striptoken_in_bounds_partial.

(** C21: exactly when it panics. *)
Theorem C21_striptoken_panic_iff : forall (u : unicode) (tok spare : list rune),
  mcap (tok ++ spare) ->
  stripToken u (tok ++ spare) (zlen tok) = Panic <-> spare = [] /\ forall items, ~ lexed u tok items.
Proof. exact stripToken_panic. Qed.
Print Assumptions C21_striptoken_panic_iff.

(* ESC[123 has no lexing *)
Example C21_ex : cutShort ascii [97; 27; 91; 49; 50; 51] /\ forall items, ~ lexed ascii [97; 27; 91; 49; 50; 51] items.
Proof.
  split; [exists [97], [49; 50; 51], [49; 50; 51]; split; [reflexivity|]; apply params_full; [repeat constructor|reflexivity]|].
  apply (stripToken_panic ascii [97; 27; 91; 49; 50; 51] []); [reflexivity|]. vm_compute. reflexivity.
Qed.

(** What is returned for such a token, when there is room after it: exactly one rune beyond its end, and, in the second
    case, the last rune of a stop sequence twice. *)
Theorem C21_striptoken_cut : forall (u : unicode) (tok : list rune) (x : rune) (spare : list rune),
  mcap (tok ++ x :: spare) -> (forall items, ~ lexed u tok items) ->
  exists parts, stripToken u (tok ++ x :: spare) (zlen tok) = Ret (tok ++ x :: spare, parts) /\ Forall (partWithin [] (tok ++ [x])) parts /\
  (joined (tok ++ x :: spare) parts = tok ++ [x] \/
   exists a r qs first, tok = a ++ r :: ESC :: 91 :: qs /\ params u qs first true /\ (r = 117 \/ r = 108 \/ r = 109) /\
     joined (tok ++ x :: spare) parts = a ++ r :: r :: ESC :: 91 :: qs ++ [x]).
Proof. exact stripToken_cut. Qed.
Print Assumptions C21_striptoken_cut.
(* C21_ex is such a token, C20_twice_refuted has one for the second case *)
Example C21_ex_cut : match stripToken ascii [97; 27; 91; 49; 50; 51; 88; 89] 6 with
  | Ret (m, parts) => joined m parts = [97; 27; 91; 49; 50; 51; 88] | Panic => False end.
Proof. vm_compute. reflexivity. Qed.

(** C22: whatever the token (even when runes beyond its length are returned). *)
Theorem C22_striptoken_input_untouched : forall (u : unicode) (tok spare m : list rune) (parts : list stripped),
  mcap (tok ++ spare) -> stripToken u (tok ++ spare) (zlen tok) = Ret (m, parts) -> m = tok ++ spare.
Proof. exact stripToken_untouched. Qed.
Print Assumptions C22_striptoken_input_untouched.

(* the append is exercised: "b ESC[K ESC[0m" *)
Example C22_ex :
  match stripToken ascii ([98; 27; 91; 75; 27; 91; 48; 109] ++ [7]) 8 with
  | Ret (m, [p]) => m = [98; 27; 91; 75; 27; 91; 48; 109; 7] /\ s_text p = SView 0 4 /\ s_stop p = SView 4 4
  | _ => False
  end.
Proof. vm_compute. auto. Qed.

(** C23. Full statement: parameters of up to three digits. Parameters of exactly three digits are misread: *)
Theorem C23_three_digits_refuted : exists (tok : list rune) (st : stripped),
  tok = [27; 91; 49; 48; 48; 109] (* ESC[100m *) /\
  stripANSIFromRunes ascii tok [] = Ret (tok, st) /\ contents tok (s_start st) = [] /\ contents tok (s_text st) = tok.
Proof.
  exists [27; 91; 49; 48; 48; 109], (mkStripped (SView 0 6) SNil SNil (SView 6 0)).
  split; [reflexivity|]. split; [vm_compute; reflexivity|]. split; vm_compute; reflexivity.
Qed.
Print Assumptions C23_three_digits_refuted.

(* ESC[38;255;1m is not recognised as a whole: ESC[38;255; is returned as text and "1m" becomes text *)
Theorem C23_split_refuted : exists (tok : list rune) (st : stripped),
  tok = [27; 91; 51; 56; 59; 50; 53; 53; 59; 49; 109] /\
  stripANSIFromRunes ascii tok [] = Ret (tok, st) /\ contents tok (s_rem st) = [49; 109].
Proof.
  exists [27; 91; 51; 56; 59; 50; 53; 53; 59; 49; 109], (mkStripped (SView 0 9) SNil SNil (SView 9 2)).
  split; [reflexivity|]. split; vm_compute; reflexivity.
Qed.
Print Assumptions C23_split_refuted.

(** C23 with parameters of up to two digits: stops. *)
Theorem C23_stop_sequences_partial : forall (u : unicode) (ps first : list rune) (f : rune) (rest spare : list rune),
  let seq := ESC :: 91 :: ps ++ [f] in let m := (seq ++ rest) ++ spare in
  mcap m -> params u ps first false -> finalKind first f Stop ->
  exists st, stripANSIFromRunes u (seq ++ rest) spare = Ret (m, st) /\
    contents m (s_start st) = [] /\ contents m (s_text st) = [] /\ contents m (s_stop st) = seq /\
    contents m (s_rem st) = rest.
Proof. exact sgr_stop. Qed.
Print Assumptions C23_stop_sequences_partial.

(** C23 with parameters of up to two digits: starts. *)
Theorem C23_start_sequences_partial : forall (u : unicode) (ps first : list rune) (f : rune) (rest spare : list rune)
    (items : list item),
  let seq := ESC :: 91 :: ps ++ [f] in let m := (seq ++ rest) ++ spare in
  mcap m -> params u ps first false -> finalKind first f Start -> lexed u rest items ->
  exists st, stripANSIFromRunes u (seq ++ rest) spare = Ret (m, st) /\ contents m (s_start st) = seq.
Proof. exact sgr_start. Qed.
Print Assumptions C23_start_sequences_partial.

(** C23, exactly, for parameters of any length: ESC [ p1 ; ... ; pn m is a stop sequence if p1 is made of zeros and a start sequence otherwise if no parameter has
    more than two digits ([sgrParts] in Sgr.v); if one has, all of it is text *)
Theorem C23_exact : forall (u : unicode) (ps : list (list rune)) (spare : list rune), ps <> [] -> Forall (Forall (digit u)) ps -> mcap (sgr ps ++ spare) ->
  exists parts, stripToken u (sgr ps ++ spare) (zlen (sgr ps)) = Ret (sgr ps ++ spare, parts) /\
    sgrParts ps (map (fun p => (contents (sgr ps ++ spare) (s_start p), contents (sgr ps ++ spare) (s_text p), contents (sgr ps ++ spare) (s_stop p))) parts).
Proof. exact sgr_exact. Qed.
Print Assumptions C23_exact.
(* the 256 colors and the 16 million colors: ESC[38;5;99m, ESC[38;2;9;99;0m are fine, ESC[38;5;100m and ESC[38;2;255;0;0m are text *)
Definition partsOf (tok : list rune) : list (list rune * list rune * list rune) :=
  match stripToken ascii tok (zlen tok) with
  | Ret (m, parts) => map (fun p => (contents m (s_start p), contents m (s_text p), contents m (s_stop p))) parts
  | Panic => []
  end.
Example C23_exact_ex : partsOf (sgr [[51; 56]; [53]; [57; 57]]) = [(sgr [[51; 56]; [53]; [57; 57]], [], [])] /\
  partsOf (sgr [[51; 56]; [50]; [57]; [57; 57]; [48]]) = [(sgr [[51; 56]; [50]; [57]; [57; 57]; [48]], [], [])] /\ partsOf (sgr [[]]) = [([], [], [27; 91; 109])] /\
  partsOf (sgr [[51; 56]; [53]; [49; 48; 48]]) = [([], sgr [[51; 56]; [53]; [49; 48; 48]], [])] /\
  partsOf (sgr [[51; 56]; [50]; [50; 53; 53]; [48]; [48]]) = [([], [27; 91; 51; 56; 59; 50; 59; 50; 53; 53; 59], []); ([], [48; 59; 48; 109], [])].
Proof. repeat (split; [vm_compute; reflexivity|]). vm_compute. reflexivity. Qed.

(* 38;5 m is a start, 0;1 m and m are stops *)
Example C23_ex : params ascii [51; 56; 59; 53] [51; 56] false /\ finalKind [51; 56] 109 Start /\
  params ascii [48; 59; 49] [48] false /\ finalKind [48] 109 Stop /\ params ascii [] [] false /\ finalKind [] 109 Stop.
Proof.
  split; [|split; [|split; [|split; [|split]]]].
  - apply (params_more ascii [51; 56] 59 [53] [53] false); [repeat constructor|cbn; lia|left; reflexivity|].
    apply params_one; [repeat constructor|cbn; lia].
  - apply fk_m1. intros H. inversion H; discriminate.
  - apply (params_more ascii [48] 59 [49] [49] false); [repeat constructor|cbn; lia|left; reflexivity|].
    apply params_one; [repeat constructor|cbn; lia].
  - apply fk_m0. repeat constructor.
  - apply params_one; [constructor|cbn; lia].
  - apply fk_m0. constructor.
Qed.

(** C24: the parts regroup the lexical items of the token, in order: at most one start sequence, then text and
    sequences of no kind, then at most one stop sequence. *)
Theorem C24_parts_regroup_items_partial : forall (u : unicode) (tok spare : list rune) (items : list item),
  mcap (tok ++ spare) -> lexed u tok items ->
  exists parts groups, stripToken u (tok ++ spare) (zlen tok) = Ret (tok ++ spare, parts) /\
    lexed u tok (concat groups) /\
    Forall2 (fun g p => covers g (contents (tok ++ spare) (s_start p)) (contents (tok ++ spare) (s_text p))
                                 (contents (tok ++ spare) (s_stop p))) groups parts.
Proof. exact stripToken_groups. Qed.
Print Assumptions C24_parts_regroup_items_partial.

(** C24, exactly: the parts are the [groups] of the items. *)
Theorem C24_parts_exact_partial : forall (u : unicode) (tok spare : list rune) (items : list item),
  mcap (tok ++ spare) -> lexed u tok items ->
  exists parts, stripToken u (tok ++ spare) (zlen tok) = Ret (tok ++ spare, parts) /\
    map (fun p => (contents (tok ++ spare) (s_start p), contents (tok ++ spare) (s_text p),
                   contents (tok ++ spare) (s_stop p))) parts = map partOf (groups items).
Proof. exact stripToken_exact. Qed.
Print Assumptions C24_parts_exact_partial.

(* a, then a run b, then a sequence of no kind and c: four parts *)
Example C24_groups_ex : map partOf (groups [Chr [97]; Ctl Start [27; 91; 49; 109]; Chr [98]; Ctl Stop [27; 91; 48; 109];
    Ctl Other [27; 91; 75]; Chr [99]]) =
  [([], [97], []); ([27; 91; 49; 109], [98], [27; 91; 48; 109]); ([], [27; 91; 75], []); ([], [99], [])].
Proof. reflexivity. Qed.

(** C24: the only texts without a lexing are cut short; the lexing is unique. *)
Theorem C24_lexing_exists : forall (u : unicode) (tok : list rune),
  mcap tok -> ~ cutShort u tok -> exists items, lexed u tok items.
Proof. exact lexed_total. Qed.
Print Assumptions C24_lexing_exists.

Theorem C24_lexing_unique : forall (u : unicode) (l : list rune) (is1 is2 : list item),
  lexed u l is1 -> lexed u l is2 -> is1 = is2.
Proof. exact lexed_unique. Qed.
Print Assumptions C24_lexing_unique.

Example C24_ex : lexed ascii [97; 27; 91; 75] [Chr [97]; Ctl Other [27; 91; 75]].
Proof.
  apply lx_chr; [discriminate|]. apply (lx_csi ascii [27; 91; 75] [] []); [|constructor].
  apply (csi_done ascii [] [] [] 75 Other).
  - apply params_one; [constructor|cbn; lia].
  - discriminate.
  - intros [H|H]; discriminate.
  - apply fk_other. cbn. intuition discriminate.
Qed.

(** C25 *)
Theorem C25_plain_text : forall (u : unicode) (tok spare : list rune), mcap (tok ++ spare) -> ~ hasCSI tok ->
  exists st, stripToken u (tok ++ spare) (zlen tok) = Ret (tok ++ spare, [st]) /\
    s_start st = SNil /\ contents (tok ++ spare) (s_text st) = tok /\ s_stop st = SNil.
Proof. exact strip_plain. Qed.
Print Assumptions C25_plain_text.

(* a lone ESC, and an ESC before another rune *)
Example C25_ex : ~ hasCSI [97; 27; 98; 91; 27] /\
  match stripToken ascii [97; 27; 98; 91; 27] 5 with Ret (_, [p]) => s_text p = SView 0 5 | _ => False end.
Proof.
  split; [|vm_compute; reflexivity]. intros (a & b & H).
  repeat (destruct a as [|? a]; cbn [app] in H; try discriminate; injection H as _ H).
Qed.
