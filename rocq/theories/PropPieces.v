(** C126: the pieces of a token stripped again. *)
From Verif Require Import Base Unicode Split SpecSplit Ansi SpecAnsi AnsiProofs Pieces PropAnsi.

(** A part is returned as it is when it is given to StripToken; so is each start sequence, text and stop sequence that StripToken returns on its own, in the same field (in an array of its own, or with anything after it). [partIs]: the three fields of a part. *)
Theorem C126_pieces : forall (u : unicode) (tok spare : list rune) (items : list item) (parts : list stripped) (m : list rune),
  mcap (tok ++ spare) -> lexed u tok items -> stripToken u (tok ++ spare) (zlen tok) = Ret (m, parts) ->
  Forall (fun p => forall spare',
    let start := contents m (s_start p) in let text := contents m (s_text p) in let stop := contents m (s_stop p) in
    (let whole := start ++ text ++ stop in mcap (whole ++ spare') ->
       exists q, stripToken u (whole ++ spare') (zlen whole) = Ret (whole ++ spare', [q]) /\
       partIs (whole ++ spare') q start text stop) /\
    (mcap (start ++ spare') -> exists q, stripToken u (start ++ spare') (zlen start) = Ret (start ++ spare', [q]) /\
       partIs (start ++ spare') q start [] []) /\
    (mcap (text ++ spare') -> exists q, stripToken u (text ++ spare') (zlen text) = Ret (text ++ spare', [q]) /\
       partIs (text ++ spare') q [] text []) /\
    (mcap (stop ++ spare') -> exists q, stripToken u (stop ++ spare') (zlen stop) = Ret (stop ++ spare', [q]) /\
       partIs (stop ++ spare') q [] [] stop)) parts.
Proof. exact strip_pieces. Qed.
Print Assumptions C126_pieces.

(* b ESC[K ESC[0m: its text b ESC[K is one part, without sequences, whatever comes next in the array *)
Example C126_ex : partsOf [98; 27; 91; 75; 27; 91; 48; 109] = [([], [98; 27; 91; 75], [27; 91; 48; 109])] /\
  partsOf [98; 27; 91; 75] = [([], [98; 27; 91; 75], [])] /\ partsOf [27; 91; 48; 109] = [([], [], [27; 91; 48; 109])] /\
  partsOf sample = map partOf (groups sampleItems).
Proof. repeat (split; [vm_compute; reflexivity|]). vm_compute. reflexivity. Qed.

(** This is not so for any cut of a token: in ESC ESC[1m the first ESC takes the second one with it, so that all is
    text; cut between them, the second half is a start sequence. *)
Theorem C126_half_refuted : exists a b : list rune, mcap (a ++ b) /\ partsOf (a ++ b) <> partsOf a ++ partsOf b.
Proof. exists [27], [27; 91; 49; 109]. split; [reflexivity|]. vm_compute. discriminate. Qed.
Print Assumptions C126_half_refuted.
