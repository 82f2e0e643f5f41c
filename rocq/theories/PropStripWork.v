(** C108: what StripToken costs. *)
From Verif Require Import Base Unicode Ansi AnsiProofs StripWork.

(** The counter changes nothing: same result, or a panic in both. *)
Theorem C108_counter : forall (u : unicode) (tok spare : list rune), mcap (tok ++ spare) ->
  (forall m parts, stripToken u (tok ++ spare) (zlen tok) = Ret (m, parts) <->
     exists reads, stripTokenN u (tok ++ spare) (zlen tok) = Ret (m, parts, reads)).
Proof. exact strip_counter. Qed.
Print Assumptions C108_counter.

(** C108: at most three reads a rune and seven a part; no more parts than runes. *)
Theorem C108_linear : forall (u : unicode) (tok spare m : list rune) (parts : list stripped) (reads : Z), mcap (tok ++ spare) ->
  stripTokenN u (tok ++ spare) (zlen tok) = Ret (m, parts, reads) ->
  reads <= 3 * zlen tok + 7 * zlen parts /\ zlen parts <= Z.max 1 (zlen tok).
Proof. exact strip_linear. Qed.
Print Assumptions C108_linear.

Definition ascii : unicode := mkUnicode (fun _ => false) (fun _ => false) (fun r => r).
(* ESC[1m ESC[2m ESC[3m a ESC[0m ESC[0m: sequences are decoded twice *)
Example C108_ex : match stripTokenN ascii [27; 91; 49; 109; 27; 91; 50; 109; 27; 91; 51; 109; 97; 27; 91; 48; 109; 27; 91; 48; 109; 7] 21 with
  | Ret (_, parts, reads) => length parts = 4%nat /\ reads = 36
  | Panic => False end.
Proof. vm_compute. auto. Qed.
