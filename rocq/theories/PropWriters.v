(** C106: rendering on writers that fail. *)
From Coq Require Import Ascii String.
From Verif Require Import Base Unicode Utf8 SpecUtf8 Utf8Proofs Attr Heap Writers.

(** On a writer that never fails, any series of calls of Render, Start, Stop, StartOfLine and EndOfLine delivers the UTF-8 of all they write. *)
Theorem C106_reliable : forall w kept js s, honest w kept -> reliable w -> Forall int32 (output js) ->
  exists rs bs, Forall2 replaced (output js) rs /\ utf8s rs bs /\ kept (runJobs w s js) = kept s ++ bs.
Proof. exact jobs_reliable. Qed.
Print Assumptions C106_reliable.
(** On a writer that takes nothing once it has failed, the beginning of it. Missing: writers that fail and go on. *)
Theorem C106_prefix_partial : forall w kept broken js s, honest w kept -> sticky w broken -> Forall int32 (output js) ->
  exists rs x y, Forall2 replaced (output js) rs /\ utf8s rs (x ++ y) /\ kept (runJobs w s js) = kept s ++ x.
Proof. exact jobs_sticky. Qed.
Print Assumptions C106_prefix_partial.

Definition txt (s : string) : list rune := map (fun c => Z.of_nat (nat_of_ascii c)) (list_ascii_of_string s).
Definition bold : attr := newAttr (txt "bold") (txt "<b>") (txt "</b>"). Definition plain : attr := newAttr (txt " plain") [] [].
Lemma small l : forallb (fun r => (0 <=? r) && (r <? 1000)) l = true -> Forall int32 l.
Proof. rewrite forallb_forall, Forall_forall. intros H r Hr. specialize (H r Hr). apply andb_true_iff in H. destruct H as [H1 H2]. apply Z.leb_le in H1. apply Z.ltb_lt in H2. unfold int32. lia. Qed.
(** A file on a device with room for [n] bytes: the writes that follow fail, even the short ones. *)
Definition full : iowriter := mkWriter (list byte * nat * bool) unit (fun '(k, room, bad) bs =>
  if bad then ((k, room, bad), (0, Some tt))
  else if (List.length bs <=? room)%nat then ((k ++ bs, (room - List.length bs)%nat, false), (zlen bs, None))
  else ((k ++ firstn room bs, O, true), (Z.of_nat room, Some tt))).
Lemma full_honest : honest full (fun s => fst (fst s)).
Proof.
  intros [[k room] bad] bs s' n e E. cbn in E. destruct bad; [injection E as <- <- <-; cbn; rewrite app_nil_r; unfold zlen; split; [lia|]; split; [reflexivity|discriminate]|].
  destruct (Nat.leb_spec (List.length bs) room) as [L|L]; injection E as <- <- <-; cbn [fst].
  - split; [unfold zlen; lia|]. rewrite zfirst_all by reflexivity. split; [reflexivity|lia].
  - split; [unfold zlen; lia|]. rewrite Nat2Z.id. split; [reflexivity|discriminate].
Qed.
Lemma full_sticky : sticky full (fun s => snd s = true).
Proof.
  intros [[k room] bad] bs s' n e E. cbn in E. cbn [snd]. destruct bad; [injection E as <- <- <-; auto|].
  destruct (List.length bs <=? room)%nat; injection E as <- <- <-; (split; [intros X|intros X; discriminate X]); [now elim X|reflexivity].
Qed.
Example C106_ex : honest full (fun s => fst (fst s)) /\ sticky full (fun s => snd s = true) /\ Forall int32 (output [Render bold; Render plain]) /\
  runJobs full ([], 9%nat, false) [Render bold; Render plain] = (txt "<b>bold</", 0%nat, true).
Proof.
  split; [exact full_honest|]. split; [exact full_sticky|]. split; [apply small|]; vm_compute; reflexivity.
Qed.

(** A writer that fails for one call and goes on (a timeout, say): errors are dropped, so that what is delivered is not the beginning of the
    text. Here the stop sequence is lost, and the rest of the document is bold. *)
Definition hiccup : iowriter := mkWriter (list byte * nat) unit (fun '(k, turn) bs =>
  match turn with
  | 1%nat => ((k, O), (0, Some tt))
  | O => ((k ++ bs, O), (zlen bs, None))
  | S t => ((k ++ bs, t), (zlen bs, None))
  end).
Theorem C106_hole_refuted : exists w kept js s, honest w kept /\ Forall int32 (output js) /\
  output js = txt "<b>bold</b> plain" /\ kept s = [] /\ kept (runJobs w s js) = txt "<b>bold plain".
Proof.
  exists hiccup, fst, [Render bold; Render plain], ([], 3%nat). split; [|split; [|split; [|split]]]; [|apply small; vm_compute; reflexivity|vm_compute; reflexivity..].
  intros [k turn] bs s' n e E. cbn in E. destruct turn as [|[|t]]; injection E as <- <- <-; cbn [fst].
  - split; [unfold zlen; lia|]. rewrite zfirst_all by reflexivity. split; [reflexivity|lia].
  - cbn. rewrite app_nil_r. unfold zlen. split; [lia|]. split; [reflexivity|discriminate].
  - split; [unfold zlen; lia|]. rewrite zfirst_all by reflexivity. split; [reflexivity|lia].
Qed.
Print Assumptions C106_hole_refuted.
