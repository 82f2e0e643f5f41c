(** Renderers on an io.Writer that may fail: attributes/attribute.go and state.go through runesio.Writer. *)
From Verif Require Import Base Unicode Utf8 SpecUtf8 Utf8Proofs Attr Heap.

(** Attribute.Start, Stop and Render (attribute.go:29-39, 66-72) give each of their pieces to WriteRunes, and drop the count and the error.
    [ws]: the calls of WriteRunes, as in Attr.v. *)
Fixpoint writeAll (w : iowriter) (s : w_state w) (ws : writes) : w_state w :=
  match ws with [] => s | rs :: ws' => writeAll w (fst (writeRunes w s rs)) ws' end.
(** Models [Attribute.Render], [Renderers.Start], [Stop], [Render] (iface.go:46-74), [State.StartOfLine] and [EndOfLine] (state.go:130-193)
    on such a writer. *)
Inductive job := Render (a : attr) | Starts (rs : renderers) | Stops (rs : renderers) | Renders (rs : renderers) | LineStart (st : state) (i : iter) | LineEnd (st : state) (i : iter).
Definition jobWrites (j : job) : writes :=
  match j with
  | Render a => attrRender a
  | Starts rs => renderersStart rs
  | Stops rs => renderersStop rs
  | Renders rs => renderersRender rs
  | LineStart st i => startOfLine st i
  | LineEnd st i => endOfLine st i
  end.
Definition runJob (w : iowriter) (s : w_state w) (j : job) : w_state w := writeAll w s (jobWrites j).
Definition runJobs (w : iowriter) (s : w_state w) (js : list job) : w_state w := fold_left (runJob w) js s.
(** the runes that the jobs write *)
Definition output (js : list job) : list rune := concat (flat_map jobWrites js).

(** ** What a writer promises *)
(** The contract of io.Writer: the first [n] bytes are taken, an error is returned when they are not all of them. [kept]: the
    bytes that went through. *)
Definition honest (w : iowriter) (kept : w_state w -> list byte) : Prop := forall s bs s' n e, w_write w s bs = (s', (n, e)) ->
  0 <= n <= zlen bs /\ kept s' = kept s ++ firstn (Z.to_nat n) bs /\ (n < zlen bs -> e <> None).
(** Once it has failed it takes nothing more, as bufio.Writer does. *)
Definition sticky (w : iowriter) (broken : w_state w -> Prop) : Prop := forall s bs s' n e, w_write w s bs = (s', (n, e)) ->
  (e <> None -> broken s') /\ (broken s -> n = 0 /\ broken s').
(** It never fails. *)
Definition reliable (w : iowriter) : Prop := forall s bs, snd (snd (w_write w s bs)) = None.

(** ** Proofs *)
Lemma zfirst_all (bs : list byte) n : n = zlen bs -> firstn (Z.to_nat n) bs = bs.
Proof. intros ->. unfold zlen. rewrite Nat2Z.id. apply firstn_all. Qed.
Lemma writeAll_app w a : forall s b, writeAll w s (a ++ b) = writeAll w (writeAll w s a) b.
Proof. induction a as [|x a IH]; intros s b; cbn [app writeAll]; [reflexivity|]. apply IH. Qed.
Lemma runJobs_all w js : forall s, runJobs w s js = writeAll w s (flat_map jobWrites js).
Proof. unfold runJobs. induction js as [|j js IH]; intros s; cbn [fold_left flat_map]; [reflexivity|]. rewrite writeAll_app. apply IH. Qed.
Section Proofs.
Variable w : iowriter.
Variable kept : w_state w -> list byte.
Hypothesis H : honest w kept.
Notation enc rs := (concat (map encodeRune rs)).
Lemma wr_eq s rs : writeRunes w s rs = w_write w s (enc rs).
Proof. unfold writeRunes. now rewrite runesBytes_concat. Qed.
Lemma enc_app a b : enc (a ++ b) = enc a ++ enc b. Proof. now rewrite map_app, concat_app. Qed.
Lemma reliable_all : reliable w -> forall ws s, kept (writeAll w s ws) = kept s ++ enc (concat ws).
Proof.
  intros R ws. induction ws as [|rs ws IH]; intros s; cbn [writeAll concat]; [cbn; now rewrite app_nil_r|].
  rewrite IH, wr_eq, enc_app. pose proof (R s (enc rs)) as Rs. destruct (w_write w s (enc rs)) as [s' [n e]] eqn:E. cbn [fst snd] in *. subst e.
  destruct (H _ _ _ _ _ E) as (H1 & -> & H2). rewrite zfirst_all; [now rewrite <- app_assoc|]. destruct (Z.lt_ge_cases n (zlen (enc rs))) as [L|L]; [now elim (H2 L)|lia].
Qed.
Variable broken : w_state w -> Prop.
Lemma broken_all : sticky w broken -> forall ws s, broken s -> kept (writeAll w s ws) = kept s /\ broken (writeAll w s ws).
Proof.
  intros K ws. induction ws as [|rs ws IH]; intros s B; cbn [writeAll]; [now split|]. rewrite wr_eq. destruct (w_write w s (enc rs)) as [s' [n e]] eqn:E. cbn [fst].
  destruct (K _ _ _ _ _ E) as [_ K2]. destruct (K2 B) as [-> B']. destruct (IH s' B') as [I1 I2]. split; [|exact I2]. rewrite I1.
  destruct (H _ _ _ _ _ E) as (_ & -> & _). cbn. now rewrite app_nil_r.
Qed.
Lemma sticky_all : sticky w broken -> forall ws s, exists x y, kept (writeAll w s ws) = kept s ++ x /\ enc (concat ws) = x ++ y.
Proof.
  intros K ws. induction ws as [|rs ws IH]; intros s; cbn [writeAll concat]; [exists [], []; split; [now rewrite app_nil_r|reflexivity]|].
  rewrite wr_eq, enc_app. destruct (w_write w s (enc rs)) as [s' [n e]] eqn:E. cbn [fst]. destruct (H _ _ _ _ _ E) as (H1 & H2 & H3). destruct e as [e|].
  - destruct (K _ _ _ _ _ E) as [K1 _]. destruct (broken_all K ws s' (K1 ltac:(discriminate))) as [-> _]. exists (firstn (Z.to_nat n) (enc rs)). eexists. split; [exact H2|].
    rewrite <- (firstn_skipn (Z.to_nat n) (enc rs)) at 1. rewrite <- app_assoc. reflexivity.
  - assert (n = zlen (enc rs)) as Hn by (destruct (Z.lt_ge_cases n (zlen (enc rs))) as [L|L]; [now elim (H3 L)|lia]).
    rewrite zfirst_all in H2 by exact Hn. destruct (IH s') as (x & y & E1 & E2). exists (enc rs ++ x), y. split; [rewrite E1, H2, <- app_assoc; reflexivity|rewrite E2, app_assoc; reflexivity].
Qed.
End Proofs.
Theorem jobs_reliable w kept js s : honest w kept -> reliable w -> Forall int32 (output js) ->
  exists rs bs, Forall2 replaced (output js) rs /\ utf8s rs bs /\ kept (runJobs w s js) = kept s ++ bs.
Proof.
  intros H R I. exists (map clean (output js)), (concat (map encodeRune (output js))). split; [|split].
  - clear I. induction (output js); constructor; [apply clean_replaced|assumption].
  - now apply encode_all_utf8s.
  - rewrite runJobs_all. now apply reliable_all.
Qed.
Theorem jobs_sticky w kept broken js s : honest w kept -> sticky w broken -> Forall int32 (output js) ->
  exists rs x y, Forall2 replaced (output js) rs /\ utf8s rs (x ++ y) /\ kept (runJobs w s js) = kept s ++ x.
Proof.
  intros H K I. destruct (sticky_all w kept H broken K (flat_map jobWrites js) s) as (x & y & E1 & E2).
  exists (map clean (output js)), x, y. split; [|split].
  - clear I E2. induction (output js); constructor; [apply clean_replaced|assumption].
  - pose proof (encode_all_utf8s _ I) as U. unfold output in U at 2. rewrite E2 in U. exact U.
  - rewrite runJobs_all. exact E1.
Qed.
