(** C111: what a LineBreaker keeps between calls. [lb_attrs] is the State of the LineBreaker, a list of renderers with their texts;
    [calls] (Kept.v): calls of LeftAlignUniform one after the other. *)
From Coq Require Import String Ascii.
From Verif Require Import Base Arith ArithB64 Unicode Split SpecSplit Attr Hyph Nodes KP Render SpecKP Align Options Call Settings AlignProofs Fresh PropAlign Kept.
Open Scope Z_scope.

(** C111, for every line breaker: what is kept does not depend on the number of calls *)
Definition C111_bounded : Prop := forall A L u o m punct parts lb, newBreaker A o = Ret lb -> forall tokens, exists bound,
  forall k lb', calls A L u o m punct parts lb (repeat tokens k) lb' -> zlen (lb_attrs lb') <= bound.
(** What holds: the renderers kept are those of the fragments of the texts given so far, in order, and nothing else *)
Theorem C111_kept_partial : forall A L u o m punct parts lb texts lb', newBreaker A o = Ret lb -> calls A L u o m punct parts lb texts lb' ->
  lb_attrs lb' = flat_map (fun tokens => map (fun f => newAttr (f_text f) [] []) (fragsOf u o punct parts tokens)) texts.
Proof. exact calls_kept. Qed.
Print Assumptions C111_kept_partial.
(** so that each call adds to them *)
Theorem C111_grows : forall A L u o m punct parts lb texts lb', newBreaker A o = Ret lb -> calls A L u o m punct parts lb texts lb' ->
  zlen texts <= zlen (lb_attrs lb').
Proof. exact calls_grow. Qed.
Print Assumptions C111_grows.

Lemma ex_new : newBreaker B exO = Ret exB.
Proof. destruct (settings_new B BL ascii exO exM exPunct pairs ex_settings) as (sp & hy & E & _). unfold exB. rewrite E. reflexivity. Qed.
Lemma ex_calls k : exists lb', calls B BL ascii exO exM exPunct pairs exB (repeat (map txt exTokens) k) lb' /\ usable B ascii exO lb'.
Proof.
  induction k as [|k (lb & H & U)]; [exists exB; split; [constructor|exact ex_usable]|].
  assert (plainCall B BL ascii exO exM exPunct pairs lb (map txt exTokens) (fun _ => []) (n 6) (1 * 6) (from 0)) as C.
  { destruct (ex_call 6 0 ltac:(lia)) as [C1 C2 C3 C4 C5 C6 C7 C8]. now constructor. }
  destruct (align_returns _ _ _ _ _ _ _ _ _ _ _ _ _ C) as (res & lb' & E & U' & _). exists lb'. split; [|exact U'].
  change (S k) with (1 + k)%nat. rewrite Nat.add_comm, repeat_app. eapply cs_call; eassumption.
Qed.
(** The texts of [exTokens] are kept as many times as they are set *)
Theorem C111_bounded_refuted : exists tokens, forall bound, exists k lb',
  calls B BL ascii exO exM exPunct pairs exB (repeat tokens k) lb' /\ bound < zlen (lb_attrs lb').
Proof.
  exists (map txt exTokens). intros bound. destruct (ex_calls (S (Z.to_nat bound))) as (lb & H & _). exists (S (Z.to_nat bound)), lb. split; [exact H|].
  pose proof (calls_grow _ _ _ _ _ _ _ _ _ _ ex_new H) as G. unfold zlen in *. rewrite repeat_length in G. lia.
Qed.
Print Assumptions C111_bounded_refuted.
Example C111_ex : length (fragsOf ascii exO exPunct pairs (map txt exTokens)) = 10%nat.
Proof. vm_compute. reflexivity. Qed.
