(** C116: how many lines LeftAlignUniform makes, and how long they are in all. [plainCall] as in PropAlign.v. *)
From Coq Require Import String Ascii.
From Verif Require Import Base Arith ArithB64 Unicode Split SpecSplit SpecAnsi Hyph Nodes KP Render SpecKP Align Options Call Settings
  AlignProofs Reuse Fresh Succeed Count PropAlign.
Open Scope Z_scope.

(** no more lines than runes; each line but the last adds a hyphen or loses a space at most *)
Theorem C116_size : forall A L u o m punct parts lb tokens spare maxWidth W ord,
  plainCall A L u o m punct parts lb tokens spare maxWidth W ord -> forall ls lb', leftAlignUniform A u ord spare lb tokens maxWidth = Ret (Some ls, lb') ->
  1 <= zlen ls <= zlen (joinWith 32 tokens) /\
  zlen (joinWith 32 tokens) - (zlen ls - 1) <= zlen (concat ls) <= zlen (joinWith 32 tokens) + (zlen ls - 1).
Proof. exact count_size. Qed.
Print Assumptions C116_size.

(** no fewer lines than the width of the text requires *)
Theorem C116_least : forall A L u o m punct parts lb tokens spare maxWidth W ord,
  plainCall A L u o m punct parts lb tokens spare maxWidth W ord -> forall ls lb', leftAlignUniform A u ord spare lb tokens maxWidth = Ret (Some ls, lb') ->
  (forall a b, m (a ++ b) = m a + m b) -> m (joinWith 32 tokens) + m [32] <= zlen ls * (W + m [32]).
Proof. exact count_least. Qed.
Print Assumptions C116_least.

(** with the default tolerance, no more than it takes to fill lines that are 51 (and a hyphen) short of the width *)
Theorem C116_most : forall A L u o m punct parts lb tokens spare maxWidth W ord,
  plainCall A L u o m punct parts lb tokens spare maxWidth W ord -> forall ls lb', leftAlignUniform A u ord spare lb tokens maxWidth = Ret (Some ls, lb') ->
  (forall a b, m (a ++ b) = m a + m b) -> k_tolerance (l_search o) = fTolerance A -> (zlen ls - 1) * (W - 51 - m [45]) <= m (joinWith 32 tokens).
Proof. exact count_most. Qed.
Print Assumptions C116_most.

(** a text of 21 columns takes at least 4 lines of 6 columns (22 <= 4 * 7): two spaces are dropped, a hyphen is added *)
Example C116_ex : zlen (joinWith 32 (map txt exTokens)) = 21 /\
  plainCall B BL ascii exO exM exPunct pairs exB (map txt exTokens) (fun _ => []) (n 6) 6 (from 0) /\
  PropAlign.run exOpts (from 0) exTokens (n 6) = lines ["ab,"; "abcdef"; "gh-ij-"; "k xyz"]%string /\ zlen (concat (map txt ["ab,"; "abcdef"; "gh-ij-"; "k xyz"]))%string = 20.
Proof.
  split; [vm_compute; reflexivity|]. split; [exact (ex_call 6 0 ltac:(lia))|]. split; vm_compute; reflexivity.
Qed.
