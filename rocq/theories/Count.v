(** How many lines, how many runes. *)
From Verif Require Import Base Arith Unicode Nodes KP Render SpecSplit SpecKP Align Options Call Settings AlignProofs Succeed.
Open Scope Z_scope.

Lemma reflow_size rh text ls : reflow rh text ls -> 1 <= zlen ls <= zlen text /\
  zlen text - (zlen ls - 1) <= zlen (concat ls) <= zlen text + (zlen ls - 1).
Proof.
  induction 1 as [t Ht|t rest ls Ht _ IH|t rest ls Ht _ IH|t rest ls _ Ht _ IH]; (destruct t as [|r t]; [congruence|]); clear Ht; unfold zlen in *; cbn [concat app];
    repeat rewrite ?app_length; cbn [length]; repeat rewrite ?app_length; cbn [length]; change (@length Z) with (@length rune) in *; lia.
Qed.
Section Width.
Variable m : list rune -> Z.
Hypothesis Hp : forall t, 0 <= m t.
Hypothesis Ha : forall a b, m (a ++ b) = m a + m b.
Definition total (ls : list (list rune)) : Z := fold_right (fun l s => m l + s) 0 ls.
Lemma reflow_total rh text ls : reflow rh text ls -> m text - (zlen ls - 1) * m [32] <= total ls <= m text + (zlen ls - 1) * m [45].
Proof.
  pose proof (Hp [32]) as P1. pose proof (Hp [45]) as P2.
  induction 1 as [t Ht|t rest ls Ht R IH|t rest ls Ht R IH|t rest ls _ Ht R IH]; unfold total in *; cbn [fold_right] in *; rewrite ?zlen_cons.
  - change (zlen (@nil (list rune))) with 0. lia.
  - change (32 :: rest) with ([32] ++ rest). rewrite !Ha. apply reflow_size in R. destruct R as [R _]. nia.
  - rewrite !Ha. apply reflow_size in R. destruct R as [R _]. nia.
  - rewrite !Ha. apply reflow_size in R. destruct R as [R _]. nia.
Qed.
Lemma total_le W ls : Forall (fun l => m l <= W) ls -> total ls <= zlen ls * W.
Proof. induction 1 as [|l ls H _ IH]; cbn [total fold_right]; [unfold zlen; cbn; lia|]. fold (total ls). rewrite zlen_cons. lia. Qed.
Lemma total_ge W ls : (forall pre l post, ls = pre ++ l :: post -> post <> [] -> W <= m l) -> ls <> [] -> (zlen ls - 1) * W <= total ls.
Proof.
  induction ls as [|l ls IH]; intros H N; [congruence|]. cbn [total fold_right]. fold (total ls). rewrite zlen_cons. destruct ls as [|l' ls].
  - cbn. pose proof (Hp l). unfold zlen. cbn. lia.
  - assert (W <= m l) as Hl by (apply (H [] l (l' :: ls)); [reflexivity|discriminate]).
    assert ((zlen (l' :: ls) - 1) * W <= total (l' :: ls)) as K; [|lia]. apply IH; [|discriminate]. intros pre x post E. apply (H (l :: pre)). cbn [app]. now rewrite E.
Qed.
End Width.

Section Call.
Variables (A : arith) (L : laws A) (u : unicode) (o : lopts A) (m : list rune -> Z) (punct parts : list rune -> list (list rune)).
Variables (lb : breaker A) (tokens : list (list rune)) (spare : nat -> list rune) (maxWidth : F A) (W : Z) (ord : nat -> nat -> list fclass).
Hypothesis K : plainCall A L u o m punct parts lb tokens spare maxWidth W ord.
Variables (ls : list (list rune)) (lb' : breaker A).
Hypothesis E : leftAlignUniform A u ord spare lb tokens maxWidth = Ret (Some ls, lb').
Let R : reflow (l_renderHyphens o) (joinWith 32 tokens) ls := align_reflow A L u o m punct parts lb tokens spare maxWidth W ord K ls lb' E.
Let Hp : forall t, 0 <= m t.
Proof. intros t. exact (proj1 (se_measure _ _ _ _ _ _ _ (pc_settings _ _ _ _ _ _ _ _ _ _ _ _ _ K) t)). Qed.
Theorem count_size : 1 <= zlen ls <= zlen (joinWith 32 tokens) /\
  zlen (joinWith 32 tokens) - (zlen ls - 1) <= zlen (concat ls) <= zlen (joinWith 32 tokens) + (zlen ls - 1).
Proof. eapply reflow_size, R. Qed.
Theorem count_least : (forall a b, m (a ++ b) = m a + m b) -> m (joinWith 32 tokens) + m [32] <= zlen ls * (W + m [32]).
Proof.
  intros Ha. pose proof (reflow_total m Hp Ha _ _ _ R) as T. pose proof (total_le m Hp Ha W ls (align_width A L u o m punct parts lb tokens spare maxWidth W ord K Ha ls lb' E)). nia.
Qed.
Theorem count_most : (forall a b, m (a ++ b) = m a + m b) -> k_tolerance (l_search o) = fTolerance A -> (zlen ls - 1) * (W - 51 - m [45]) <= m (joinWith 32 tokens).
Proof.
  intros Ha Ht. pose proof (reflow_total m Hp Ha _ _ _ R) as T. assert (ls <> []) as N by (intros ->; inversion R).
  pose proof (total_ge m Hp Ha (W - 51) ls) as G. assert ((zlen ls - 1) * (W - 51) <= total m ls) as G'; [|nia]. apply G; [|exact N]. intros pre l post El Np.
  eapply (align_ragged A L u o m punct parts lb tokens spare maxWidth W ord K); eauto.
Qed.
End Call.
