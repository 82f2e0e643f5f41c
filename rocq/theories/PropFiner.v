(** C140: hyphenators that cut words at more places. *)
From Coq Require Import String Ascii Permutation.
From Verif Require Import Base Arith ArithB64 Unicode Split SpecSplit SpecAnsi Hyph HyphProofs Minima Dict Cache Lang HyphTests Nodes KP Render SpecKP SpecGreedy Align
  Options Call Settings AlignProofs Fresh Succeed Compare Sub SpecFormat Format PropAlign PropCompare Greedy Fewest Counts PropFewest PropCounts Sure Finer.
Open Scope Z_scope.

(** [moreCuts ps qs] (Finer.v): the parts [qs] are the parts [ps], each of them cut further or left as it is.

    A text that could be set with a hyphenator can be set with one that makes more cuts *)
Theorem C140_more : forall A L u opts h1 h2 m punct parts1 parts2 tokens maxWidth W lb1 spare1 ord1 lb2 spare2 ord2,
  plainCall A L u (newWith A u opts (WithHyphenator (Some h1))) m punct parts1 lb1 tokens spare1 maxWidth W ord1 ->
  plainCall A L u (newWith A u opts (WithHyphenator (Some h2))) m punct parts2 lb2 tokens spare2 maxWidth W ord2 ->
  (forall a b, m (a ++ b) = m a + m b) -> (forall w, w <> [] -> moreCuts (parts1 w) (parts2 w)) ->
  forall ls lb1', leftAlignUniform A u ord1 spare1 lb1 tokens maxWidth = Ret (Some ls, lb1') ->
  exists ls2 lb2', leftAlignUniform A u ord2 spare2 lb2 tokens maxWidth = Ret (Some ls2, lb2').
Proof. exact align_hyphenator. Qed.
Print Assumptions C140_more.
(** in particular when WithMinLength or WithMinRight is lowered *)
Theorem C140_minima : forall A L u opts d ho ho' m punct parts1 parts2 tokens maxWidth W lb1 spare1 ord1 lb2 spare2 ord2,
  plainCall A L u (newWith A u opts (WithHyphenator (Some (breakWord u d ho')))) m punct parts1 lb1 tokens spare1 maxWidth W ord1 ->
  plainCall A L u (newWith A u opts (WithHyphenator (Some (breakWord u d ho)))) m punct parts2 lb2 tokens spare2 maxWidth W ord2 ->
  (forall a b, m (a ++ b) = m a + m b) -> stricter ho ho' -> o_minLeft ho = o_minLeft ho' ->
  forall ls lb1', leftAlignUniform A u ord1 spare1 lb1 tokens maxWidth = Ret (Some ls, lb1') ->
  exists ls2 lb2', leftAlignUniform A u ord2 spare2 lb2 tokens maxWidth = Ret (Some ls2, lb2').
Proof. exact align_minima. Qed.
Print Assumptions C140_minima.
(** With some iteration order of the map, on no more lines *)
Theorem C140_some_order : forall A L u opts h1 h2 m punct parts1 parts2 tokens maxWidth W lb1 spare1 ord1 lb2 spare2 ord2,
  plainCall A L u (newWith A u opts (WithHyphenator (Some h1))) m punct parts1 lb1 tokens spare1 maxWidth W ord1 ->
  plainCall A L u (newWith A u opts (WithHyphenator (Some h2))) m punct parts2 lb2 tokens spare2 maxWidth W ord2 ->
  (forall a b, m (a ++ b) = m a + m b) -> (forall w, w <> [] -> moreCuts (parts1 w) (parts2 w)) ->
  forall ls lb1', gentle A u (newWith A u opts (WithHyphenator (Some h2))) m punct parts2 tokens ->
  leftAlignUniform A u ord1 spare1 lb1 tokens maxWidth = Ret (Some ls, lb1') ->
  exists ls2 ord lb2', (forall i k, Permutation (ord i k) [C0; C1; C2; C3]) /\
    leftAlignUniform A u ord spare2 lb2 tokens maxWidth = Ret (Some ls2, lb2') /\ (length ls2 <= length ls)%nat.
Proof. exact hyphenator_count. Qed.
Print Assumptions C140_some_order.
(** with any order if the tolerance is at most 1/2 *)
Theorem C140_least : forall A L u opts h1 h2 m punct parts1 parts2 tokens maxWidth W lb1 spare1 ord1 lb2 spare2 ord2,
  plainCall A L u (newWith A u opts (WithHyphenator (Some h1))) m punct parts1 lb1 tokens spare1 maxWidth W ord1 ->
  plainCall A L u (newWith A u opts (WithHyphenator (Some h2))) m punct parts2 lb2 tokens spare2 maxWidth W ord2 ->
  (forall a b, m (a ++ b) = m a + m b) -> (forall w, w <> [] -> moreCuts (parts1 w) (parts2 w)) ->
  forall ls lb1', gentle A u (newWith A u opts (WithHyphenator (Some h2))) m punct parts2 tokens ->
  fle A (k_tolerance (l_search (newWith A u opts (WithHyphenator (Some h2))))) (fHalf A) = true ->
  leftAlignUniform A u ord1 spare1 lb1 tokens maxWidth = Ret (Some ls, lb1') ->
  exists ls2 lb2', leftAlignUniform A u ord2 spare2 lb2 tokens maxWidth = Ret (Some ls2, lb2') /\ (length ls2 <= length ls)%nat.
Proof. exact hyphenator_least. Qed.
Print Assumptions C140_least.
(** otherwise some order may need more lines: words left whole, or cut every two runes *)
Definition whole : splitFunc := fun w => Ret [w].
Theorem C140_lines_refuted : exists tokens w, (forall t, t <> [] -> moreCuts [t] (pairs t)) /\
  run [WithHyphenator (Some whole)] (from 2) tokens (n w) = lines ["one"; "abcdefgh"; "xyz"]%string /\
  run [WithHyphenator (Some byTwo)] (from 2) tokens (n w) = lines ["one"; "ab-"; "cd-"; "efgh xyz"]%string.
Proof.
  exists oneTokens, 8. split; [|split; vm_compute; reflexivity]. intros t Ht. exists [pairs t]. cbn [concat]. rewrite app_nil_r. split; [|reflexivity].
  constructor; [|constructor]. destruct (pairs_ok (length t) t (le_n _)) as [E _]. split; [|exact E]. intros N. rewrite N in E. cbn in E. congruence.
Qed.
Print Assumptions C140_lines_refuted.

(** ** The hypotheses of the theorems are met *)
Lemma whole_cuts : cuts whole (fun w => [w]).
Proof. intros w Hw. split; [reflexivity|]. split; [cbn; apply app_nil_r|]. repeat constructor. exact Hw. Qed.
Lemma dict_cuts u d o : 1 <= o_minLeft o -> 1 <= o_minRight o -> cuts (breakWord u d o) (partsOf (breakWord u d o)).
Proof.
  intros H1 H2 w Hw. unfold partsOf. destruct (breakWord_lossless u d o w ltac:(lia)) as (ps & E & Hn & Hc & Hp).
  rewrite E. split; [reflexivity|]. split; [exact Hc|]. apply Forall_forall. intros p Hin Ep. subst p.
  apply in_split in Hin. destruct Hin as (pre & post & ->). destruct post as [|r post].
  - destruct pre as [|x pre] using rev_ind; [cbn in Hc; congruence|]. clear IHpre.
    destruct (Hp pre x [[]]) as [_ H]; [now rewrite <- app_assoc|discriminate|]. cbn in H. lia.
  - destruct (Hp pre [] (r :: post) eq_refl ltac:(discriminate)) as [H _]. cbn in H. lia.
Qed.
Definition tolHalf (b : bool) : list (lbOption B) := if b then [WithTolerance (fHalf B)] else [].
Lemma hyph_call b h parts tokens w k : cuts h parts ->
  forallb (fun t => forallb (fun r => (0 <=? r) && (r <=? 0x10ffff) && negb (r =? 27)) t && (zlen t <? 1000)) (map txt tokens) = true ->
  map txt tokens <> [] -> forallb (fun t => negb (zlen t =? 0)) (map txt tokens) = true ->
  exM (joinWith 32 (map txt tokens)) <= 2 ^ 50 -> 0 < w <= 2 ^ 30 ->
  exists lb, plainCall B BL ascii (newWith B ascii (tolHalf b) (WithHyphenator (Some h))) exM exPunct parts lb (map txt tokens) (fun _ => []) (n w) (1 * w) (from k).
Proof.
  intros Hh H1 H2 H3 H4 Hw. set (o := newWith B ascii (tolHalf b) (WithHyphenator (Some h))).
  assert (settings B BL ascii o exM exPunct parts) as S.
  { unfold o, newWith. apply (make_settings B BL ascii (tolHalf b ++ [WithHyphenator (Some h)]) (fun n => 1 * n) cols).
    - destruct b; [vm_compute; reflexivity|apply (tol_inf B BL)].
    - apply scaling_int; [lia|]. destruct b; apply (rep_Z B BL); unfold exactZ; lia.
    - destruct b; apply default_measures.
    - destruct b; vm_compute; reflexivity.
    - destruct b; vm_compute; discriminate.
    - destruct b; apply default_punctuator.
    - destruct b; exact Hh.
    - destruct (default_reached B BL ascii) as [_ _ _ _ _ H]. destruct b; exact H. }
  exists (breakerOf o). apply make_call; [exact S| |now apply plain_check| | | | |lia|apply from_all].
  - destruct (settings_new B BL ascii _ exM exPunct parts S) as (sp & hy & E & _). apply us_new. unfold breakerOf. rewrite E. reflexivity.
  - split; [exact H2|]. apply Forall_forall. rewrite forallb_forall in H3. intros t Ht E. specialize (H3 t Ht). now rewrite E in H3.
  - intros a c. unfold exM. rewrite cols_app. lia.
  - exact H4.
  - apply scaled_width with (k := 1) (n := w); [destruct b; apply (rep_Z B BL); unfold exactZ; lia|lia|apply (rep_Z B BL); unfold exactZ; lia|lia|lia].
Qed.
Example C140_ex_call b w k : 0 < w <= 2 ^ 30 ->
  (exists lb, plainCall B BL ascii (newWith B ascii (tolHalf b) (WithHyphenator (Some whole))) exM exPunct (fun t => [t]) lb (map txt oneTokens) (fun _ => []) (n w) (1 * w) (from k)) /\
  (exists lb, plainCall B BL ascii (newWith B ascii (tolHalf b) (WithHyphenator (Some byTwo))) exM exPunct pairs lb (map txt oneTokens) (fun _ => []) (n w) (1 * w) (from k)) /\
  (forall x y, exM (x ++ y) = exM x + exM y) /\
  gentle B ascii (newWith B ascii (tolHalf b) (WithHyphenator (Some byTwo))) exM exPunct pairs (map txt oneTokens) /\
  fle B (k_tolerance (l_search (newWith B ascii (tolHalf true) (WithHyphenator (Some byTwo))))) (fHalf B) = true.
Proof.
  intros Hw. split; [apply hyph_call; [apply whole_cuts|vm_compute; reflexivity|discriminate|vm_compute; reflexivity|vm_compute; discriminate|exact Hw]|].
  split; [apply hyph_call; [apply byTwo_cuts|vm_compute; reflexivity|discriminate|vm_compute; reflexivity|vm_compute; discriminate|exact Hw]|].
  split; [intros x y; unfold exM; rewrite cols_app; lia|]. split; [apply gentleb_ok; destruct b; vm_compute; reflexivity|]. vm_compute. reflexivity.
Qed.
(** with tolerance 1/2: at width 8 the text can only be set if the long word is cut; at width 12 the lines are as many *)
Example C140_ex_half :
  map (fun k => run (tolHalf true ++ [WithHyphenator (Some whole)]) (from k) oneTokens (n 8)) [0; 1; 2; 3]%nat = repeat (Ret None) 4 /\
  map (fun k => run (tolHalf true ++ [WithHyphenator (Some byTwo)]) (from k) oneTokens (n 8)) [0; 1; 2; 3]%nat =
    repeat (lines ["one ab-"; "cdef-"; "gh xyz"]%string) 4 /\
  map (fun k => run (tolHalf true ++ [WithHyphenator (Some whole)]) (from k) oneTokens (n 12)) [0; 1; 2; 3]%nat =
    repeat (lines ["one abcdefgh"; "xyz"]%string) 4 /\
  map (fun k => run (tolHalf true ++ [WithHyphenator (Some byTwo)]) (from k) oneTokens (n 12)) [0; 1; 2; 3]%nat =
    repeat (lines ["one abcd-"; "efgh xyz"]%string) 4.
Proof. repeat split; vm_compute; reflexivity. Qed.
(** American patterns with 4 runes after a hyphen, or 2: "university" is set at width 4 with both, but not with 5 *)
Definition uniTokens : list string := ["the"; "university"]%string.
Example C140_ex_dict w k r : 1 <= r -> 0 < w <= 2 ^ 30 ->
  exists lb, plainCall B BL ascii (newWith B ascii [] (WithHyphenator (Some (breakWord ascii dUs (mkHopts 4 2 r))))) exM exPunct
    (partsOf (breakWord ascii dUs (mkHopts 4 2 r))) lb (map txt uniTokens) (fun _ => []) (n w) (1 * w) (from k).
Proof.
  intros Hr Hw. apply (hyph_call false); [apply dict_cuts; cbn; lia|vm_compute; reflexivity|discriminate|vm_compute; reflexivity|vm_compute; discriminate|exact Hw].
Qed.
Example C140_ex_uni : stricter (mkHopts 4 2 2) (mkHopts 4 2 4) /\
  run [WithHyphenator (Some (breakWord ascii dUs (mkHopts 4 2 4)))] (from 0) uniTokens (n 4) = lines ["the"; "uni-"; "ver-"; "sity"]%string /\
  run [WithHyphenator (Some (breakWord ascii dUs (mkHopts 4 2 2)))] (from 0) uniTokens (n 4) = lines ["the"; "uni-"; "ver-"; "sity"]%string /\
  run [WithHyphenator (Some (breakWord ascii dUs (mkHopts 4 2 5)))] (from 0) uniTokens (n 4) = Ret None.
Proof. split; [unfold stricter; cbn; lia|]. repeat split; vm_compute; reflexivity. Qed.
