(** The tests of linebreak/linebreaker_test.go. They only check that LeftAlignUniform returns no error; the model says so for
    every iteration order of the map of candidates, and shows the lines for one of them. *)
From Coq Require Import String Ascii.
From Verif Require Import Base Arith ArithB64 Unicode Utf8 Text Split SpecSplit SpecAnsi Hyph HyphProofs Nodes KP Render SpecKP Align Options Call Settings
  AlignProofs Fresh HyphTests RepoTests PropAlign.
Local Open Scope text_scope.

(** [hyphenator.New().BreakWord]; the options of [testLeftAlignHyphenize] (linebreaker_test.go:210-225) *)
Definition hyBreak : splitFunc := breakWord latinLow dUs (mkHopts 4 2 2).
Definition hyphenize (more : list (lbOption B)) : list (lbOption B) := [WithRenderHyphens true; WithHyphenator (Some hyBreak)] ++ more.
(** [strings.Fields], which also cuts at white space *)
Definition toks (t : text) : list (list rune) := match tokenizerBreakWord (q t) with Ret l => l | Panic => [] end.
Definition la (opts : list (lbOption B)) (ord : nat -> nat -> list fclass) (t : text) (w : Z) : go (option (list (list rune))) :=
  let! lb := newLineBreaker B latinLow opts in
  let! x := leftAlignUniform B latinLow ord (fun _ => []) lb (toks t) (n w) in Ret (fst x).
Definition is (l : list text) : go (option (list (list rune))) := Ret (Some (map q l)).

Lemma hyBreak_cuts : cuts hyBreak (partsOf hyBreak).
Proof.
  intros w Hw. unfold partsOf, hyBreak.
  destruct (breakWord_lossless latinLow dUs (mkHopts 4 2 2) w ltac:(cbn; lia)) as (ps & E & Hn & Hc & Hp).
  rewrite E. split; [reflexivity|]. split; [exact Hc|]. apply Forall_forall. intros p Hin Ep. subst p.
  apply in_split in Hin. destruct Hin as (pre & post & ->). destruct post as [|r post].
  - destruct pre as [|x pre] using rev_ind; [cbn in Hc; congruence|]. clear IHpre.
    destruct (Hp pre x [[]]) as [_ H]; [now rewrite <- app_assoc|discriminate|]. cbn in H. lia.
  - destruct (Hp pre [] (r :: post) eq_refl ltac:(discriminate)) as [H _]. cbn in H. lia.
Qed.

(** There is no error, whatever the iteration order, if the text can be cut in feasible lines of some numbers of fragments *)
Fixpoint cutBy (ns : list nat) (fs : list frag) : list (list frag) :=
  match ns with [] => [] | k :: ns' => firstn k fs :: cutBy ns' (skipn k fs) end.
Fixpoint layoutb (ns : list nat) (fs : list frag) : bool :=
  match ns with
  | [] => false
  | k :: ns' =>
      match ns' with
      | [] => (0 <? length fs)%nat && (k =? length fs)%nat
      | _ => match k with
             | S k' => match nth_error fs k' with Some f => cuttable true f && layoutb ns' (skipn k fs) | None => false end
             | 0%nat => false
             end
      end
  end.
Lemma layoutb_sound ns : forall fs, layoutb ns fs = true -> layout true fs (cutBy ns fs).
Proof.
  induction ns as [|k ns IH]; intros fs H; [discriminate|]. cbn [layoutb] in H. destruct ns as [|k' ns].
  - cbn [cutBy]. apply andb_prop in H. destruct H as [H1 H2]. apply Nat.eqb_eq in H2. subst k. rewrite firstn_all. constructor.
    intros ->. discriminate.
  - destruct k as [|k]; [discriminate|]. destruct (nth_error fs k) as [f|] eqn:E; [|discriminate]. apply andb_prop in H. destruct H as [H1 H2].
    change (cutBy (S k :: k' :: ns) fs) with (firstn (S k) fs :: cutBy (k' :: ns) (skipn (S k) fs)).
    assert (firstn (S k) fs = firstn k fs ++ [f]) as Ef.
    { clear -E. revert fs E. induction k as [|k IH]; intros [|g fs] E; try discriminate; [now injection E as ->|]. cbn [firstn app].
      f_equal. now apply IH. }
    rewrite <- (firstn_skipn (S k) fs) at 1. rewrite Ef. apply lay_cut; [exact H1|]. now apply IH.
Qed.
Definition testOpts (opts : list (lbOption B)) (hg : list rune -> list (list rune)) : Prop :=
  (opts = [WithWordBreak false] /\ hg = partsOf (defaultHyphenator latinLow)) \/
  (exists b, opts = hyphenize (if b : bool then [WithRenderHyphens false] else []) /\ hg = partsOf hyBreak).
Definition check (opts : list (lbOption B)) (hg : list rune -> list (list rune)) (t : text) (w : Z) (ns : list nat) : bool :=
  let o := withOptions B (defaultHyphenator latinLow) (defaultPunctuator latinLow) opts in
  let fs := fragsOf latinLow o (splitAt (punctSplitFunc latinLow)) hg (toks t) in
  forallb (fun t => forallb (fun r => (0 <=? r) && (r <=? 0x10ffff) && negb (r =? 27)) t && (zlen t <? 1000) && (0 <? zlen t)) (toks t) &&
  (0 <? zlen (toks t)) && (cols (joinWith 32 (toks t)) <=? 2 ^ 30) && layoutb ns fs &&
  linesOk (l_renderHyphens o) (fun x => 1 * cols x) (1 * cols [32]) (hyphenW o (fun x => 1 * cols x)) B (k_tolerance (l_search o)) (1 * w) true (cutBy ns fs).
Lemma any_order opts hg t w ns : testOpts opts hg -> 0 < w <= 1000 -> check opts hg t w ns = true ->
  forall ord, (forall i k c, In c (ord i k)) -> exists ls, la opts ord t w = Ret (Some ls).
Proof.
  intros Ho Hw Hc ord Hord. unfold check in Hc. set (o := withOptions B (defaultHyphenator latinLow) (defaultPunctuator latinLow) opts) in *.
  set (fs := fragsOf _ _ _ _ _) in Hc. repeat (apply andb_prop in Hc; destruct Hc as [Hc ?]).
  assert (settings B BL latinLow o (fun x => 1 * cols x) (splitAt (punctSplitFunc latinLow)) hg) as S.
  { unfold o. apply (make_settings B BL latinLow opts (fun n => 1 * n) cols).
    - destruct Ho as [[-> _]|([|] & -> & _)]; apply (tol_inf B BL).
    - apply scaling_int; [lia|]. destruct Ho as [[-> _]|([|] & -> & _)]; apply (rep_Z B BL); unfold exactZ; lia.
    - destruct Ho as [[-> _]|([|] & -> & _)]; apply default_measures.
    - vm_compute. reflexivity.
    - vm_compute. discriminate.
    - destruct Ho as [[-> _]|([|] & -> & _)]; apply default_punctuator.
    - destruct Ho as [[-> ->]|([|] & -> & ->)]; [apply default_hyphenator|apply hyBreak_cuts..].
    - destruct (default_reached B BL latinLow) as [_ _ _ _ _ H']. destruct Ho as [[-> _]|([|] & -> & _)]; exact H'. }
  destruct (settings_new B BL latinLow o _ _ hg S) as (sp & hy & En & _). unfold la, newLineBreaker. fold o. rewrite En. cbn [gbind].
  assert (plainCall B BL latinLow o (fun x => 1 * cols x) (splitAt (punctSplitFunc latinLow)) hg
    (mkBreaker o sp hy []) (toks t) (fun _ => []) (n w) (1 * w) ord) as K.
  { apply make_call; [exact S|now constructor| | | | | | |exact Hord].
    - apply plain_check. rewrite forallb_forall in Hc |- *. intros x Hx. specialize (Hc x Hx). apply andb_prop in Hc. tauto.
    - split; [intros E; rewrite E in *; discriminate|]. rewrite forallb_forall in Hc. apply Forall_forall. intros x Hx ->. specialize (Hc [] Hx). discriminate.
    - intros a b. rewrite cols_app. lia.
    - lia.
    - apply scaled_width; [destruct Ho as [[-> _]|([|] & -> & _)]; apply (rep_Z B BL); unfold exactZ; lia|lia|apply (rep_Z B BL); unfold exactZ; lia|lia|lia].
    - lia. }
  destruct (align_complete _ _ _ _ _ _ _ _ _ _ _ _ _ K) as (res & lb' & E & HN). rewrite E. cbn. destruct res as [ls|]; [eauto|].
  exfalso. apply (proj1 HN eq_refl). exists (cutBy ns fs). split; [|assumption].
  assert (feq B (l_hyphenPenalty o) (fZ B 10000) = false) as -> by (destruct Ho as [[-> _]|([|] & -> & _)]; vm_compute; reflexivity).
  cbn [negb]. now apply layoutb_sound.
Qed.
Ltac test ns := intros ord; eapply (any_order _ _ _ _ ns);
  [unfold testOpts; first [now left|now (right; exists false)|now (right; exists true)]|lia|vm_compute; reflexivity].

Example test_one_line : la [WithWordBreak false] (from 0) "Lorem ipsum dolor sit amet, consectetur adipiscing" 50 =
  is ["Lorem ipsum dolor sit amet, consectetur adipiscing"].
Proof. vm_compute. reflexivity. Qed.
(** as in the comment of the test *)
Example test_word_15 : la (hyphenize []) (from 0) "Honorificabilitudinitatibus is super long" 15 = is ["Honorificabil-"; "itudinitatibus"; "is super long"].
Proof. vm_compute. reflexivity. Qed.
Definition lorem : text := "Lorem ipsum dolor sit amet, consectetur adipiscing elit, sed do eiusmod tempor incididunt ut labore et dolore magna aliqua. Ut enim ad minim veniam, quis nostrud exercitation ullamco laboris nisi ut aliquip ex ea commodo consequat. Duis aute irure dolor in reprehenderit in voluptate velit esse cillum dolore eu fugiat nulla pariatur. Excepteur sint occaecat cupidatat non proident, sunt in culpa qui officia deserunt mollit anim id est laborum.".
Definition grimm : text := "In olden times when wishing still helped one, there lived a king whose daughters were all beautiful, but the youngest was so beautiful that the sun itself, which has seen so much, was astonished whenever it shone in her face. Close by the king's castle lay a great dark forest, and under an old lime-tree in the forest was a well, and when the day was very warm, the king's child went out into the forest and sat down by the side of the cool fountain, and when she was bored she took a golden ball, and threw it up on high and caught it, and this ball was her favorite plaything.".
Definition honor : text := "Honorificabilitudinitatibus is super long".
Definition url : text := "https://www.unicode.org/Public/15.0.0/ucd/emoji/emoji-data.txt".
(** no error, whatever the iteration order *)
Example test_lorem_50 : forall ord, (forall i k c, In c (ord i k)) -> exists ls, la [WithWordBreak false] ord lorem 50 = Ret (Some ls).
Proof. test [4; 9; 7; 10; 6; 9; 7; 8; 8; 9]%nat. Qed.
Example test_lorem_40 : forall ord, (forall i k c, In c (ord i k)) -> exists ls, la (hyphenize []) ord lorem 40 = Ret (Some ls).
Proof. test [5; 11; 11; 11; 13; 10; 12; 11; 11; 10; 10; 11]%nat. Qed.
Example test_lorem_51 : forall ord, (forall i k c, In c (ord i k)) -> exists ls, la [WithWordBreak false] ord lorem 51 = Ret (Some ls).
Proof. test [8; 9; 11; 6; 10; 7; 8; 9; 9]%nat. Qed.
Example test_lorem_41 : forall ord, (forall i k c, In c (ord i k)) -> exists ls, la (hyphenize []) ord lorem 41 = Ret (Some ls).
Proof. test [3; 11; 12; 12; 13; 10; 12; 11; 11; 10; 10; 11]%nat. Qed.
Example test_grimm_30 : forall ord, (forall i k c, In c (ord i k)) -> exists ls, la [WithWordBreak false] ord grimm 30 = Ret (Some ls).
Proof. test [1; 5; 6; 5; 5; 5; 7; 5; 8; 8; 7; 5; 8; 8; 6; 7; 6; 6; 8; 7; 5]%nat. Qed.
Example test_grimm_20 : forall ord, (forall i k c, In c (ord i k)) -> exists ls, la (hyphenize []) ord grimm 20 = Ret (Some ls).
Proof. test [5; 4; 5; 4; 6; 3; 5; 6; 4; 6; 5; 5; 6; 5; 7; 6; 6; 5; 6; 4; 5; 5; 4; 5; 4; 6; 5; 5; 4; 5]%nat. Qed.
Example test_grimm_8 : forall ord, (forall i k c, In c (ord i k)) -> exists ls, la (hyphenize []) ord grimm 8 = Ret (Some ls).
Proof. test [2; 2; 1; 2; 1; 1; 2; 1; 1; 2; 1; 1; 1; 2; 1; 3; 2; 1; 2; 2; 2; 2; 3; 1; 2; 3; 2; 2; 3; 2; 2; 2; 1; 2; 2; 2; 2; 2; 1; 1; 3; 2; 2; 2; 2; 2; 2; 3; 2; 2; 2; 2; 1; 2; 2; 1; 2; 2; 2; 2; 2; 2; 2; 1; 2; 2; 2; 1; 2; 2; 3; 1; 1; 3; 2; 1; 2; 2; 1; 2; 2; 1; 2]%nat. Qed.
Example test_grimm_12 : forall ord, (forall i k c, In c (ord i k)) -> exists ls, la (hyphenize []) ord grimm 12 = Ret (Some ls).
Proof. test [1; 3; 3; 2; 3; 3; 2; 2; 2; 4; 2; 3; 3; 3; 3; 2; 4; 3; 4; 3; 3; 4; 4; 3; 4; 4; 4; 3; 4; 2; 3; 3; 3; 3; 2; 3; 3; 3; 3; 3; 3; 2; 3; 4; 3; 3; 2; 4; 2; 3; 3]%nat. Qed.
Example test_honor_20 : forall ord, (forall i k c, In c (ord i k)) -> exists ls, la (hyphenize []) ord honor 20 = Ret (Some ls).
Proof. test [2; 6; 5]%nat. Qed.
Example test_honor_15 : forall ord, (forall i k c, In c (ord i k)) -> exists ls, la (hyphenize []) ord honor 15 = Ret (Some ls).
Proof. test [5; 4; 4]%nat. Qed.
Example test_url_15 : forall ord, (forall i k c, In c (ord i k)) -> exists ls, la (hyphenize [WithRenderHyphens false]) ord url 15 = Ret (Some ls).
Proof. test [4; 5; 7; 9; 7]%nat. Qed.
(** formatted text *)
Definition formatted : text := "Lorem ipsum dolor ^[31;1;4msit amet, consectetur adipiscing elit, sed do eiusmod tempor incididunt ut labore et dolore^[0m magna aliqua. Ut enim ad minim veniam, quis nostrud exercitation ullamco laboris nisi ut aliquip ex ea commodo consequat. Duis aute irure dolor in reprehenderit ^[92min voluptate velit esse cillum dolore eu fugiat nulla pariatur. Excepteur sint occaecat cupidatat non proident,^[0m sunt in culpa qui officia deserunt mollit anim id est laborum.".
Definition noError (x : go (option (list (list rune)))) : bool := match x with Ret (Some _) => true | _ => false end.
Example test_formatted : noError (la [WithWordBreak false] (from 0) formatted 50) = true /\ noError (la (hyphenize []) (from 0) formatted 41) = true.
Proof. split; vm_compute; reflexivity. Qed.
