(** C80: how much work LeftAlignUniform does. The measure is the number of lines that the search looks at, [effort] in Cost.v. *)
From Coq Require Import String Ascii.
From Verif Require Import Base Arith ArithB64 Unicode Split SpecSplit Ansi SpecAnsi Hyph Nodes KP Render Align Options Call Settings Cost PropAlign SpecFormat Format PropFormat
  SpecAny AnyCall PropAny CostCall.
Open Scope Z_scope.

(** The search with a counter, used by [effort], is the search *)
Theorem C80_counter : forall A ko ord nodes widths rest prev index sum actives,
  fst (breakLoopC A ko ord nodes widths rest prev index sum actives) = breakLoop A ko ord nodes widths rest prev index sum actives.
Proof. exact breakLoopC_same. Qed.
Print Assumptions C80_counter.

(** At most quadratic in the number of runes and tokens, with any arithmetic, options, width and earlier calls *)
Theorem C80_at_most : forall A u lb g h, cuts (l_punctuator (lb_opts lb)) g -> l_punctuator (lb_opts lb) [] = Ret [] ->
  (l_wordBreak (lb_opts lb) = true -> cuts (l_hyphenator (lb_opts lb)) h) ->
  forall ord spare tokens itemss maxWidth, Forall2 (lexed u) tokens itemss -> (forall j t, nth_error tokens j = Some t -> zlen (t ++ spare j) < 2 ^ 63) ->
  (forall i k, zlen (ord i k) <= 4) ->
  let n := 5 * zlen (concat tokens) + 3 * zlen tokens in effort A u lb ord spare tokens maxWidth <= 2 * n * n + n.
Proof. exact effort_bound. Qed.
Print Assumptions C80_at_most.

(** In particular, with the options of New *)
Theorem C80_options : forall A L u opts, Forall (okOption A L) opts ->
  let o := withOptions A (defaultHyphenator u) (defaultPunctuator u) opts in
  l_punctuator o [] = Ret [] ->
  forall lb seqs tokens spare itemss maxWidth ord, reached A u o lb seqs -> readable u tokens spare itemss -> (forall i k, zlen (ord i k) <= 4) ->
  let n := 5 * zlen (concat tokens) + 3 * zlen tokens in effort A u lb ord spare tokens maxWidth <= 2 * n * n + n.
Proof. exact options_work. Qed.
Print Assumptions C80_options.

(** At least quadratic in the number of lines *)
Theorem C80_at_least : forall A L u opts, Forall (okOption A L) opts ->
  let o := withOptions A (defaultHyphenator u) (defaultPunctuator u) opts in
  (exists ps, l_punctuator o [] = Ret ps /\ concat ps = []) ->
  exists mz, measures A L (l_measurer o) mz /\
  forall lb seqs tokens spare itemss maxWidth n ord ls lb', reached A u o lb seqs -> readable u tokens spare itemss -> soonText itemss ->
    mz (joinWith 32 (map keptText itemss)) <= 2 ^ 30 -> rep A L maxWidth n -> 0 < n <= 2 ^ 30 ->
    (forall i k c, In c (ord i k)) -> (forall i k, zlen (ord i k) <= 4) ->
    leftAlignUniform A u ord spare lb tokens maxWidth = Ret (Some ls, lb') ->
    zlen ls * (zlen ls + 1) <= 2 * effort A u lb ord spare tokens maxWidth.
Proof. exact options_effort. Qed.
Print Assumptions C80_at_least.

(** Lines of one word: the work per line grows with the number of lines *)
Definition words (k : nat) : list (list rune) := repeat (txt "ab") k.
Definition work (k : nat) (w : Z) : Z :=
  match newBreaker B (withOptions B (defaultHyphenator ascii) (defaultPunctuator ascii) []) with
  | Ret lb => effort B ascii lb (from 0) (fun _ => []) (words k) (n w)
  | Panic => 0
  end.
Example C80_ex : map (fun k => work k 2) [1; 10; 20; 40]%nat = [3; 210; 820; 3240] /\ map (fun k => work k 1000) [1; 10; 20; 40]%nat = [2; 20; 40; 80].
Proof. vm_compute. split; reflexivity. Qed.
(** the tokens of C78_ex *)
Example C80_ex_any : l_punctuator fO [] = Ret [] /\ reached B digits fO fB [] /\ readable digits exTokens (fun _ => []) exItems /\ soonText exItems /\
  (forall i k c, In c (from 0 i k)) /\ (forall i k, zlen (from 0 i k) <= 4) /\ effort B digits fB (from 0) (fun _ => []) exTokens (n 4) = 10.
Proof.
  destruct C78_ex as (H1 & H2 & H3 & _). split; [vm_compute; reflexivity|]. do 3 (split; [assumption|]). split; [exact (from_all 0)|].
  split; [intros i k; vm_compute; discriminate|]. vm_compute. reflexivity.
Qed.
