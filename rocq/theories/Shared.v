(** Goroutines calling LeftAlignUniform, on line breakers that they may share.

    A call runs the four statements of linebreaker.go:80-95, which communicate through the fields of the line breaker;
    goroutines are switched between these statements. Schedules within a statement are left out: they are needed neither for
    the refutation, nor when calls on one line breaker do not overlap. The fields [sum] and [activeNodes] are set and used
    within one statement. *)
From Verif Require Import Base Arith Unicode Ansi SpecAnsi Attr Hyph KP Nodes Render SpecKP Tokens Align Options Call Settings Reuse.

Section Shared.
Variable A : arith.
Variable u : unicode.

Record call := mkCallOf { c_on : nat; c_tokens : list (list rune); c_width : F A; c_spare : nat -> list rune; c_ord : nat -> nat -> list fclass }.
(** the fields of a LineBreaker (linebreaker.go:18-32) *)
Record fields := mkFields { f_breaker : breaker A; f_nodes : list (node A); f_widths : list (F A) }.
Inductive pc :=
| Idle
| AtNodes (c : call)                         (* at l.nodes = l.leftAlignedNodes(tokens) *)
| AtWidths (c : call)                        (* at l.lineWidths = l.buildUniformLengths(maxWidth) *)
| AtBreaks (c : call)                        (* at breakList := l.breakPoints() *)
| AtRender (c : call) (bs : list (bpoint A)) (* at return l.render(breakList), nil *)
| Failed (c : call).                         (* the goroutine panicked *)
Definition result := go (option (list (list rune))).
Record goroutine := mkGo { g_pc : pc; g_todo : list call; g_results : list (call * result) }.
Record world := mkWorld { w_breakers : nat -> fields; w_gos : nat -> goroutine }.

Definition upd {T} (f : nat -> T) (k : nat) (x : T) : nat -> T := fun j => if Nat.eqb j k then x else f j.
Definition setPc (w : world) (k : nat) (p : pc) : nat -> goroutine :=
  upd (w_gos w) k (mkGo p (g_todo (w_gos w k)) (g_results (w_gos w k))).
Definition return_ (w : world) (k : nat) (p : pc) (c : call) (r : result) : nat -> goroutine :=
  upd (w_gos w) k (mkGo p (g_todo (w_gos w k)) (g_results (w_gos w k) ++ [(c, r)])).

(** One statement of goroutine [k] *)
Definition step (w : world) (k : nat) : world :=
  match g_pc (w_gos w k) with
  | Idle =>
      match g_todo (w_gos w k) with
      | [] => w
      | c :: todo => mkWorld (w_breakers w) (upd (w_gos w) k (mkGo (AtNodes c) todo (g_results (w_gos w k))))
      end
  | AtNodes c =>
      let l := w_breakers w (c_on c) in
      let lb := f_breaker l in
      match leftAlignedNodes A u lb (c_tokens c) (c_spare c) with
      | Panic => mkWorld (w_breakers w) (return_ w k (Failed c) c Panic)
      | Ret (ns, attrs) =>
          mkWorld (upd (w_breakers w) (c_on c) (mkFields (mkBreaker (lb_opts lb) (lb_spaceWidth lb) (lb_hyphenWidth lb) attrs) ns (f_widths l)))
            (setPc w k (AtWidths c))
      end
  | AtWidths c =>
      let l := w_breakers w (c_on c) in
      mkWorld (upd (w_breakers w) (c_on c) (mkFields (f_breaker l) (f_nodes l) [scale A (lb_opts (f_breaker l)) (c_width c)])) (setPc w k (AtBreaks c))
  | AtBreaks c =>
      let l := w_breakers w (c_on c) in
      match breakPoints A (l_search (lb_opts (f_breaker l))) (c_ord c) (f_nodes l) (f_widths l) with
      | Panic => mkWorld (w_breakers w) (return_ w k (Failed c) c Panic)
      | Ret None => mkWorld (w_breakers w) (return_ w k Idle c (Ret None))
      | Ret (Some bs) => mkWorld (w_breakers w) (setPc w k (AtRender c bs))
      end
  | AtRender c bs =>
      let l := w_breakers w (c_on c) in
      match render A (lb_opts (f_breaker l)) (lb_attrs (f_breaker l)) (f_nodes l) bs with
      | Panic => mkWorld (w_breakers w) (return_ w k (Failed c) c Panic)
      | Ret ls => mkWorld (w_breakers w) (return_ w k Idle c (Ret (Some ls)))
      end
  | Failed c => w
  end.
Fixpoint steps (w : world) (sched : list nat) : world :=
  match sched with [] => w | k :: sched' => steps (step w k) sched' end.

(** The line breaker that a goroutine is using. One that panics does not return to it. *)
Definition inside (g : goroutine) : option nat :=
  match g_pc g with Idle => None | AtNodes c | AtWidths c | AtBreaks c | AtRender c _ | Failed c => Some (c_on c) end.
(** No two goroutines use a line breaker at the same time. *)
Definition alone (w : world) : Prop := forall j k b, inside (w_gos w j) = Some b -> inside (w_gos w k) = Some b -> j = k.
Fixpoint exclusive (w : world) (sched : list nat) : Prop :=
  alone w /\ match sched with [] => True | k :: sched' => exclusive (step w k) sched' end.

(** Line breakers made by New, and goroutines about to make their calls *)
Definition starting (opts : nat -> lopts A) (w : world) : Prop :=
  (forall b, newBreaker A (opts b) = Ret (f_breaker (w_breakers w b))) /\ (forall k, g_pc (w_gos w k) = Idle /\ g_results (w_gos w k) = []).
Definition plainCalls (w : world) : Prop := forall k, Forall (fun c => plainTokens (c_tokens c) (c_spare c)) (g_todo (w_gos w k)).
(** what the call returns on its own *)
Definition answer (lb : breaker A) (c : call) : result :=
  let! x := leftAlignUniform A u (c_ord c) (c_spare c) lb (c_tokens c) (c_width c) in Ret (fst x).

Variable opts : nat -> lopts A.
Variable w0 : world.
Hypothesis H0 : starting opts w0.
Notation fresh b := (f_breaker (w_breakers w0 b)).

Definition plainC (c : call) : Prop := plainTokens (c_tokens c) (c_spare c).
(** the fields of line breaker [c_on c] while [c] is at [p], begun with the line breaker [lb] *)
Definition midway (l : fields) (p : pc) : Prop :=
  match p with
  | Idle => True
  | AtNodes c => plainC c /\ usable A u (opts (c_on c)) (f_breaker l)
  | AtWidths c => plainC c /\ exists lb attrs, usable A u (opts (c_on c)) lb /\ leftAlignedNodes A u lb (c_tokens c) (c_spare c) = Ret (f_nodes l, attrs) /\
      f_breaker l = mkBreaker (lb_opts lb) (lb_spaceWidth lb) (lb_hyphenWidth lb) attrs
  | AtBreaks c => plainC c /\ exists lb attrs, usable A u (opts (c_on c)) lb /\ leftAlignedNodes A u lb (c_tokens c) (c_spare c) = Ret (f_nodes l, attrs) /\
      f_breaker l = mkBreaker (lb_opts lb) (lb_spaceWidth lb) (lb_hyphenWidth lb) attrs /\ f_widths l = [scale A (lb_opts lb) (c_width c)]
  | AtRender c bs => plainC c /\ exists lb attrs, usable A u (opts (c_on c)) lb /\ leftAlignedNodes A u lb (c_tokens c) (c_spare c) = Ret (f_nodes l, attrs) /\
      f_breaker l = mkBreaker (lb_opts lb) (lb_spaceWidth lb) (lb_hyphenWidth lb) attrs /\
      breakPoints A (l_search (lb_opts lb)) (c_ord c) (f_nodes l) [scale A (lb_opts lb) (c_width c)] = Ret (Some bs)
  | Failed c => True
  end.
Record good (w : world) : Prop := {
  go_mid : forall k b, inside (w_gos w k) = Some b -> midway (w_breakers w b) (g_pc (w_gos w k));
  go_free : forall b, (forall k, inside (w_gos w k) <> Some b) -> usable A u (opts b) (f_breaker (w_breakers w b));
  go_todo : plainCalls w;
  go_res : forall k, Forall (fun x => plainC (fst x) /\ exists lb, usable A u (opts (c_on (fst x))) lb /\ snd x = answer lb (fst x)) (g_results (w_gos w k))
}.
Lemma good_start : plainCalls w0 -> good w0.
Proof.
  intros Hp. destruct H0 as [N I]. constructor.
  - intros k b. unfold inside. rewrite (proj1 (I k)). discriminate.
  - intros b _. apply us_new. apply N.
  - exact Hp.
  - intros k. rewrite (proj2 (I k)). constructor.
Qed.

Lemma upd_same {T} (f : nat -> T) k x : upd f k x k = x.
Proof. unfold upd. now rewrite Nat.eqb_refl. Qed.
Lemma upd_other {T} (f : nat -> T) k x j : j <> k -> upd f k x j = f j.
Proof. intros H. unfold upd. now destruct (Nat.eqb_spec j k). Qed.
(** a goroutine in a call goes on with it, changing only the line breaker of the call *)
Lemma good_inside w k c l p : alone w -> good w -> inside (w_gos w k) = Some (c_on c) -> inside (mkGo p [] []) = Some (c_on c) -> midway l p ->
  good (mkWorld (upd (w_breakers w) (c_on c) l) (setPc w k p)).
Proof.
  intros Ha [G1 G2 G3 G4] Hk Hp Hm. constructor; cbn [w_breakers w_gos]; unfold setPc.
  - intros j b. destruct (Nat.eq_dec j k) as [->|N].
    + rewrite upd_same. unfold inside in *. cbn [g_pc] in *. intros E. rewrite Hp in E. injection E as <-. now rewrite upd_same.
    + rewrite upd_other by exact N. intros E. rewrite upd_other; [now apply G1|]. intros ->. apply N. eapply Ha; eassumption.
  - intros b Hb. assert (b <> c_on c) as Nb. { intros ->. apply (Hb k). rewrite upd_same. exact Hp. }
    rewrite upd_other by exact Nb. apply G2. intros j Hj. destruct (Nat.eq_dec j k) as [->|N]; [congruence|]. apply (Hb j). now rewrite upd_other.
  - intros j. cbn [w_gos]. destruct (Nat.eq_dec j k) as [->|N]; [rewrite upd_same|rewrite upd_other by exact N]; apply G3.
  - intros j. destruct (Nat.eq_dec j k) as [->|N]; [rewrite upd_same|rewrite upd_other by exact N]; apply G4.
Qed.
(** a goroutine leaves a call *)
Lemma good_return w k c p r : alone w -> good w -> inside (w_gos w k) = Some (c_on c) -> plainC c ->
  p = Failed c \/ (p = Idle /\ usable A u (opts (c_on c)) (f_breaker (w_breakers w (c_on c)))) ->
  (exists lb, usable A u (opts (c_on c)) lb /\ r = answer lb c) ->
  good (mkWorld (w_breakers w) (return_ w k p c r)).
Proof.
  intros Ha [G1 G2 G3 G4] Hk Hc Hp Hr. constructor; cbn [w_breakers w_gos]; unfold return_.
  - intros j b. destruct (Nat.eq_dec j k) as [->|N].
    + rewrite upd_same. unfold inside. cbn [g_pc]. destruct Hp as [->|[-> _]]; [cbn [midway]; trivial|discriminate].
    + rewrite upd_other by exact N. apply G1.
  - intros b Hb. destruct (Nat.eq_dec b (c_on c)) as [->|Nb].
    + destruct Hp as [->|[_ Hp]]; [|exact Hp]. exfalso. apply (Hb k). now rewrite upd_same.
    + apply G2. intros j Hj. destruct (Nat.eq_dec j k) as [->|N]; [congruence|]. apply (Hb j). now rewrite upd_other.
  - intros j. cbn [w_gos]. destruct (Nat.eq_dec j k) as [->|N]; [rewrite upd_same|rewrite upd_other by exact N]; apply G3.
  - intros j. destruct (Nat.eq_dec j k) as [->|N]; [rewrite upd_same|rewrite upd_other by exact N]; [|apply G4]. cbn [g_results].
    apply Forall_app. split; [apply G4|]. constructor; [|constructor]. split; [exact Hc|exact Hr].
Qed.
Lemma upd_id {T} (f : nat -> T) k j : upd f k (f k) j = f j.
Proof. destruct (Nat.eq_dec j k) as [->|N]; [apply upd_same|now apply upd_other]. Qed.
Lemma good_ext w bs : (forall b, bs b = w_breakers w b) -> good (mkWorld bs (w_gos w)) -> good w.
Proof.
  intros E [G1 G2 G3 G4]. constructor; cbn [w_breakers w_gos] in *; try assumption.
  - intros k b H. rewrite <- E. now apply G1.
  - intros b H. rewrite <- E. now apply G2.
Qed.
Lemma good_step w k : alone w -> alone (step w k) -> good w -> good (step w k).
Proof.
  intros Ha Ha' G. unfold step in *. destruct (g_pc (w_gos w k)) as [|c|c|c|c bs|c] eqn:Ep.
  - destruct (g_todo (w_gos w k)) as [|c todo] eqn:Et; [exact G|].
    assert (forall j, inside (w_gos w j) <> Some (c_on c)) as Hfree.
    { intros j Hj. assert (j <> k) as N by (intros ->; unfold inside in Hj; rewrite Ep in Hj; discriminate).
      apply N. apply (Ha' j k (c_on c)); cbn [w_gos]; [now rewrite upd_other|now rewrite upd_same]. }
    destruct G as [G1 G2 G3 G4]. pose proof (G3 k) as Hc. rewrite Et in Hc. apply Forall_cons_iff in Hc as [Hc Hc'].
    constructor; cbn [w_breakers w_gos].
    + intros j b. destruct (Nat.eq_dec j k) as [->|N]; [rewrite upd_same|rewrite upd_other by exact N; apply G1].
      unfold inside. cbn [g_pc midway]. intros [= <-]. split; [exact Hc|]. now apply G2.
    + intros b Hb. apply G2. intros j Hj. destruct (Nat.eq_dec j k) as [->|N]; [unfold inside in Hj; rewrite Ep in Hj; discriminate|].
      apply (Hb j). now rewrite upd_other.
    + intros j. cbn [w_gos]. destruct (Nat.eq_dec j k) as [->|N]; [rewrite upd_same; exact Hc'|rewrite upd_other by exact N; apply G3].
    + intros j. destruct (Nat.eq_dec j k) as [->|N]; [rewrite upd_same|rewrite upd_other by exact N]; apply G4.
  - assert (inside (w_gos w k) = Some (c_on c)) as Hk by (unfold inside; now rewrite Ep).
    pose proof (go_mid w G k _ Hk) as Hm. rewrite Ep in Hm. cbn [midway] in Hm. destruct Hm as [Hc Hu].
    destruct (leftAlignedNodes A u (f_breaker (w_breakers w (c_on c))) (c_tokens c) (c_spare c)) as [[ns attrs]|] eqn:E.
    + apply (good_inside w k c); try assumption; [reflexivity|]. cbn [midway f_breaker f_nodes f_widths]. split; [exact Hc|]. eauto 6.
    + apply good_return; try assumption; [now left|]. exists (f_breaker (w_breakers w (c_on c))). split; [exact Hu|].
      unfold answer, leftAlignUniform. now rewrite E.
  - assert (inside (w_gos w k) = Some (c_on c)) as Hk by (unfold inside; now rewrite Ep).
    pose proof (go_mid w G k _ Hk) as Hm. rewrite Ep in Hm. cbn [midway] in Hm. destruct Hm as (Hc & lb & attrs & H1 & H2 & H3).
    apply (good_inside w k c); try assumption; [reflexivity|]. cbn [midway f_breaker f_nodes f_widths]. split; [exact Hc|]. exists lb, attrs.
    rewrite H3. auto.
  - assert (inside (w_gos w k) = Some (c_on c)) as Hk by (unfold inside; now rewrite Ep).
    pose proof (go_mid w G k _ Hk) as Hm. rewrite Ep in Hm. cbn [midway] in Hm. destruct Hm as (Hc & lb & attrs & H1 & H2 & H3 & H4).
    rewrite H3, H4 in *. cbn [lb_opts] in *.
    destruct (breakPoints A (l_search (lb_opts lb)) (c_ord c) (f_nodes (w_breakers w (c_on c))) [scale A (lb_opts lb) (c_width c)]) as [[bs|]|] eqn:E.
    + apply (good_ext _ (upd (w_breakers w) (c_on c) (w_breakers w (c_on c)))); [intros b; apply upd_id|].
      apply (good_inside w k c); try assumption; [reflexivity|]. cbn [midway]. split; [exact Hc|]. exists lb, attrs. auto.
    + assert (leftAlignUniform A u (c_ord c) (c_spare c) lb (c_tokens c) (c_width c) =
        Ret (None, mkBreaker (lb_opts lb) (lb_spaceWidth lb) (lb_hyphenWidth lb) attrs)) as El.
      { unfold leftAlignUniform. rewrite H2. cbn [gbind]. now rewrite E. }
      apply good_return; try assumption; [right; split; [reflexivity|]|].
      * rewrite H3. eapply us_call; [exact H1|exact Hc|exact El].
      * exists lb. split; [exact H1|]. unfold answer. now rewrite El.
    + apply good_return; try assumption; [now left|]. exists lb. split; [exact H1|]. unfold answer, leftAlignUniform. rewrite H2. cbn [gbind]. now rewrite E.
  - assert (inside (w_gos w k) = Some (c_on c)) as Hk by (unfold inside; now rewrite Ep).
    pose proof (go_mid w G k _ Hk) as Hm. rewrite Ep in Hm. cbn [midway] in Hm. destruct Hm as (Hc & lb & attrs & H1 & H2 & H3 & H4).
    rewrite H3 in *. cbn [lb_opts lb_attrs] in *.
    destruct (render A (lb_opts lb) attrs (f_nodes (w_breakers w (c_on c))) bs) as [ls|] eqn:E.
    + assert (leftAlignUniform A u (c_ord c) (c_spare c) lb (c_tokens c) (c_width c) =
        Ret (Some ls, mkBreaker (lb_opts lb) (lb_spaceWidth lb) (lb_hyphenWidth lb) attrs)) as El.
      { unfold leftAlignUniform. rewrite H2. cbn [gbind]. rewrite H4. cbn [gbind]. now rewrite E. }
      apply good_return; try assumption; [right; split; [reflexivity|]|].
      * rewrite H3. eapply us_call; [exact H1|exact Hc|exact El].
      * exists lb. split; [exact H1|]. unfold answer. now rewrite El.
    + apply good_return; try assumption; [now left|]. exists lb. split; [exact H1|]. unfold answer, leftAlignUniform. rewrite H2. cbn [gbind]. rewrite H4. cbn [gbind]. now rewrite E.
  - exact G.
Qed.
Lemma good_steps sched : forall w, exclusive w sched -> good w -> good (steps w sched).
Proof.
  induction sched as [|k sched IH]; intros w H G; [exact G|]. cbn [exclusive steps] in *. destruct H as [Ha He]. apply IH; [exact He|].
  apply good_step; try assumption. destruct sched; apply He.
Qed.
(** Calls that do not overlap on a line breaker return what they return on their own. *)
Theorem shared_calls : plainCalls w0 -> forall sched, exclusive w0 sched -> forall k c r, In (c, r) (g_results (w_gos (steps w0 sched) k)) ->
  r = answer (fresh (c_on c)) c.
Proof.
  intros Hp sched He k c r Hin. pose proof (good_steps sched w0 He (good_start Hp)) as G. pose proof (go_res _ G k) as Hr. rewrite Forall_forall in Hr.
  destruct (Hr _ Hin) as (Hc & lb & Hu & E). cbn [fst snd] in *. rewrite E. unfold answer. eapply align_reuse; try eassumption. apply us_new. apply H0.
Qed.

(** A check of [exclusive] when only the first [N] goroutines do something *)
Definition clash (w : world) (j k : nat) : bool :=
  negb (Nat.eqb j k) && match inside (w_gos w j), inside (w_gos w k) with Some a, Some b => Nat.eqb a b | _, _ => false end.
Fixpoint noClash (N : nat) (w : world) (sched : list nat) : bool :=
  forallb (fun j => forallb (fun k => negb (clash w j k)) (seq 0 N)) (seq 0 N) &&
  match sched with [] => true | k :: sched' => Nat.ltb k N && noClash N (step w k) sched' end.
Lemma step_others w k j : j <> k -> w_gos (step w k) j = w_gos w j.
Proof.
  intros N. unfold step. destruct (g_pc (w_gos w k)) as [|c|c|c|c bs|c]; try reflexivity; cbn [w_gos].
  - destruct (g_todo (w_gos w k)); [reflexivity|]. cbn [w_gos]. now apply upd_other.
  - destruct (leftAlignedNodes _ _ _ _ _) as [[? ?]|]; cbn [w_gos]; now apply upd_other.
  - now apply upd_other.
  - destruct (breakPoints _ _ _ _ _) as [[?|]|]; cbn [w_gos]; now apply upd_other.
  - destruct (render _ _ _ _ _); cbn [w_gos]; now apply upd_other.
Qed.
Lemma noClash_ok N sched : forall w, (forall k, (N <= k)%nat -> inside (w_gos w k) = None) -> noClash N w sched = true -> exclusive w sched.
Proof.
  induction sched as [|x sched IH]; intros w Hi H; cbn [noClash exclusive] in *; apply andb_prop in H as [H1 H2].
  all: assert (alone w) as Ha by
    (intros j k b Hj Hk; destruct (Nat.eq_dec j k) as [->|Nn]; [reflexivity|exfalso];
     assert (j < N)%nat as Lj by (destruct (Nat.lt_ge_cases j N); [assumption|rewrite Hi in Hj by assumption; discriminate]);
     assert (k < N)%nat as Lk by (destruct (Nat.lt_ge_cases k N); [assumption|rewrite Hi in Hk by assumption; discriminate]);
     rewrite forallb_forall in H1; specialize (H1 j (proj2 (in_seq N 0 j) ltac:(lia))); rewrite forallb_forall in H1;
     specialize (H1 k (proj2 (in_seq N 0 k) ltac:(lia))); unfold clash in H1; rewrite Hj, Hk, Nat.eqb_refl in H1;
     destruct (Nat.eqb_spec j k); [contradiction|discriminate]).
  - split; [exact Ha|exact I].
  - split; [exact Ha|]. apply andb_prop in H2 as [H2 H3]. apply Nat.ltb_lt in H2. apply IH; [|exact H3].
    intros k Hk. rewrite step_others by lia. now apply Hi.
Qed.
End Shared.
