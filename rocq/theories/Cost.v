(** How much work LeftAlignUniform does: the number of lines that the search looks at. *)
From Verif Require Import Base Arith Unicode Attr KP Nodes.

Section Cost.
Variable A : arith.
Variable ko : kopts A.
Notation node := (node A).
Notation bpoint := (bpoint A).

(** The functions of KP.v again, with a counter: each call to [adjustmentRatio] (knuth_plass.go:200) counts for one. *)
Fixpoint innerC (nodes : list node) (widths : list (F A)) (nd : node) (sum : sums A) (done rest : list bpoint)
  (cands : candidates A) (lowest : F A) : go (list bpoint * list bpoint * candidates A * F A) * Z :=
  match rest with
  | [] => (Ret (done, [], cands, lowest), 0)
  | active :: next =>
      let currentLine := b_line active + 1 in
      match idealWidth A widths currentLine with
      | Panic => (Panic, 0)
      | Ret ideal =>
          let ratio := adjustmentRatio A active nd sum ideal in
          let done' := if flt A ratio (fZ A (-1)) || isForcedBreak nd then done else done ++ [active] in
          match
            (if fle A (fZ A (-1)) ratio && fle A ratio (k_tolerance ko)
             then let! dc := demeritsAndClass A ko nodes active nd ratio in
                  let (demerits, currentClass) := dc in
                  Ret (if flt A demerits (b_demerits (cands currentClass)) then setCandidate A cands currentClass active else cands,
                       minf A lowest demerits)
             else Ret (cands, lowest))
          with
          | Panic => (Panic, 1)
          | Ret (cands', lowest') =>
              match next with
              | [] => (Ret (done', [], cands', lowest'), 1)
              | _ => if currentLine <=? b_line active then (Ret (done', next, cands', lowest'), 1)
                     else let (r, c) := innerC nodes widths nd sum done' next cands' lowest' in (r, 1 + c)
              end
          end
      end
  end.
Fixpoint outerC (fuel : nat) (ord : nat -> list fclass) (k : nat) (nodes : list node) (widths : list (F A)) (index : nat)
  (nd : node) (sum : sums A) (done rest : list bpoint) (lowest : F A) : go (list bpoint) * Z :=
  match rest with
  | [] => (Ret done, 0)
  | _ =>
      match fuel with
      | O => (Panic, 0)
      | S fuel' =>
          let (x, c) := innerC nodes widths nd sum done rest (defaultCandidates A) lowest in
          match x with
          | Panic => (Panic, c)
          | Ret (done1, rest1, cands, lowest1) =>
              let done2 := if flt A lowest1 (fMax A)
                           then insertNew A ko done1 rest1 index (sumFromNode A nodes sum index) lowest1 cands (ord k) else done1 in
              let (y, d) := outerC fuel' ord (S k) nodes widths index nd sum done2 rest1 lowest1 in (y, c + d)
          end
      end
  end.
Definition mainLoopC (ord : nat -> nat -> list fclass) (nodes : list node) (widths : list (F A)) (index : nat) (nd : node)
  (sum : sums A) (actives : list bpoint) : go (list bpoint) * Z :=
  outerC (length actives) (ord index) 0 nodes widths index nd sum [] actives (fMax A).
Fixpoint breakLoopC (ord : nat -> nat -> list fclass) (nodes : list node) (widths : list (F A)) (rest : list node)
  (prev : option node) (index : nat) (sum : sums A) (actives : list bpoint) : go (list bpoint) * Z :=
  match rest with
  | [] => (Ret actives, 0)
  | nd :: rest' =>
      let (x, c) :=
        match n_type nd with
        | TBox => (Ret actives, 0)
        | TGlue =>
            match prev with
            | Some p => if isBox p then mainLoopC ord nodes widths index nd sum actives else (Ret actives, 0)
            | None => (Ret actives, 0)
            end
        | TPenalty => if negb (feq A (n_penalty nd) (infinity A)) then mainLoopC ord nodes widths index nd sum actives else (Ret actives, 0)
        end in
      let sum' :=
        match n_type nd with
        | TBox => mkSums (fadd A (su_width sum) (su_width (n_sums nd))) (su_stretch sum) (su_shrink sum)
        | TGlue => sumsAdd A sum (n_sums nd)
        | TPenalty => sum
        end in
      match x with
      | Panic => (Panic, c)
      | Ret actives' => let (y, d) := breakLoopC ord nodes widths rest' (Some nd) (S index) sum' actives' in (y, c + d)
      end
  end.
(** The number of lines that [breakPoints] looks at *)
Definition evaluations (ord : nat -> nat -> list fclass) (nodes : list node) (widths : list (F A)) : Z :=
  let start := findStartNode A nodes 0 in
  let prev := match start with O => None | S p => nth_error nodes p end in
  snd (breakLoopC ord nodes widths (skipn start nodes) prev start (noSums A) [firstActive A]).

(** The counter changes nothing *)
Lemma innerC_same nodes widths nd sum rest : forall done cands lowest,
  fst (innerC nodes widths nd sum done rest cands lowest) = inner A ko nodes widths nd sum done rest cands lowest.
Proof.
  induction rest as [|a next IH]; intros done cands lowest; [reflexivity|]. cbn [innerC inner].
  destruct (idealWidth A widths (b_line a + 1)) as [ideal|]; cbn [gbind]; [|reflexivity]. cbv zeta.
  match goal with |- context [gbind (if ?b then ?x else ?y) _] => destruct (if b then x else y) as [[c' l']|] end; cbn [gbind]; [|reflexivity].
  destruct next as [|b next]; [reflexivity|]. destruct (b_line a + 1 <=? b_line a); [reflexivity|].
  rewrite <- IH. destruct (innerC _ _ _ _ _ (b :: next) _ _). reflexivity.
Qed.
Lemma outerC_same ord nodes widths index nd sum fuel : forall k done rest lowest,
  fst (outerC fuel ord k nodes widths index nd sum done rest lowest) = outer A ko fuel ord k nodes widths index nd sum done rest lowest.
Proof.
  induction fuel as [|fuel IH]; intros k done rest lowest; destruct rest as [|a rest]; try reflexivity. cbn [outerC outer].
  rewrite <- innerC_same. destruct (innerC nodes widths nd sum done (a :: rest) (defaultCandidates A) lowest) as [[[[[d r] cs] low]|] c]; cbn [fst gbind]; [|reflexivity].
  rewrite <- IH. destruct (outerC _ _ _ _ _ _ _ _ _ _ _). reflexivity.
Qed.
Lemma breakLoopC_same ord nodes widths rest : forall prev index sum actives,
  fst (breakLoopC ord nodes widths rest prev index sum actives) = breakLoop A ko ord nodes widths rest prev index sum actives.
Proof.
  induction rest as [|nd rest IH]; intros prev index sum actives; [reflexivity|]. cbn [breakLoopC breakLoop].
  assert (forall l, fst (mainLoopC ord nodes widths index nd sum l) = mainLoop A ko ord nodes widths index nd sum l) as M by (intros l; apply outerC_same).
  destruct (n_type nd) eqn:E.
  - destruct (negb (feq A (n_penalty nd) (infinity A))).
    + rewrite <- M. destruct (mainLoopC ord nodes widths index nd sum actives) as [[l|] c]; cbn [fst gbind]; [|reflexivity].
      rewrite <- IH. destruct (breakLoopC _ _ _ _ _ _ _ _). reflexivity.
    + cbn [gbind]. rewrite <- IH. destruct (breakLoopC _ _ _ _ _ _ _ _). reflexivity.
  - destruct prev as [p|].
    + destruct (isBox p).
      * rewrite <- M. destruct (mainLoopC ord nodes widths index nd sum actives) as [[l|] c]; cbn [fst gbind]; [|reflexivity].
        rewrite <- IH. destruct (breakLoopC _ _ _ _ _ _ _ _). reflexivity.
      * cbn [gbind]. rewrite <- IH. destruct (breakLoopC _ _ _ _ _ _ _ _). reflexivity.
    + cbn [gbind]. rewrite <- IH. destruct (breakLoopC _ _ _ _ _ _ _ _). reflexivity.
  - cbn [gbind]. rewrite <- IH. destruct (breakLoopC _ _ _ _ _ _ _ _). reflexivity.
Qed.

(** One pass looks at every active breakpoint once, and adds at most one per class *)
Lemma innerC_cost nodes widths nd sum rest : forall done cands lowest,
  match innerC nodes widths nd sum done rest cands lowest with
  | (Ret (d, r, _, _), c) => r = [] /\ c = zlen rest /\ zlen d <= zlen done + zlen rest
  | (Panic, c) => c <= zlen rest
  end /\ 0 <= snd (innerC nodes widths nd sum done rest cands lowest).
Proof.
  induction rest as [|a next IH]; intros done cands lowest; [cbn; unfold zlen; cbn; split; [split; [reflexivity|split]|]; lia|]. cbn [innerC].
  assert (zlen (a :: next) = 1 + zlen next) as El by (unfold zlen; cbn [length]; lia).
  assert (0 <= zlen next) by (unfold zlen; lia).
  destruct (idealWidth A widths (b_line a + 1)) as [ideal|]; [|cbn; lia]. cbv zeta.
  set (done' := if _ || _ then done else done ++ [a]).
  assert (zlen done' <= zlen done + 1) as Hd by (unfold done', zlen; destruct (_ || _); rewrite ?app_length; cbn; lia).
  match goal with |- context [match (if ?b then ?x else ?y) with _ => _ end] => destruct (if b then x else y) as [[c' l']|] end; [|cbn; lia].
  destruct next as [|b next]; [cbn [snd]; unfold zlen in *; cbn [length] in *; split; [split; [reflexivity|split]|]; lia|].
  replace (b_line a + 1 <=? b_line a) with false by lia.
  specialize (IH done' c' l'). destruct (innerC nodes widths nd sum done' (b :: next) c' l') as [[[[[d r] cs] low]|] c]; cbn [snd] in *.
  - destruct IH as ((-> & -> & Hd2) & _). split; [split; [reflexivity|split]|]; lia.
  - lia.
Qed.
Lemma insertNew_len index sum lowest cands order : forall done rest,
  zlen (insertNew A ko done rest index sum lowest cands order) <= zlen done + zlen order.
Proof.
  induction order as [|c order IH]; intros done rest; cbn [insertNew]; [unfold zlen; cbn; lia|].
  assert (zlen (c :: order) = 1 + zlen order) as E by (unfold zlen; cbn [length]; lia).
  destruct (_ || _); [specialize (IH done rest); lia|]. destruct rest as [|r rest].
  - match goal with |- zlen (insertNew _ _ (_ ++ [?x]) _ _ _ _ _ _) <= _ => specialize (IH (done ++ [x]) []) end.
    unfold zlen in *. rewrite app_length in IH. cbn [length] in *. lia.
  - unfold zlen. rewrite app_length. cbn [length]. lia.
Qed.
Lemma mainLoopC_cost ord nodes widths index nd sum l : (forall i k, zlen (ord i k) <= 4) ->
  match mainLoopC ord nodes widths index nd sum l with (Ret l', c) => zlen l' <= zlen l + 4 /\ c = zlen l | (Panic, c) => c <= zlen l end.
Proof.
  intros Ho. unfold mainLoopC. destruct l as [|a l]; [cbn; unfold zlen; cbn; lia|]. cbn [length outerC].
  pose proof (innerC_cost nodes widths nd sum (a :: l) [] (defaultCandidates A) (fMax A)) as [H _].
  destruct (innerC nodes widths nd sum [] (a :: l) (defaultCandidates A) (fMax A)) as [[[[[d r] cs] low]|] c]; [|exact H].
  destruct H as (-> & -> & Hd). replace (zlen (@nil bpoint)) with 0 in Hd by reflexivity.
  destruct (length l); cbn [outerC]; (split; [|lia]); (destruct (flt A low (fMax A)); [|lia]);
    match goal with |- zlen (insertNew _ _ _ _ _ _ _ _ ?o) <= _ => pose proof (insertNew_len index (sumFromNode A nodes sum index) low cs o d []); specialize (Ho index 0%nat) end; lia.
Qed.
Lemma breakLoopC_cost ord nodes widths rest : (forall i k, zlen (ord i k) <= 4) -> forall prev index sum actives,
  snd (breakLoopC ord nodes widths rest prev index sum actives) <= zlen rest * (zlen actives + 2 * zlen rest).
Proof.
  intros Ho. induction rest as [|nd rest IH]; intros prev index sum actives; [cbn; unfold zlen; cbn; lia|]. cbn [breakLoopC].
  assert (zlen (nd :: rest) = 1 + zlen rest) as El by (unfold zlen; cbn [length]; lia). rewrite El.
  assert (0 <= zlen rest) by (unfold zlen; lia). assert (0 <= zlen actives) by (unfold zlen; lia).
  match goal with |- context [let (_, _) := ?x in _] => assert (match x with (Ret l', c) => zlen l' <= zlen actives + 4 /\ c <= zlen actives | (Panic, c) => c <= zlen actives end) as K end.
  { assert (match mainLoopC ord nodes widths index nd sum actives with (Ret l', c) => zlen l' <= zlen actives + 4 /\ c <= zlen actives | (Panic, c) => c <= zlen actives end).
    { pose proof (mainLoopC_cost ord nodes widths index nd sum actives Ho) as C. destruct (mainLoopC ord nodes widths index nd sum actives) as [[l|] c]; lia. }
    destruct (n_type nd); [destruct (negb _)|destruct prev as [p|]; [destruct (isBox p)|]|]; try assumption; lia. }
  match goal with |- context [let (_, _) := ?x in _] => destruct x as [[l'|] c] end; cbn [snd] in *; [|nia].
  destruct K as [K1 K2].
  match goal with |- context [breakLoopC ord nodes widths rest ?p ?i ?s l'] => specialize (IH p i s l'); destruct (breakLoopC ord nodes widths rest p i s l') as [y d] end.
  cbn [snd] in *. nia.
Qed.
Theorem evaluations_bound ord nodes widths : (forall i k, zlen (ord i k) <= 4) -> evaluations ord nodes widths <= 2 * zlen nodes * zlen nodes + zlen nodes.
Proof.
  intros Ho. unfold evaluations. set (st := findStartNode A nodes 0).
  pose proof (breakLoopC_cost ord nodes widths (skipn st nodes) Ho (match st with O => None | S p => nth_error nodes p end) st (noSums A) [firstActive A]) as H.
  assert (zlen (skipn st nodes) <= zlen nodes) as Hl by (unfold zlen; rewrite skipn_length; lia).
  replace (zlen [firstActive A]) with 1 in H by reflexivity. assert (0 <= zlen (skipn st nodes)) by (unfold zlen; lia). nia.
Qed.

(** The cost of a search that ends, from the active breakpoints at each node *)
Fixpoint costLoop (ord : nat -> nat -> list fclass) (nodes : list node) (widths : list (F A)) (rest : list node)
  (prev : option node) (index : nat) (sum : sums A) (actives : list bpoint) : Z :=
  match rest with
  | [] => 0
  | nd :: rest' =>
      let visited :=
        match n_type nd with
        | TBox => false
        | TGlue => match prev with Some p => isBox p | None => false end
        | TPenalty => negb (feq A (n_penalty nd) (infinity A))
        end in
      let sum' :=
        match n_type nd with
        | TBox => mkSums (fadd A (su_width sum) (su_width (n_sums nd))) (su_stretch sum) (su_shrink sum)
        | TGlue => sumsAdd A sum (n_sums nd)
        | TPenalty => sum
        end in
      if visited then
        match mainLoop A ko ord nodes widths index nd sum actives with
        | Ret actives' => zlen actives + costLoop ord nodes widths rest' (Some nd) (S index) sum' actives'
        | Panic => 0
        end
      else costLoop ord nodes widths rest' (Some nd) (S index) sum' actives
  end.
Lemma innerC_nonneg nodes widths nd sum rest done cands lowest : 0 <= snd (innerC nodes widths nd sum done rest cands lowest).
Proof. apply innerC_cost. Qed.
Lemma outerC_nonneg ord nodes widths index nd sum fuel : forall k done rest lowest, 0 <= snd (outerC fuel ord k nodes widths index nd sum done rest lowest).
Proof.
  induction fuel as [|fuel IH]; intros k done rest lowest; destruct rest as [|a rest]; cbn [outerC snd]; try lia.
  pose proof (innerC_nonneg nodes widths nd sum (a :: rest) done (defaultCandidates A) lowest) as H.
  destruct (innerC nodes widths nd sum done (a :: rest) (defaultCandidates A) lowest) as [[[[[d r] cs] low]|] c]; cbn [snd] in *; [|exact H].
  match goal with |- context [outerC fuel ord (S k) nodes widths index nd sum ?d2 r low] => specialize (IH (S k) d2 r low); destruct (outerC fuel ord (S k) nodes widths index nd sum d2 r low) as [y e] end.
  cbn [snd] in *. lia.
Qed.
Lemma breakLoopC_nonneg ord nodes widths rest : forall prev index sum actives, 0 <= snd (breakLoopC ord nodes widths rest prev index sum actives).
Proof.
  induction rest as [|nd rest IH]; intros prev index sum actives; [cbn; lia|]. cbn [breakLoopC].
  match goal with |- context [let (_, _) := ?x in _] => assert (0 <= snd x) as K end.
  { assert (0 <= snd (mainLoopC ord nodes widths index nd sum actives)) by apply outerC_nonneg.
    destruct (n_type nd); [destruct (negb _)|destruct prev as [p|]; [destruct (isBox p)|]|]; try assumption; cbn; lia. }
  match goal with |- context [let (_, _) := ?x in _] => destruct x as [[l'|] c] end; cbn [snd] in *; [|exact K].
  match goal with |- context [breakLoopC ord nodes widths rest ?p ?i ?s l'] => specialize (IH p i s l'); destruct (breakLoopC ord nodes widths rest p i s l') as [y d] end.
  cbn [snd] in *. lia.
Qed.
Lemma costLoop_le ord nodes widths rest : (forall i k, zlen (ord i k) <= 4) -> forall prev index sum actives,
  costLoop ord nodes widths rest prev index sum actives <= snd (breakLoopC ord nodes widths rest prev index sum actives).
Proof.
  intros Ho. induction rest as [|nd rest IH]; intros prev index sum actives; [cbn; lia|]. cbn [costLoop breakLoopC]. cbv zeta.
  assert (fst (mainLoopC ord nodes widths index nd sum actives) = mainLoop A ko ord nodes widths index nd sum actives) as M by apply outerC_same.
  pose proof (mainLoopC_cost ord nodes widths index nd sum actives Ho) as C.
  assert (0 <= snd (mainLoopC ord nodes widths index nd sum actives)) as P by apply outerC_nonneg.
  rewrite <- M. destruct (n_type nd).
  - destruct (negb (feq A (n_penalty nd) (infinity A))).
    + destruct (mainLoopC ord nodes widths index nd sum actives) as [[l|] c]; cbn [fst snd] in *; [|exact P]. destruct C as [_ ->].
      specialize (IH (Some nd) (S index) sum l). destruct (breakLoopC ord nodes widths rest (Some nd) (S index) sum l). cbn [snd] in *. lia.
    + specialize (IH (Some nd) (S index) sum actives). destruct (breakLoopC ord nodes widths rest (Some nd) (S index) sum actives). cbn [snd] in *. lia.
  - destruct (match prev with Some p => isBox p | None => false end) eqn:E.
    + destruct prev as [p|]; [|discriminate]. rewrite E.
      destruct (mainLoopC ord nodes widths index nd sum actives) as [[l|] c]; cbn [fst snd] in *; [|exact P]. destruct C as [_ ->].
      match goal with |- context [breakLoopC _ _ _ _ _ _ ?s _] => specialize (IH (Some nd) (S index) s l); destruct (breakLoopC ord nodes widths rest (Some nd) (S index) s l) end. cbn [snd] in *. lia.
    + replace (match prev with Some p => if isBox p then mainLoopC ord nodes widths index nd sum actives else (Ret actives, 0) | None => (Ret actives, 0) end)
        with (@Ret (list bpoint) actives, 0) by (destruct prev as [p|]; [rewrite E|]; reflexivity).
      match goal with |- context [breakLoopC _ _ _ _ _ _ ?s _] => specialize (IH (Some nd) (S index) s actives); destruct (breakLoopC ord nodes widths rest (Some nd) (S index) s actives) end. cbn [snd] in *. lia.
  - match goal with |- context [breakLoopC _ _ _ _ _ _ ?s _] => specialize (IH (Some nd) (S index) s actives); destruct (breakLoopC ord nodes widths rest (Some nd) (S index) s actives) end. cbn [snd] in *. lia.
Qed.
End Cost.

(** The lines that a call to LeftAlignUniform looks at *)
Definition effort (A : arith) (u : unicode) (lb : breaker A) (ord : nat -> nat -> list fclass) (spare : nat -> list rune) (tokens : list (list rune))
  (maxWidth : F A) : Z :=
  match leftAlignedNodes A u lb tokens spare with
  | Ret (ns, _) => evaluations A (l_search (lb_opts lb)) ord ns [scale A (lb_opts lb) maxWidth]
  | Panic => 0
  end.
