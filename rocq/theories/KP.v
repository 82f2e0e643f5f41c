(** linebreak/knuth_plass.go and knuth_plass_types.go: the Knuth-Plass search over a list of nodes.

    Pointers: a [*breakPoint] is its value (breakpoints are never modified while searching; the [next] field, set by
    [reverseBreakPoints], is the list of the breakpoints that follow). A [*list.Element] is a position in the list of
    active breakpoints: [done] before it, [rest] from it on. The iteration order of the map of candidates is given by
    [ord]: the order used at node [index], for the [k]-th insertion there. *)
From Verif Require Import Base Arith.

Section KP.
Variable A : arith.
Notation F := (F A).
Notation fZ := (fZ A).

(** Models [sums], [nodeType], [nodeT] (knuth_plass_types.go:10-24, 37, 69-75). [n_attr]: the renderer of a box, as an index
    in the attributes.State of the line breaker. *)
Record sums := mkSums { su_width : F; su_stretch : F; su_shrink : F }.
Definition noSums : sums := mkSums (fZ 0) (fZ 0) (fZ 0).
Inductive ntype := TPenalty | TGlue | TBox.
Record node := mkNode {
  n_type : ntype; n_penalty : F; n_flagged : bool; n_value : list rune; n_attr : option nat; n_sums : sums
}.
Definition isGlue (n : node) : bool := match n_type n with TGlue => true | _ => false end.        (* 178-180 *)
Definition isBox (n : node) : bool := match n_type n with TBox => true | _ => false end.          (* 182-184 *)
Definition isPenalty (n : node) : bool := match n_type n with TPenalty => true | _ => false end.  (* 186-188 *)

(** [infinity] (knuth_plass.go:9). *)
Definition infinity : F := fZ 10000.
Definition minusInfinity : F := fZ (-10000).
Definition isForcedBreak (n : node) : bool := isPenalty n && feq A (n_penalty n) minusInfinity.   (* 190-192 *)

(** Models [newGlue], [newBox], [newPenalty] (knuth_plass_types.go:99-130). *)
Definition newGlue (w st sh : F) : node := mkNode TGlue (fZ 0) false [] None (mkSums w st sh).
Definition newBox (w : F) (v : list rune) (a : option nat) : node :=
  mkNode TBox (fZ 0) false v a (mkSums w (fZ 0) (fZ 0)).
Definition newPenalty (w p : F) (flagged : bool) : node :=
  mkNode TPenalty p flagged [] None (mkSums w (fZ 0) (fZ 0)).

(** Models [fitnessClass] and [newFitnessClass] (knuth_plass_types.go:77-84, 133-144). *)
Inductive fclass := C0 | C1 | C2 | C3.
Definition classNum (c : fclass) : Z := match c with C0 => 0 | C1 => 1 | C2 => 2 | C3 => 3 end.
Definition newFitnessClass (ratio : F) : fclass :=
  if flt A ratio (fMinusHalf A) then C0
  else if fle A ratio (fHalf A) then C1
  else if fle A ratio (fZ 1) then C2
  else C3.
(** Models [isAwayFrom] (knuth_plass_types.go:212-214). *)
Definition isAwayFrom (f g : fclass) : bool := 1 <? Z.abs (classNum f - classNum g).

(** Models [breakPoint] (knuth_plass_types.go:26-35). *)
Inductive bpoint := mkBP {
  b_position : nat; b_line : Z; b_fitness : fclass; b_demerits : F; b_totals : sums; b_ratio : F;
  b_previous : option bpoint
}.

(** Models [sums.Add] (knuth_plass_types.go:159-163). *)
Definition sumsAdd (s t : sums) : sums :=
  mkSums (fadd A (su_width s) (su_width t)) (fadd A (su_stretch s) (su_stretch t)) (fadd A (su_shrink s) (su_shrink t)).

(** The options read by the search (options.go:12-18, knuth_plass_types.go:39-43). *)
Record kopts := mkKopts { k_tolerance : F; k_badness : F; k_line : F; k_flagged : F; k_fitness : F }.
Variable ko : kopts.

(** Models [adjustmentRatio] (knuth_plass.go:13-46). *)
Definition adjustmentRatio (from : bpoint) (to : node) (sum : sums) (ideal : F) : F :=
  let w0 := fsub A (su_width sum) (su_width (b_totals from)) in
  let actual := if isPenalty to then fadd A w0 (su_width (n_sums to)) else w0 in
  if flt A actual ideal then
    let stretch := fsub A (su_stretch sum) (su_stretch (b_totals from)) in
    if flt A (fZ 0) stretch then fdiv A (fsub A ideal actual) stretch else infinity
  else if flt A ideal actual then
    let shrink := fsub A (su_shrink sum) (su_shrink (b_totals from)) in
    if flt A (fZ 0) shrink then fdiv A (fsub A ideal actual) shrink else infinity
  else fZ 0.

(** Models [demeritsForRatio] (knuth_plass.go:49-61). *)
Definition demeritsForRatio (n : node) (ratio : F) : F :=
  let badness := fadd A (k_line ko) (fmul A (k_badness ko) (fpow A (fabs A ratio) (fZ 3))) in
  let penalty := n_penalty n in
  if isPenalty n && flt A (fZ 0) penalty then fpow A (fadd A badness penalty) (fZ 2)
  else if isPenalty n && negb (feq A penalty minusInfinity)
  then fsub A (fpow A badness (fZ 2)) (fpow A penalty (fZ 2))
  else fpow A badness (fZ 2).

(** Models [demeritsAndClass] (knuth_plass.go:64-83). *)
Definition demeritsAndClass (nodes : list node) (from : bpoint) (to : node) (ratio : F) : go (F * fclass) :=
  let d0 := demeritsForRatio to ratio in
  match nth_error nodes (b_position from) with
  | None => Panic
  | Some previous =>
      let d1 := if isPenalty to && n_flagged to && isPenalty previous && n_flagged previous
                then fadd A d0 (k_flagged ko) else d0 in
      let currentClass := newFitnessClass ratio in
      let d2 := if isAwayFrom currentClass (b_fitness from) then fadd A d1 (k_fitness ko) else d1 in
      Ret (fadd A d2 (b_demerits from), currentClass)
  end.

(** Models [findStartNode] (knuth_plass.go:129-145). *)
Fixpoint findStartNode (nodes : list node) (start : nat) : nat :=
  match nodes with
  | [] => start
  | n :: nodes' =>
      match n_type n with
      | TBox => start
      | TPenalty => if feq A (n_penalty n) minusInfinity then start else findStartNode nodes' start
      | TGlue => findStartNode nodes' (S start)
      end
  end.

(** The loop of [sumFromNode] (knuth_plass.go:163-179): [rest] is [nodes[index:]], [first] says whether i = 0. *)
Fixpoint sumFrom (rest : list node) (first : bool) (sum : sums) : sums :=
  match rest with
  | [] => sum
  | n :: rest' =>
      if isGlue n then sumFrom rest' false (sumsAdd sum (n_sums n))
      else if isBox n || (isForcedBreak n && negb first) then sum
      else sumFrom rest' false sum
  end.
Definition sumFromNode (nodes : list node) (sum : sums) (index : nat) : sums := sumFrom (skipn index nodes) true sum.

(** Models [idealWidth] (knuth_plass.go:282-288). *)
Definition idealWidth (widths : list F) (currentLine : Z) : go F :=
  let i := if currentLine <? zlen widths + 1 then currentLine - 1 else zlen widths - 1 in
  if i <? 0 then Panic else match nth_error widths (Z.to_nat i) with Some w => Ret w | None => Panic end.

(** Models [defaultCandidates] (knuth_plass_types.go:146-153) and updates of the map. *)
Definition candidates := fclass -> bpoint.
Definition defaultCandidates : candidates := fun c => mkBP 0 0 c (fMax A) noSums (fZ 0) None.
Definition sameClass (c d : fclass) : bool := classNum c =? classNum d.
Definition setCandidate (m : candidates) (c : fclass) (b : bpoint) : candidates :=
  fun d => if sameClass d c then b else m d.

Definition minf (a b : F) : F := if flt A a b then a else b.  (* knuth_plass_types.go:258-264 *)

(** Models the inner loop of [mainLoop] (knuth_plass.go:196-225). The active list is [done ++ rest]; returns the new
    [done] and [rest], the candidates and the lowest demerits. *)
Fixpoint inner (nodes : list node) (widths : list F) (nd : node) (sum : sums) (done rest : list bpoint)
  (cands : candidates) (lowest : F) : go (list bpoint * list bpoint * candidates * F) :=
  match rest with
  | [] => Ret (done, [], cands, lowest)
  | active :: next =>
      let currentLine := b_line active + 1 in
      let! ideal := idealWidth widths currentLine in
      let ratio := adjustmentRatio active nd sum ideal in
      let done' := if flt A ratio (fZ (-1)) || isForcedBreak nd then done else done ++ [active] in
      let! cl :=
        (if fle A (fZ (-1)) ratio && fle A ratio (k_tolerance ko)
         then let! dc := demeritsAndClass nodes active nd ratio in
              let (demerits, currentClass) := dc in
              Ret (if flt A demerits (b_demerits (cands currentClass)) then setCandidate cands currentClass active else cands,
                   minf lowest demerits)
         else Ret (cands, lowest)) in
      let (cands', lowest') := cl in
      match next with
      | [] => Ret (done', [], cands', lowest')
      | _ => if currentLine <=? b_line active then Ret (done', next, cands', lowest')
             else inner nodes widths nd sum done' next cands' lowest'
      end
  end.

(** Models [insertNewActiveBreak] (knuth_plass.go:233-259): [order] is the iteration order of the map. *)
Fixpoint insertNew (done rest : list bpoint) (index : nat) (sum : sums) (lowest : F) (cands : candidates)
  (order : list fclass) : list bpoint :=
  match order with
  | [] => done
  | class :: order' =>
      let c := cands class in
      if fle A (fMax A) (b_demerits c) || flt A (fadd A lowest (k_fitness ko)) (b_demerits c)
      then insertNew done rest index sum lowest cands order'
      else let nb := mkBP index (b_line c + 1) class (b_demerits c) sum (b_ratio c) (Some c) in
           match rest with
           | [] => insertNew (done ++ [nb]) rest index sum lowest cands order'
           | _ => done ++ [nb]
           end
  end.

(** Models [mainLoop] (knuth_plass.go:182-231); out of fuel is [Panic] (each turn consumes an active element). *)
Fixpoint outer (fuel : nat) (ord : nat -> list fclass) (k : nat) (nodes : list node) (widths : list F) (index : nat)
  (nd : node) (sum : sums) (done rest : list bpoint) (lowest : F) : go (list bpoint) :=
  match rest with
  | [] => Ret done
  | _ =>
      match fuel with
      | O => Panic
      | S fuel' =>
          let! x := inner nodes widths nd sum done rest defaultCandidates lowest in
          let '(done1, rest1, cands, lowest1) := x in
          let done2 := if flt A lowest1 (fMax A)
                       then insertNew done1 rest1 index (sumFromNode nodes sum index) lowest1 cands (ord k) else done1 in
          outer fuel' ord (S k) nodes widths index nd sum done2 rest1 lowest1
      end
  end.
Definition mainLoop (ord : nat -> nat -> list fclass) (nodes : list node) (widths : list F) (index : nat) (nd : node)
  (sum : sums) (actives : list bpoint) : go (list bpoint) :=
  outer (length actives) (ord index) 0 nodes widths index nd sum [] actives (fMax A).

(** Models the loop of [breakPoints] (knuth_plass.go:93-109): [rest] is [nodes[index:]], [prev] is [nodes[index-1]]. *)
Fixpoint breakLoop (ord : nat -> nat -> list fclass) (nodes : list node) (widths : list F) (rest : list node)
  (prev : option node) (index : nat) (sum : sums) (actives : list bpoint) : go (list bpoint) :=
  match rest with
  | [] => Ret actives
  | nd :: rest' =>
      let! x :=
        match n_type nd with
        | TBox => Ret (actives, mkSums (fadd A (su_width sum) (su_width (n_sums nd))) (su_stretch sum) (su_shrink sum))
        | TGlue =>
            let! actives' :=
              match prev with
              | Some p => if isBox p then mainLoop ord nodes widths index nd sum actives else Ret actives
              | None => Ret actives
              end in
            Ret (actives', sumsAdd sum (n_sums nd))
        | TPenalty =>
            if negb (feq A (n_penalty nd) infinity)
            then let! actives' := mainLoop ord nodes widths index nd sum actives in Ret (actives', sum)
            else Ret (actives, sum)
        end in
      let (actives', sum') := x in
      breakLoop ord nodes widths rest' (Some nd) (S index) sum' actives'
  end.

(** Models [findBestBreak] (knuth_plass.go:147-161). *)
Definition findBestBreak (actives : list bpoint) : bpoint :=
  fold_left (fun best b => if flt A (b_demerits b) (b_demerits best) then b else best) actives
    (mkBP 0 0 C0 (fMax A) noSums (fZ 0) None).

(** Models [reverseBreakPoints] (knuth_plass.go:263-277): the breakpoints after the first one, in order; [None] is the
    nil pointer. *)
Fixpoint chainOf (b : bpoint) (acc : list bpoint) : list bpoint :=
  match b_previous b with
  | None => acc
  | Some p => chainOf p (b :: acc)
  end.
Definition reverseBreakPoints (b : bpoint) : option (list bpoint) :=
  match b_previous b with None => None | Some _ => Some (chainOf b []) end.

(** Models [breakPoints] (knuth_plass.go:86-125). *)
Definition firstActive : bpoint := mkBP 0 0 C1 (fZ 0) noSums (fZ 0) None.
Definition breakPoints (ord : nat -> nat -> list fclass) (nodes : list node) (widths : list F)
  : go (option (list bpoint)) :=
  let start := findStartNode nodes 0 in
  let prev := match start with O => None | S p => nth_error nodes p end in
  let! actives := breakLoop ord nodes widths (skipn start nodes) prev start noSums [firstActive] in
  match actives with
  | [] => Ret None
  | _ => Ret (reverseBreakPoints (findBestBreak actives))
  end.
End KP.
Arguments mkSums {A}. Arguments su_width {A}. Arguments su_stretch {A}. Arguments su_shrink {A}.
Arguments mkNode {A}. Arguments n_type {A}. Arguments n_penalty {A}. Arguments n_flagged {A}. Arguments n_value {A}.
Arguments n_attr {A}. Arguments n_sums {A}. Arguments isGlue {A}. Arguments isBox {A}. Arguments isPenalty {A}.
Arguments isForcedBreak {A}. Arguments mkBP {A}. Arguments b_position {A}. Arguments b_line {A}. Arguments b_fitness {A}.
Arguments b_demerits {A}. Arguments b_totals {A}. Arguments b_ratio {A}. Arguments b_previous {A}.
Arguments mkKopts {A}. Arguments k_tolerance {A}. Arguments k_badness {A}. Arguments k_line {A}. Arguments k_flagged {A}.
Arguments k_fitness {A}.
