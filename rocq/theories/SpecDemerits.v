(** The demerits of a breaking, as in Knuth and Plass (with the constants of linebreak), over the rationals. Only for
    breakings whose lines all fit. *)
From Coq Require Import QArith.
From Verif Require Import Base SpecKP.
Open Scope Z_scope.

Section Demerits.
Variable rh : bool.
Variable m : list rune -> Z.
Variable sp hy : Z.
Variable W : Z.
Variable hyphenPenalty : Q.
Variable isDash : list rune -> bool.

(** slack over stretch *)
Definition ratioQ (w st : Z) : Q := if w <? W then Qdiv (inject_Z (W - w)) (inject_Z st) else 0%Q.
(** tight, normal, loose, very loose *)
Definition fitness (r : Q) : Z :=
  if Qle_bool (-(1#2)) r then if Qle_bool r (1#2) then 1 else if Qle_bool r 1 then 2 else 3 else 0.
Definition lastFrag (seg : list frag) : option frag := match rev seg with f :: _ => Some f | [] => None end.
(** the penalty for cutting after a fragment *)
Definition cutPenalty (f : frag) : Q :=
  if f_mark f then if isDash (f_text f) then 200%Q else 400%Q
  else match f_joint f with Soft => hyphenPenalty | _ => 0%Q end.
Definition flaggedCut (f : frag) : bool := f_mark f || isSoft f.
Definition linePenalty (lastLine : bool) (seg : list frag) : Q :=
  if lastLine then 0%Q else match lastFrag seg with Some f => cutPenalty f | None => 0%Q end.
Definition lineFlagged (lastLine : bool) (seg : list frag) : bool :=
  lastLine || match lastFrag seg with Some f => flaggedCut f | None => false end.
Definition lineDemerits (r pen : Q) : Q := Qpower (10 + 100 * Qpower r 3 + pen) 2.
Fixpoint demerits (firstLine prevFlagged : bool) (prevFitness : Z) (segs : list (list frag)) : Q :=
  match segs with
  | [] => 0%Q
  | seg :: rest =>
      let lastLine := match rest with [] => true | _ => false end in
      let r := ratioQ (lineWidth rh m sp hy seg) (lineStretch rh firstLine lastLine seg) in
      (lineDemerits r (linePenalty lastLine seg)
       + (if prevFlagged && lineFlagged lastLine seg then 100 else 0)
       + (if (1 <? Z.abs (fitness r - prevFitness))%Z then 200 else 0)
       + demerits false (lineFlagged lastLine seg) (fitness r) rest)%Q
  end.
Definition totalDemerits (segs : list (list frag)) : Q := demerits true false 1 segs.
End Demerits.
