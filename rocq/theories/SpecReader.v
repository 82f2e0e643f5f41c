(** A reader seen as a cursor in a text: what is behind it and what is ahead. *)
From Verif Require Import Base SpecUtf8 Reader.

Record cursor := mkCursor { behind : list rune; ahead : list rune }.

Definition whole (c : cursor) : list rune := behind c ++ ahead c.

(** Byte size of a rune in UTF-8 (-1 for invalid runes). *)
Definition utf8size (r : rune) (n : Z) : Prop :=
  (exists bs, utf8 r bs /\ n = zlen bs) \/ (~ scalar r /\ n = -1).

(** Exact (unbounded) target of a seek. *)
Definition seekTarget (c : cursor) (offset whence : Z) : option Z :=
  match whence with
  | 0 => Some offset
  | 1 => Some (zlen (behind c) + offset)
  | 2 => Some (zlen (whole c) + offset)
  | _ => None
  end.

(** [moved c n c']: same text, cursor after n runes. *)
Definition moved (c : cursor) (n : Z) (c' : cursor) : Prop := whole c' = whole c /\ zlen (behind c') = n.

(** A sub-range of a list, when it exists. *)
Inductive range {A} (l : list A) (a b : Z) : list A -> Prop :=
| range_intro x y z : l = x ++ y ++ z -> a = zlen x -> b = zlen x + zlen y -> range l a b y.

(** [ranges l offs out]: [offs] is a list of pairs, [out] the corresponding ranges. *)
Inductive ranges {A} (l : list A) : list Z -> list (list A) -> Prop :=
| ranges_nil : ranges l [] []
| ranges_cons a b y offs out : range l a b y -> ranges l offs out -> ranges l (a :: b :: offs) (y :: out).

(** [view arr a b g]: the slice [g] is the part [a,b) of the array, its capacity goes to the end of the array. *)
Inductive view {A} (arr : list A) (a b : Z) (g : gslice A) : Prop :=
| view_intro x : arr = x ++ s_data g ++ s_spare g -> a = zlen x -> b = zlen x + zlen (s_data g) -> view arr a b g.
Inductive views {A} (arr : list A) : list Z -> list (gslice A) -> Prop :=
| views_nil : views arr [] []
| views_cons a b g offs gs : view arr a b g -> views arr offs gs -> views arr (a :: b :: offs) (g :: gs).

(** Runes lying entirely inside the bytes [first,last) of the UTF-8 encoding, [pos] being the byte position
    of the first rune; [size] measures a rune. *)
Fixpoint insideBytes (size : rune -> Z) (first last pos : Z) (rs : list rune) : list rune :=
  match rs with
  | [] => []
  | r :: rs' =>
      (if (first <=? pos) && (pos + size r <=? last) then [r] else [])
      ++ insideBytes size first last (pos + size r) rs'
  end.

(** Some rune starts strictly before [first] and ends strictly after [last]. *)
Definition coversBytes (size : rune -> Z) (first last : Z) (rs : list rune) : Prop :=
  exists a r b, rs = a ++ r :: b /\
    let pos := fold_right Z.add 0 (map size a) in pos < first /\ last < pos + size r.

(** Every pair of offsets delimits a range of a text of [cap] runes. *)
Inductive pairsOk (cap : Z) : list Z -> Prop :=
| pairs_nil : pairsOk cap []
| pairs_cons a b l : 0 <= a <= b -> b <= cap -> pairsOk cap l -> pairsOk cap (a :: b :: l).

(** Number of bytes of a scalar value in UTF-8. *)
Definition usize (r : rune) : Z := if r <? 0x80 then 1 else if r <? 0x800 then 2 else if r <? 0x10000 then 3 else 4.

(** Groups selected by pairs of byte offsets, none of them strictly inside one rune. *)
Inductive byteGroups (rs : list rune) : list Z -> list (list rune) -> Prop :=
| bg_nil : byteGroups rs [] []
| bg_cons a b l out : ~ coversBytes usize a b rs -> byteGroups rs l out ->
    byteGroups rs (a :: b :: l) (insideBytes usize a b 0 rs :: out).

Definition int64 (x : Z) : Prop := -2^63 <= x < 2^63.

(** What each call answers, in terms of the cursor; [spare] is the spare capacity of the slice. *)
Inductive answers (spare : list rune) (c : cursor) : rop -> rout -> cursor -> Prop :=
| an_read x a n : ahead c = x :: a -> utf8size x n ->
    answers spare c ORead (RRead x n false) (mkCursor (behind c ++ [x]) a)
| an_eof : ahead c = [] -> answers spare c ORead (RRead 0xfffd 0 true) c
| an_seek off wh t c' : seekTarget c off wh = Some t -> 0 <= t <= zlen (whole c) -> moved c t c' ->
    answers spare c (OSeek off wh) (RSeek (Some t)) c'
| an_seek_err off wh t : seekTarget c off wh = Some t -> ~ (0 <= t <= zlen (whole c)) ->
    answers spare c (OSeek off wh) (RSeek None) c
| an_seek_odd off wh : seekTarget c off wh = None ->
    answers spare c (OSeek off wh) (RSeek (Some (zlen (behind c)))) c
| an_runes : answers spare c ORunes (RRunes (ahead c)) c
| an_slice a b y : range (whole c ++ spare) a b y -> answers spare c (OSlice a b) (RRunes y) c
| an_slice_panic a b : (forall y, ~ range (whole c ++ spare) a b y) -> answers spare c (OSlice a b) RPanic c
| an_slices l out : ranges (whole c ++ spare) l out -> answers spare c (OSlices l) (RGroups out) c
| an_slices_panic l : (forall out, ~ ranges (whole c ++ spare) l out) -> answers spare c (OSlices l) RPanic c
| an_bytes l out : Forall scalar (whole c) -> byteGroups (whole c) l out -> answers spare c (OBytes l) (RGroups out) c
| an_bytes_panic l : Forall scalar (whole c) -> (forall out, ~ byteGroups (whole c) l out) ->
    answers spare c (OBytes l) RPanic c
| an_bytes_any l x : ~ Forall scalar (whole c) -> (* invalid runes have no byte size *)
    answers spare c (OBytes l) x c.

Inductive traceOk (spare : list rune) : cursor -> list rop -> list rout -> cursor -> Prop :=
| tr_nil c : traceOk spare c [] [] c
| tr_cons c o x c1 ops xs c2 : answers spare c o x c1 -> traceOk spare c1 ops xs c2 ->
    traceOk spare c (o :: ops) (x :: xs) c2.

