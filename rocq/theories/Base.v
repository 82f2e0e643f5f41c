(** Go values used by the whole model: runes, panics, slices. *)
From Coq Require Export List ZArith Lia Bool Arith.
Export ListNotations.
Open Scope Z_scope.

(** A Go [rune] is an int32; the model uses [Z] and writes the range explicitly where it matters. *)
Definition rune := Z.

(** Result of a Go call: a normal return, or a run-time panic. *)
Inductive go (A : Type) : Type :=
| Ret (a : A)
| Panic.
Arguments Ret {A} a.
Arguments Panic {A}.

Definition gbind {A B} (m : go A) (k : A -> go B) : go B :=
  match m with Ret a => k a | Panic => Panic end.

Notation "'let!' x ':=' m 'in' k" := (gbind m (fun x => k))
  (at level 200, x pattern, m at level 100, k at level 200, right associativity).

(** Go's [len] as an integer. *)
Definition zlen {A} (l : list A) : Z := Z.of_nat (length l).

(** [l[a:b]] for a slice without spare capacity: panics unless 0 <= a <= b <= len. *)
Definition slice {A} (l : list A) (a b : Z) : go (list A) :=
  if (0 <=? a) && (a <=? b) && (b <=? zlen l)
  then Ret (firstn (Z.to_nat (b - a)) (skipn (Z.to_nat a) l))
  else Panic.

(** A Go slice with the elements its backing array holds after [len] (up to [cap]). *)
Record gslice (A : Type) := mkSlice { s_data : list A; s_spare : list A }.
Arguments mkSlice {A}. Arguments s_data {A}. Arguments s_spare {A}.

(** [s[a:b]] in Go: checked against the capacity, not the length. *)
Definition cslice {A} (s : gslice A) (a b : Z) : go (gslice A) :=
  let arr := s_data s ++ s_spare s in
  if (0 <=? a) && (a <=? b) && (b <=? zlen arr)
  then Ret (mkSlice (firstn (Z.to_nat (b - a)) (skipn (Z.to_nat a) arr))
                    (skipn (Z.to_nat b) arr))
  else Panic.

(** Characterisations used by the proofs. *)
Lemma zlen_nonneg {A} (l : list A) : 0 <= zlen l.
Proof. unfold zlen; lia. Qed.

Lemma zlen_app {A} (a b : list A) : zlen (a ++ b) = zlen a + zlen b.
Proof. unfold zlen; rewrite app_length; lia. Qed.

Lemma zlen_cons {A} (x : A) l : zlen (x :: l) = 1 + zlen l.
Proof. unfold zlen; cbn [length]; lia. Qed.

Lemma zlen_nil {A} : zlen (@nil A) = 0.
Proof. reflexivity. Qed.

Lemma firstn_app_exact {A} (a b : list A) n : n = length a -> firstn n (a ++ b) = a.
Proof.
  intros ->. rewrite firstn_app, firstn_all, Nat.sub_diag.
  cbn [firstn]. apply app_nil_r.
Qed.

Lemma skipn_app_exact {A} (a b : list A) n : n = length a -> skipn n (a ++ b) = b.
Proof. intros ->. rewrite skipn_app, skipn_all, Nat.sub_diag. reflexivity. Qed.

Lemma slice_mid {A} (a b c : list A) i j :
  i = zlen a -> j = zlen a + zlen b -> slice (a ++ b ++ c) i j = Ret b.
Proof.
  intros -> ->. unfold slice.
  rewrite !zlen_app.
  pose proof (zlen_nonneg a); pose proof (zlen_nonneg b); pose proof (zlen_nonneg c).
  destruct (Z.leb_spec 0 (zlen a)); [|lia].
  destruct (Z.leb_spec (zlen a) (zlen a + zlen b)); [|lia].
  destruct (Z.leb_spec (zlen a + zlen b) (zlen a + (zlen b + zlen c))); [|lia].
  cbn [andb]. f_equal.
  rewrite skipn_app_exact by (unfold zlen; lia).
  apply firstn_app_exact. unfold zlen; lia.
Qed.

Lemma slice_tail {A} (a b : list A) i j :
  i = zlen a -> j = zlen a + zlen b -> slice (a ++ b) i j = Ret b.
Proof.
  intros Hi Hj. rewrite <- (app_nil_r b) at 1. now apply slice_mid.
Qed.
