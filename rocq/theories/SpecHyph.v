(** Independent specifications for pattern files and hyphenation. *)
From Verif Require Import Base.

(** ** Pattern files *)
(** A pattern: letters, each with an optional digit before it, and an optional final digit. *)
Definition digitText (d : option Z) : list rune := match d with None => [] | Some n => [48 + n] end.
Definition digitVal (d : option Z) : Z := match d with None => 0 | Some n => n end.
Definition okDigit (d : option Z) : Prop := match d with None => True | Some n => 0 <= n <= 9 end.
Definition patternText (items : list (option Z * rune)) (final : option Z) : list rune :=
  flat_map (fun i => digitText (fst i) ++ [snd i]) items ++ digitText final.
Definition patternDigits (items : list (option Z * rune)) (final : option Z) : list Z :=
  map (fun i => digitVal (fst i)) items ++ match final with None => [] | Some n => [n] end.

(** An exception: syllables joined by hyphens; its mask has a 1 on the first letter of every syllable but the first. *)
Fixpoint hyphenated (s : list rune) (ss : list (list rune)) : list rune :=
  match ss with [] => s | s' :: ss' => s ++ 45 :: hyphenated s' ss' end.
Definition zeros (s : list rune) : list Z := map (fun _ => 0) s.
Definition mask (s : list rune) (ss : list (list rune)) : list Z :=
  zeros s ++ flat_map (fun s => 1 :: zeros (tl s)) ss.

(** The value of the last rule with a given key. *)
Fixpoint lastRule (k : list rune) (rules : list (list rune * list Z)) : option (list Z) :=
  match rules with
  | [] => None
  | (k', v) :: rules' =>
      match lastRule k rules' with
      | Some v' => Some v'
      | None => if list_eq_dec Z.eq_dec k k' then Some v else None
      end
  end.

(** Sections of a file: the lines before, and after, the first one that satisfies [p]. *)
Fixpoint before {A} (p : A -> bool) (l : list A) : list A :=
  match l with [] => [] | x :: l' => if p x then [] else x :: before p l' end.
Fixpoint after {A} (p : A -> bool) (l : list A) : list A :=
  match l with [] => [] | x :: l' => if p x then l' else after p l' end.

(** ** Hyphenation *)
(** Cutting a word at increasing positions. *)
Fixpoint cutAt (w : list rune) (from : nat) (cuts : list nat) : list (list rune) :=
  match cuts with
  | [] => [w]
  | c :: cuts' => firstn (c - from) w :: cutAt (skipn (c - from) w) c cuts'
  end.

(** The positions kept, scanning the allowed ones from the left: at least [minLeft] runes since the previous one and
    [minRight] runes left. [todo] positions are left to scan from [i]. *)
Fixpoint keepFrom (allowed : nat -> bool) (minLeft minRight : Z) (len : nat) (previous i todo : nat) : list nat :=
  match todo with
  | O => []
  | S todo' =>
      if allowed i && (minLeft <=? Z.of_nat i - Z.of_nat previous) && (minRight <=? Z.of_nat len - Z.of_nat i)
      then i :: keepFrom allowed minLeft minRight len i (S i) todo'
      else keepFrom allowed minLeft minRight len previous (S i) todo'
  end.
Definition keep (allowed : nat -> bool) (minLeft minRight : Z) (len : nat) : list nat :=
  keepFrom allowed minLeft minRight len 0 1 (len - 1).

(** Liang: [rules k] are the digits of pattern [k]; [m] is the greatest digit given to boundary [j] of the dotted word by
    the patterns that match it somewhere (0 when there is none). *)
Definition gives (rules : list rune -> option (list Z)) (dotted : list rune) (j : nat) (v : Z) : Prop :=
  exists pre k post digits, dotted = pre ++ k ++ post /\ k <> [] /\ rules k = Some digits /\
    (length pre <= j)%nat /\ nth_error digits (j - length pre) = Some v.
Definition greatest (rules : list rune -> option (list Z)) (dotted : list rune) (j : nat) (m : Z) : Prop :=
  (forall v, gives rules dotted j v -> v <= m) /\ 0 <= m /\ (m = 0 \/ gives rules dotted j m).
(** A pattern that matches from one of the first [n] boundaries has a digit at boundary [j] or further. *)
Definition reaches (rules : list rune -> option (list Z)) (dotted : list rune) (n j : nat) : Prop :=
  exists pre k post digits, dotted = pre ++ k ++ post /\ k <> [] /\ rules k = Some digits /\
    digits <> [] /\ (length pre < n)%nat /\ (j < length pre + length digits)%nat.
Definition dot : rune := 46.
Definition dotted (w : list rune) : list rune := dot :: w ++ [dot].

(** A whole pattern file, line by line: comments, lines of patterns separated by single spaces, then the exceptions. *)
Definition pattern := (list (option Z * rune) * option Z)%type.
Definition pText (p : pattern) : list rune := patternText (fst p) (snd p).
Inductive fline := Comment (text : list rune) | Patterns (ps : list pattern).
Fixpoint spaced (ws : list (list rune)) : list rune :=
  match ws with [] => [] | [w] => w | w :: ws' => w ++ 32 :: spaced ws' end.
Definition lineText (l : fline) : list rune :=
  match l with Comment t => 37 :: t | Patterns ps => spaced (map pText ps) end.
Definition excText (e : list rune * list (list rune)) : list rune := hyphenated (fst e) (snd e).
(** backslash, hyphenation, opening brace *)
Definition excHeader : list rune := [92;104;121;112;104;101;110;97;116;105;111;110;123].
Definition fileLines (ls : list fline) (excs : list (list rune * list (list rune))) : list (list rune) :=
  map lineText ls ++ excHeader :: map excText excs ++ [[125]].
Definition fileText (ls : list fline) (excs : list (list rune * list (list rune))) : list rune :=
  flat_map (fun l => l ++ [10]) (fileLines ls excs).
(** The rules such a file states, in order; [low] lower-cases a rune. *)
Definition patternRule (low : rune -> rune) (p : pattern) : list rune * list Z :=
  (map (fun i => low (snd i)) (fst p), patternDigits (fst p) (snd p)).
Definition patternRulesOf (low : rune -> rune) (ls : list fline) : list (list rune * list Z) :=
  flat_map (fun l => match l with Comment _ => [] | Patterns ps => map (patternRule low) ps end) ls.
Definition excRulesOf (low : rune -> rune) (excs : list (list rune * list (list rune))) : list (list rune * list Z) :=
  map (fun e => (map low (concat (fst e :: snd e)), mask (fst e) (snd e))) excs.
