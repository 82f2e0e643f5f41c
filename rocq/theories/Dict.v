(** wordbreak/hyphenator/dictionary.go.

    bufio.Scanner is modelled for files whose lines all fit its buffer (65535 bytes). A line is the list of its runes
    (package utf8 is in Utf8.v): the prefixes tested are ASCII, so testing bytes or runes is the same. *)
From Verif Require Import Base Unicode Utf8 Trie.

Definition str := list rune.

(** Models bufio.ScanLines: cut at newlines, drop one trailing carriage return, no empty last line. *)
Fixpoint splitLines (cur bs : list byte) : list (list byte) :=
  match bs with
  | [] => match cur with [] => [] | _ => [rev cur] end
  | b :: bs' => if b =? 10 then rev cur :: splitLines [] bs' else splitLines (b :: cur) bs'
  end.
Definition dropCR (l : list byte) : list byte :=
  match rev l with 13 :: l' => rev l' | _ => l end.
Definition scanLines (file : list byte) : list str := map (fun l => runesOf (dropCR l)) (splitLines [] file).

(** strings.HasPrefix *)
Fixpoint hasPrefix (l p : str) : bool :=
  match p, l with
  | [], _ => true
  | c :: p', r :: l' => (c =? r) && hasPrefix l' p'
  | _ :: _, [] => false
  end.

(** Models [isTeXComment] (dictionary.go:36-41): empty, or starting with a percent sign, a backslash or a closing brace. *)
Definition isTeXComment (l : str) : bool :=
  match l with [] => true | _ => hasPrefix l [37] || hasPrefix l [92] || hasPrefix l [125] end.

(** The two section headers (dictionary.go:88-89). *)
Definition messageSection : str := [92;109;101;115;115;97;103;101;123].
Definition exceptionsSection : str := [92;104;121;112;104;101;110;97;116;105;111;110;123].

(** strings.Fields: the maximal runs without white space. *)
Fixpoint stringFields (cur : str) (l : str) : list str :=
  match l with
  | [] => match cur with [] => [] | _ => [rev cur] end
  | r :: l' => if isSpace r then match cur with [] => stringFields [] l' | _ => rev cur :: stringFields [] l' end
               else stringFields (r :: cur) l'
  end.

(** Models [atoiRune] (dictionary.go:138-163). *)
Definition atoiRune (r : rune) : Z := if (48 <=? r) && (r <=? 57) then r - 48 else 0.

(** Models [readPattern] (dictionary.go:166-190). *)
Fixpoint readPattern_loop (u : unicode) (line : str) (wasdigit : bool) (pattern : str) (positions : list Z)
  : str * list Z :=
  match line with
  | [] => (pattern, positions)
  | c :: line' =>
      if isDigit u c then readPattern_loop u line' true pattern (positions ++ [atoiRune c])
      else readPattern_loop u line' false (pattern ++ [toLower u c]) (if wasdigit then positions else positions ++ [0])
  end.
Definition readPattern (u : unicode) (line : str) : str * list Z := readPattern_loop u line false [] [].

(** Models [readException] (dictionary.go:199-221). A comment yields nil and a nil []int, which Put stores as a non-nil
    interface under the empty key. *)
Fixpoint exception_mask (line : str) (washyphen : bool) (positions : list Z) : list Z :=
  match line with
  | [] => positions
  | c :: line' =>
      if isHyphenRune c then exception_mask line' true (positions ++ [1])
      else if washyphen then exception_mask line' false positions
      else exception_mask line' false (positions ++ [0])
  end.
Definition readException (u : unicode) (line : str) : str * list Z :=
  if isTeXComment line then ([], [])
  else (map (toLower u) (filter (fun r => negb (r =? 45)) line), exception_mask line false []).

(** Models [Dictionary] (dictionary.go:30-34). *)
Record dictionary := mkDict {
  d_exceptions : trie (list Z);
  d_patterns : trie (list Z);
  d_identifier : str
}.

Definition putRule (t : trie (list Z)) (kv : str * list Z) : trie (list Z) := fst (put t (fst kv) (Some (snd kv))).

(** Models the loop of [LoadPatterns] (dictionary.go:106-133): the exceptions section takes all the remaining lines. *)
Fixpoint load_loop (u : unicode) (lines : list str) (d : dictionary) : dictionary :=
  match lines with
  | [] => d
  | line :: rest =>
      if hasPrefix line messageSection
      then load_loop u rest (mkDict (d_exceptions d) (d_patterns d) (skipn (length messageSection) line))
      else if hasPrefix line exceptionsSection
      then mkDict (fold_left putRule (map (readException u) rest) (d_exceptions d)) (d_patterns d) (d_identifier d)
      else if isTeXComment line then load_loop u rest d
      else load_loop u rest
             (mkDict (d_exceptions d)
                     (fold_left putRule (map (readPattern u) (stringFields [] line)) (d_patterns d))
                     (d_identifier d))
  end.

(** Models [LoadPatterns] (dictionary.go:86-136) once the file is open; [name] is the default identifier. *)
Definition loadLines (u : unicode) (name : str) (lines : list str) : dictionary :=
  load_loop u lines (mkDict newTrie newTrie name).
Definition loadFile (u : unicode) (name : str) (file : list byte) : dictionary := loadLines u name (scanLines file).
