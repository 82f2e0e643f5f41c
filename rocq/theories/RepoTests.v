(** The expectations of the repository's unit tests, computed by the model: evidence that the model reads the code right.
    (wordbreak/hyphenator/hyphenator_test.go is in HyphTests.v, linebreak/linebreaker_test.go in LineTests.v.) *)
From Verif Require Import Base Unicode Utf8 Text Split Width Reader Ansi Attr SpecTrie Trie HyphTests.
Local Open Scope text_scope.

(** A literal where ^ stands for the escape character. *)
Definition q (t : text) : list rune := map (fun r => if r =? 94 then 27 else r) (str_ t).

(** ** terminal/ansi/ansi_test.go *)
Definition start_ : list rune := q "^[43;30m".
Definition end_ : list rune := q "^[00m".
Definition word_ : list rune := q "Česká řeřicha".
(** Text, StartSequence, StopSequence, Remainder *)
Definition strip4 (tok : list rune) : option (list rune * list rune * list rune * list rune) :=
  match stripANSIFromRunes latinLow tok [] with
  | Ret (mem, s) => Some (contents mem (s_text s), contents mem (s_start s), contents mem (s_stop s), contents mem (s_rem s))
  | Panic => None
  end.
Example test_strip :
  strip4 (q "ABC") = Some (q "ABC", [], [], []) /\
  strip4 (start_ ++ word_ ++ end_) = Some (word_, start_, end_, []) /\
  strip4 (start_ ++ word_) = Some (word_, start_, [], []) /\
  strip4 (word_ ++ end_) = Some (word_, [], end_, []) /\
  strip4 (start_ ++ end_) = Some ([], start_, end_, []).
Proof. vm_compute. repeat split. Qed.
(** Where a test only says that the remainder is not empty, it goes on with it *)
Example test_strip_multiple :
  let r1 := start_ ++ word_ ++ end_ ++ end_ in
  strip4 (start_ ++ r1) = Some ([], start_, [], r1) /\ strip4 r1 = Some (word_, start_, end_, end_) /\ strip4 end_ = Some ([], [], end_, []).
Proof. vm_compute. repeat split. Qed.
Example test_strip_remainder :
  let r3 := start_ ++ word_ ++ q "2" ++ end_ in let r2 := end_ ++ r3 in let r1 := start_ ++ word_ ++ end_ ++ r2 in
  strip4 (start_ ++ r1) = Some ([], start_, [], r1) /\ strip4 r1 = Some (word_, start_, end_, r2) /\
  strip4 r2 = Some ([], [], end_, r3) /\ strip4 r3 = Some (word_ ++ q "2", start_, end_, []).
Proof. vm_compute. repeat split. Qed.
Example test_strip_other :
  strip4 (q "^[1mABC^[1;2~^[K^[m") = Some (q "ABC^[1;2~^[K", q "^[1m", q "^[m", []) /\
  strip4 (q "^[1:2mABC^[m^[1:2;;~") = Some (q "ABC", q "^[1:2m", q "^[m", q "^[1:2;;~") /\
  strip4 (q "^[1:2;;~") = Some (q "^[1:2;;~", [], [], []) /\
  strip4 (q "^[1;2;3;4mABC^[1;2~^[1:2:3:4m") = Some (q "ABC^[1;2~", q "^[1;2;3;4m", [], q "^[1:2:3:4m") /\
  strip4 (q "^[1:2:3:4m") = Some ([], q "^[1:2:3:4m", [], []) /\
  strip4 (q "^[4m^[1;2~^[m") = Some (q "^[1;2~", q "^[4m", [], q "^[m") /\
  strip4 (q "^[m") = Some ([], [], q "^[m", []) /\
  strip4 (q "^[1;2~^[4m") = Some (q "^[1;2~", [], [], q "^[4m") /\
  strip4 (q "^[4m") = Some ([], q "^[4m", [], []) /\
  strip4 (q "^[1;2m^X^[m") = Some (q "^X", q "^[1;2m", q "^[m", []) /\
  strip4 (q "^[1;2m^^") = Some (q "^^", q "^[1;2m", [], []) /\
  strip4 (q "^") = Some (q "^", [], [], []) /\
  strip4 [] = Some ([], [], [], []).
Proof. vm_compute. repeat split. Qed.
(** the sequence, its kind, and the runes left in the reader *)
Definition decode3 (input : list rune) : option (list rune * kind * list rune) :=
  match decodeANSI latinLow (S (length input)) input (mkV 0 (zlen input) 0) with
  | Ret (s, k, v) => match vRunes input v with Ret r => Some (contents input s, k, contents input r) | Panic => None end
  | Panic => None
  end.
Definition TEXT := q "TEXT".
Example test_decode :
  decode3 (q "^[12mTEXT") = Some (q "^[12m", KStart, TEXT) /\
  decode3 (q "^[12;1;2;3mTEXT") = Some (q "^[12;1;2;3m", KStart, TEXT) /\
  decode3 (q "^[12sTEXT") = Some (q "^[12s", KStart, TEXT) /\
  decode3 (q "^[sTEXT") = Some (q "^[s", KStart, TEXT) /\
  decode3 (q "^[12hTEXT") = Some (q "^[12h", KStart, TEXT) /\
  decode3 (q "^[hTEXT") = Some (q "^[h", KStart, TEXT) /\
  decode3 (q "^[0mTEXT") = Some (q "^[0m", KStop, TEXT) /\
  decode3 (q "^[00mTEXT") = Some (q "^[00m", KStop, TEXT) /\
  decode3 (q "^[mTEXT") = Some (q "^[m", KStop, TEXT) /\
  decode3 (q "^[12uTEXT") = Some (q "^[12u", KStop, TEXT) /\
  decode3 (q "^[uTEXT") = Some (q "^[u", KStop, TEXT) /\
  decode3 (q "^[12lTEXT") = Some (q "^[12l", KStop, TEXT) /\
  decode3 (q "^[lTEXT") = Some (q "^[l", KStop, TEXT) /\
  decode3 (q "^[1;2KTEXT") = Some (q "^[1;2K", KOther, TEXT) /\
  decode3 (q "^#4TEXT") = Some ([], KOther, q "^#4TEXT") /\
  decode3 (q "^[") = Some (q "^[", KOther, []) /\
  decode3 (q "^[;") = Some (q "^[;", KOther, []) /\
  decode3 (q "^") = Some ([], KOther, q "^") /\
  decode3 (q "^^^") = Some ([], KOther, q "^^^").
Proof. vm_compute. repeat split. Qed.
Example test_stripToken :
  (let tok := q "Lorem ipsum dolor ^[31;1;4msit amet," in
   match stripToken latinLow tok (zlen tok) with
   | Ret (mem, ss) => Some (map (fun s => (contents mem (s_text s), contents mem (s_start s), contents mem (s_stop s), contents mem (s_rem s))) ss)
   | Panic => None
   end) =
  Some [(q "Lorem ipsum dolor ", [], [], q "^[31;1;4msit amet,"); (q "sit amet,", q "^[31;1;4m", [], [])].
Proof. vm_compute. reflexivity. Qed.

(** ** terminal/runes/width_test.go, lookup_test.go *)
Definition one (t : text) : rune := match str_ t with [r] => r | _ => -1 end.
Definition widthTests : list (rune * (Z * Z * Z)) :=
  [(one "世", (2, 2, 2)); (one "界", (2, 2, 2)); (one "ｾ", (1, 1, 1)); (one "ｶ", (1, 1, 1)); (one "ｲ", (1, 1, 1)); (one "☆", (1, 2, 2));
   (one "☺", (1, 1, 2)); (one "☻", (1, 1, 2)); (one "♥", (1, 2, 2)); (one "♦", (1, 1, 2)); (one "♣", (1, 2, 2)); (one "♠", (1, 2, 2));
   (one "♂", (1, 2, 2)); (one "♀", (1, 2, 2)); (one "♪", (1, 2, 2)); (one "♫", (1, 1, 2)); (one "☼", (1, 1, 2)); (one "↕", (1, 2, 2));
   (one "‼", (1, 1, 2)); (one "↔", (1, 2, 2)); (0, (0, 0, 0)); (1, (0, 0, 0)); (0x0300, (0, 0, 0)); (0x2028, (0, 0, 0)); (0x2029, (0, 0, 0));
   (one "a", (1, 1, 1)); (one "⟦", (1, 1, 1)); (one "👁", (1, 1, 2)); (one "ö", (1, 1, 1)); (one "ä", (1, 1, 1)); (one "æ", (1, 2, 2));
   (one "ø", (1, 2, 2)); (0x212b, (1, 2, 2)); (one "å", (1, 1, 1)); (one "⸺", (3, 3, 3)); (0x2e3b, (4, 4, 4))].
Example test_width :
  map (fun x => (width (fst x) [], width (fst x) [WithEastAsian true], width (fst x) [WithEastAsian true; WithSkipStrictEmojiNeutral true])) widthTests =
  map (fun x => let '(a, b, c) := snd x in (Ret a, Ret b, Ret c)) widthTests.
Proof. vm_compute. reflexivity. Qed.
Example test_width_direct :
  map (fun x => (runeWidth (fst x) (mkWopts false false 0), runeWidth (fst x) (mkWopts true false 2), runeWidth (fst x) (mkWopts true true 2))) widthTests =
  map (fun x => let '(a, b, c) := snd x in (Ret a, Ret b, Ret c)) widthTests.
Proof. vm_compute. reflexivity. Qed.
Example test_width_invalid : width runeError [] = Ret 0 /\ width 0x0FFFFFFF [] = Ret 0.
Proof. vm_compute. repeat split. Qed.
Example test_width_ambiguous :
  width (0x212b) [WithEastAsian true; WithEastAsianAmbiguousWidth 2] = Ret 2 /\
  width (0x212b) [WithEastAsian true; WithEastAsianAmbiguousWidth 1] = Ret 1.
Proof. vm_compute. repeat split. Qed.
(** the rainbow flag: 14 bytes, 4 runes, not of width 2 *)
Example test_width_grapheme :
  let g := [0x1F3F3; 0xFE0F; 0x200D; 0x1F308] in
  zlen (runesBytes g []) = 14 /\ runesOf (runesBytes g []) = g /\ stringWidth (runesBytes g []) [] <> Ret 2.
Proof. vm_compute. repeat split. discriminate. Qed.
Example test_ambiguous : isAmbiguous (one "ø") = Ret true /\ isAmbiguous (0x212b) = Ret true /\ isAmbiguous (one "æ") = Ret true /\
  isAmbiguous (one "å") = Ret false.
Proof. vm_compute. repeat split. Qed.

(** ** terminal/runes/fields_test.go, wordbreak/tokenizer/tokenizer_test.go, wordbreak/punctuator/punctuator_test.go *)
Example test_fields :
  fieldsFunc (q "a1|b22|c333||||e4444|||g") (Z.eqb 124) = Ret (map q ["a1"; "b22"; "c333"; "e4444"; "g"]) /\
  fieldsFunc (q "||a|b|c|||e||g|||") (Z.eqb 124) = Ret (map q ["a"; "b"; "c"; "e"; "g"]).
Proof. vm_compute. repeat split. Qed.
Example test_tokenizer :
  tokenizerBreakWord (q "a1 b22" ++ 9 :: q "c333" ++ 10 :: 10 :: 13 :: q "e4444  " ++ 12 :: q " g") = Ret (map q ["a1"; "b22"; "c333"; "e4444"; "g"]) /\
  tokenizerBreakWord (32 :: 10 :: q "a b" ++ 9 :: q "c" ++ 10 :: 10 :: 13 :: q "e  " ++ 12 :: q " g  ") = Ret (map q ["a"; "b"; "c"; "e"; "g"]).
Proof. vm_compute. repeat split. Qed.
Example test_punctuator :
  punctuatorBreakWord latinLow (q "a/b/c|d.e_foo\g&") = Ret (map q ["a"; "/"; "b"; "/"; "c"; "|"; "d"; "."; "e"; "_"; "foo"; "\"; "g"; "&"]) /\
  punctuatorBreakWord latinLow (q ",foo") = Ret (map q [","; "foo"]) /\
  punctuatorBreakWord latinLow (q "foo,") = Ret (map q ["foo"; ","]) /\
  punctuatorBreakWord latinLow (q "foo,,") = Ret (map q ["foo"; ","; ","]) /\
  forallb (fun r => punctSplitFunc latinLow r && isPunctuation latinLow [r]) (q "/_.&!|") = true /\
  existsb (isPunctuation latinLow) [q "aa"; q ",,"; []; q "-"; [0xAD]] = false.
Proof. vm_compute. repeat split. Qed.

(** ** terminal/runes/runesio/slice_reader_test.go, writer_test.go *)
Definition rd (t : text) : reader := newReader (mkSlice (str_ t) []).
Definition runs (t : text) (ops : list rop) : list rout := snd (rrun (rd t) ops).
Example test_reader :
  runs "longstring" (repeat ORead 11) = map (fun r => RRead r 1 false) (q "longstring") ++ [RRead runeError 0 true] /\
  runs "longstring" [OSeek 10 0; ORead] = [RSeek (Some 10); RRead runeError 0 true] /\
  runs "longstring" [OSeek 10 0; ORead; OSeek 1 0; ORead; ORead; OSeek 1 1; ORead; OSeek (-1) 2; ORead] =
    [RSeek (Some 10); RRead runeError 0 true; RSeek (Some 1); RRead (one "o") 1 false; RRead (one "n") 1 false; RSeek (Some 4); RRead (one "s") 1 false;
     RSeek (Some 9); RRead (one "g") 1 false] /\
  runs "longstring" [OSeek (-1) 0; OSeek 11 0; OSeek 11 1] = [RSeek None; RSeek None; RSeek None].
Proof. vm_compute. repeat split. Qed.
Example test_slices :
  runs "unixöperatingsystem" [OBytes [1; 4]; OBytes [4; 8; 10; 12]; OSlices [1; 4]; OSlices [4; 8; 10; 12]; OSlice 1 4; OSlice 4 8;
      OBytes [4; 10; 12]; OSlices [4; 8; 10]; ORead; ORead; ORead; ORead; ORead; ORunes] =
    [RGroups [q "nix"]; RGroups [q "öpe"; q "ti"]; RGroups [q "nix"]; RGroups [q "öper"; q "in"]; RRunes (q "nix"); RRunes (q "öper");
     RPanic; RPanic] ++ map (fun r => RRead r 1 false) (q "unix") ++ [RRead (one "ö") 2 false; RRunes (q "peratingsystem")].
Proof. vm_compute. reflexivity. Qed.
(** a buffer *)
Definition buffer : iowriter := mkWriter (list byte) unit (fun s bs => (s ++ bs, (zlen bs, None))).
Example test_writer :
  let x := writeRune buffer [] 97 in let y := writeRunes buffer (fst x) [97; 98; 99] in let z := writeRunes buffer (fst y) (q "é🏈") in
  x = (textBytes "a", (1, None)) /\ y = (textBytes "aabc", (3, None)) /\ z = (textBytes "aabcé🏈", (6, None)).
Proof. vm_compute. repeat split. Qed.

(** ** wordbreak/hyphenator/internal/trie/trie_test.go *)
Definition keys : list (list rune) := map q ["fish"; "/cat"; "/dog"; "/cats"; "/caterpillar"; "/cat/gideon"; "/cat/giddy"].
Example test_trie :
  snd (runOps newTrie (map (fun k => OGet k) keys ++ map (fun k => OPut k 7%nat) keys ++
      map (fun x => OPut (fst x) (snd x)) (combine keys (seq 0 7)) ++ map (fun k => OGet k) keys ++ map (fun k => ODelete k) keys ++
      map (fun k => ODelete (firstn 1 k)) keys ++ map (fun k => OGet k) keys)) =
  repeat (AVal None) 7 ++ repeat (ABool true) 7 ++ repeat (ABool false) 7 ++ map (fun i => AVal (Some i)) (seq 0 7) ++ repeat (ABool true) 7 ++
    repeat (ABool false) 7 ++ repeat (AVal None) 7.
Proof. vm_compute. reflexivity. Qed.
Definition nilTrie : trie nat := fst (put (fst (put (fst (put newTrie (q "/cat") (Some 1%nat))) (q "/catamaran") (Some 2%nat))) (q "/caterpillar") None).
Example test_trie_nil :
  snd (put (newTrie : trie nat) (q "/cat") (Some 1%nat)) = true /\
  snd (put (fst (put newTrie (q "/cat") (Some 1%nat))) (q "/catamaran") (Some 2%nat)) = true /\
  snd (put (fst (put (fst (put newTrie (q "/cat") (Some 1%nat))) (q "/catamaran") (Some 2%nat))) (q "/caterpillar") None) = true /\
  map (get nilTrie) (map q ["/"; "/c"; "/ca"; "/caterpillar"; "/other"]) = repeat None 5.
Proof. vm_compute. repeat split. Qed.
Example test_trie_root :
  snd (runOps newTrie [OGet []; OPut [] 0%nat; OPut [] 1%nat; OGet []; ODelete []; OGet []]) =
    [AVal None; ABool true; ABool false; AVal (Some 1%nat); ABool true; AVal None] /\
  isLeaf (newTrie : trie nat) = true /\ isLeaf (fst (put newTrie [] (Some 0%nat))) = true.
Proof. vm_compute. repeat split. Qed.

(** ** attributes/state_test.go *)
Definition nested : list attr :=
  map (fun x => let '(t, s, e) := x in newAttr (q t) (q s) (q e))
    [("first", "^[start1", ""); ("second", "", ""); ("third", "^[start2", ""); ("fourth", "", "^[stop2"); ("fifth", "", "^[stop1"); ("sixth", "", "")].
Example test_state :
  let s := pushAll newState (map Some nested) in
  length s = 6%nat /\ map (fun a => (a_text a, a_level a)) (firstn 2 s) = [(q "first", 1); (q "second", 1)] /\
  length (fst (visit 7 s (iterator s))) = 6%nat.
Proof. vm_compute. repeat split. Qed.
