(** wordbreak/hyphenator/cache.go: any number of goroutines calling hyphenator.New (hyphenator.go:23-32).

    A call is the name of the pattern file its language resolves to. Dictionaries live at addresses of a heap, nil is
    [None]. Steps interleave arbitrarily; memory is sequentially consistent, which the mutex gives to these accesses. *)
From Verif Require Import Base Unicode Utf8 SpecTrie Trie Dict.

Definition fname := list rune.

(** The loop of [LoadPatterns] (dictionary.go:106-133) one line at a time; [exc]: in the inner loop, reading exceptions. *)
Definition loadLine (u : unicode) (line : str) (exc : bool) (d : dictionary) : dictionary * bool :=
  if exc then (mkDict (putRule (d_exceptions d) (readException u line)) (d_patterns d) (d_identifier d), true)
  else if hasPrefix line messageSection
  then (mkDict (d_exceptions d) (d_patterns d) (skipn (length messageSection) line), false)
  else if hasPrefix line exceptionsSection then (d, true)
  else if isTeXComment line then (d, false)
  else (mkDict (d_exceptions d) (fold_left putRule (map (readPattern u) (stringFields [] line)) (d_patterns d))
          (d_identifier d), false).

Inductive pc :=
| PIdle
| PLock (f : fname)                                           (* at mx.Lock() *)
| PInit (f : fname)                                           (* mutex held: about to test the nil map *)
| PLookup (f : fname)                                         (* about to read the map *)
| POpen (f : fname)                                           (* not found: about to open the file *)
| PLoad (f : fname) (p : nat) (lines : list str) (exc : bool) (* filling the dictionary at p *)
| PStore (f : fname) (v : option nat)                         (* about to write the map *)
| PUnlock (f : fname) (v : option nat)                        (* deferred Unlock *)
| PFail (f : fname).                                          (* the goroutine panicked *)

Record thread := mkThread { t_pc : pc; t_todo : list fname; t_res : list (fname * option nat) }.
Record state := mkState {
  st_mutex : option nat;
  st_map : option (list (fname * option nat));   (* loadedPatterns; None is the nil map *)
  st_heap : list dictionary;
  st_opened : list fname;                         (* ghost: the calls to LoadPatterns *)
  st_threads : nat -> thread
}.

Definition updT (f : nat -> thread) (k : nat) (t : thread) : nat -> thread := fun j => if Nat.eqb j k then t else f j.
Definition goTo (s : state) (k : nat) (p : pc) : nat -> thread :=
  updT (st_threads s) k (mkThread p (t_todo (st_threads s k)) (t_res (st_threads s k))).
Fixpoint setNth {A} (l : list A) (i : nat) (x : A) : list A :=
  match l, i with [], _ => [] | _ :: l', O => x :: l' | y :: l', S i' => y :: setNth l' i' x end.

(** "patterns: ", the default identifier (dictionary.go:101) *)
Definition defaultName (f : fname) : str := [112;97;116;116;101;114;110;115;58;32] ++ f.
Definition emptyDict (f : fname) : dictionary := mkDict newTrie newTrie (defaultName f).

Section Cache.
Variable u : unicode.
Variable files : fname -> option (list byte).   (* the embedded file system *)

(** One step of goroutine [k] (cache.go:14-30, dictionary.go:92-135). *)
Inductive step (s : state) (k : nat) : state -> Prop :=
| step_call f todo res :
    st_threads s k = mkThread PIdle (f :: todo) res ->
    step s k (mkState (st_mutex s) (st_map s) (st_heap s) (st_opened s) (updT (st_threads s) k (mkThread (PLock f) todo res)))
| step_lock f :
    t_pc (st_threads s k) = PLock f -> st_mutex s = None ->
    step s k (mkState (Some k) (st_map s) (st_heap s) (st_opened s) (goTo s k (PInit f)))
| step_make f :
    t_pc (st_threads s k) = PInit f -> st_map s = None ->
    step s k (mkState (st_mutex s) (Some []) (st_heap s) (st_opened s) (goTo s k (PLookup f)))
| step_made f m :
    t_pc (st_threads s k) = PInit f -> st_map s = Some m ->
    step s k (mkState (st_mutex s) (st_map s) (st_heap s) (st_opened s) (goTo s k (PLookup f)))
| step_found f m v :
    t_pc (st_threads s k) = PLookup f -> st_map s = Some m -> lookup m f = Some v ->
    step s k (mkState (st_mutex s) (st_map s) (st_heap s) (st_opened s) (goTo s k (PStore f v)))
| step_missing f :
    t_pc (st_threads s k) = PLookup f -> (forall m, st_map s = Some m -> lookup m f = None) ->
    step s k (mkState (st_mutex s) (st_map s) (st_heap s) (st_opened s) (goTo s k (POpen f)))
| step_open f bs :
    t_pc (st_threads s k) = POpen f -> files f = Some bs ->
    step s k (mkState (st_mutex s) (st_map s) (st_heap s ++ [emptyDict f]) (st_opened s ++ [f])
                      (goTo s k (PLoad f (length (st_heap s)) (scanLines bs) false)))
| step_open_err f :
    t_pc (st_threads s k) = POpen f -> files f = None ->
    step s k (mkState (st_mutex s) (st_map s) (st_heap s) (st_opened s ++ [f]) (goTo s k (PStore f None)))
| step_line f p line lines exc d :
    t_pc (st_threads s k) = PLoad f p (line :: lines) exc -> nth_error (st_heap s) p = Some d ->
    step s k (mkState (st_mutex s) (st_map s) (setNth (st_heap s) p (fst (loadLine u line exc d))) (st_opened s)
                      (goTo s k (PLoad f p lines (snd (loadLine u line exc d)))))
| step_loaded f p exc :
    t_pc (st_threads s k) = PLoad f p [] exc ->
    step s k (mkState (st_mutex s) (st_map s) (st_heap s) (st_opened s) (goTo s k (PStore f (Some p))))
| step_store f v m :
    t_pc (st_threads s k) = PStore f v -> st_map s = Some m ->
    step s k (mkState (st_mutex s) (Some (bind m f v)) (st_heap s) (st_opened s) (goTo s k (PUnlock f v)))
| step_store_nil f v :
    t_pc (st_threads s k) = PStore f v -> st_map s = None ->
    step s k (mkState (st_mutex s) (st_map s) (st_heap s) (st_opened s) (goTo s k (PFail f)))
| step_unlock f v todo res :
    st_threads s k = mkThread (PUnlock f v) todo res ->
    step s k (mkState None (st_map s) (st_heap s) (st_opened s)
                      (updT (st_threads s) k (mkThread PIdle todo (res ++ [(f, v)])))).

Definition start (progs : nat -> list fname) : state :=
  mkState None None [] [] (fun k => mkThread PIdle (progs k) []).
Inductive reachable (progs : nat -> list fname) : state -> Prop :=
| reach_start : reachable progs (start progs)
| reach_step s k s' : reachable progs s -> step s k s' -> reachable progs s'.
End Cache.
