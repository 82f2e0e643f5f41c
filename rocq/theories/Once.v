(** Concurrent use of the width cache: sync.Once guarding the construction of [lookupTable]
    (terminal/runes/lookup.go:24-56, terminal/runes/width.go:30,51).

    Any number of goroutines; each runs a list of default-mode calls (East-Asian calls never touch the
    shared state). Steps interleave arbitrarily; memory is sequentially consistent, which is what the
    happens-before edges of sync.Once (atomic load/store, mutex) give to these accesses. *)
From Verif Require Import Base Tables Width.

Inductive call := CWidth (r : rune) | CWidths (rs : list rune).

(** Where a goroutine stands inside a call. The first group follows Go's sync.Once:
    [Do]: if done.Load()==0 { doSlow }; [doSlow]: Lock; if done==0 { f(); done.Store(1) }; Unlock. *)
Inductive pc :=
| PIdle                                    (* between calls *)
| PFast (c : call)                         (* about to load done *)
| PLock (c : call)                         (* waiting for the mutex *)
| PCheck (c : call)                        (* mutex held: about to re-load done *)
| PBuild (c : call) (n : Z)                (* running initLookupTable, local slice filled up to n *)
| PStore (c : call)                        (* lookupTable assigned: about to store done *)
| PUnlock (c : call)                       (* about to release the mutex *)
| PSum (c : call) (rs : list rune) (acc : Z)  (* reading the table rune by rune *)
| PFail (c : call).                        (* the goroutine panicked *)

Record thread := mkThread { t_pc : pc; t_todo : list call; t_res : list (call * Z) }.

Record state := mkState {
  st_done : bool;
  st_mutex : option nat;
  st_table : Z -> go Z;       (* global lookupTable as an indexing function; nil panics *)
  st_builds : nat;            (* ghost: number of times initLookupTable was started *)
  st_threads : nat -> thread
}.

Definition nilTable : Z -> go Z := fun _ => Panic.

(** The local slice of [buildLookupTable] after [n] iterations (terminal/runes/lookup.go:40-53). *)
Definition partialTable (n : Z) : Z -> go Z :=
  fun i => if (0 <=? i) && (i <? lookupSize)
           then (if i <? n then lookupEntry (optionsWithDefaults []) i else Ret 0)
           else Panic.

Definition updT (f : nat -> thread) (k : nat) (t : thread) : nat -> thread :=
  fun j => if Nat.eqb j k then t else f j.

Definition setT (s : state) (k : nat) (t : thread) : state :=
  mkState (st_done s) (st_mutex s) (st_table s) (st_builds s) (updT (st_threads s) k t).

Definition withPc (t : thread) (p : pc) : thread := mkThread p (t_todo t) (t_res t).

(** Runes to look up for a call, or the result when the cache is not consulted
    (terminal/runes/width.go:17-23). *)
Definition callRunes (c : call) : list rune := match c with CWidth r => [r] | CWidths rs => rs end.
Definition early (c : call) : option Z :=
  match c with
  | CWidth r => if negb (validRune r) || (r =? runeError) then Some 0
                else if r =? 0x2e3b then Some 4 else None
  | CWidths _ => None
  end.

(** One step of goroutine [k]. *)
Inductive step (s : state) (k : nat) : state -> Prop :=
| step_early c todo res w :
    st_threads s k = mkThread PIdle (c :: todo) res -> early c = Some w ->
    step s k (setT s k (mkThread PIdle todo (res ++ [(c, w)])))
| step_call c todo res :
    st_threads s k = mkThread PIdle (c :: todo) res -> early c = None ->
    step s k (setT s k (mkThread (PFast c) todo res))
| step_fast_done c :
    t_pc (st_threads s k) = PFast c -> st_done s = true ->
    step s k (setT s k (withPc (st_threads s k) (PSum c (callRunes c) 0)))
| step_fast_miss c :
    t_pc (st_threads s k) = PFast c -> st_done s = false ->
    step s k (setT s k (withPc (st_threads s k) (PLock c)))
| step_lock c :
    t_pc (st_threads s k) = PLock c -> st_mutex s = None ->
    step s k (mkState (st_done s) (Some k) (st_table s) (st_builds s)
                      (updT (st_threads s) k (withPc (st_threads s k) (PCheck c))))
| step_check_done c :
    t_pc (st_threads s k) = PCheck c -> st_done s = true ->
    step s k (setT s k (withPc (st_threads s k) (PUnlock c)))
| step_check_miss c :
    t_pc (st_threads s k) = PCheck c -> st_done s = false ->
    step s k (mkState (st_done s) (st_mutex s) (st_table s) (S (st_builds s))
                      (updT (st_threads s) k (withPc (st_threads s k) (PBuild c 0))))
| step_build c n :
    t_pc (st_threads s k) = PBuild c n -> n < lookupSize ->
    step s k (setT s k (withPc (st_threads s k) (PBuild c (n + 1))))
| step_publish c n :
    t_pc (st_threads s k) = PBuild c n -> lookupSize <= n ->
    step s k (mkState (st_done s) (st_mutex s) (partialTable n) (st_builds s)
                      (updT (st_threads s) k (withPc (st_threads s k) (PStore c))))
| step_store c :
    t_pc (st_threads s k) = PStore c ->
    step s k (mkState true (st_mutex s) (st_table s) (st_builds s)
                      (updT (st_threads s) k (withPc (st_threads s k) (PUnlock c))))
| step_unlock c :
    t_pc (st_threads s k) = PUnlock c ->
    step s k (mkState (st_done s) None (st_table s) (st_builds s)
                      (updT (st_threads s) k (withPc (st_threads s k) (PSum c (callRunes c) 0))))
| step_read c r rs acc b w :
    t_pc (st_threads s k) = PSum c (r :: rs) acc ->
    st_table s (Z.shiftr r 2) = Ret b -> unpack b r = Ret w ->
    step s k (setT s k (withPc (st_threads s k) (PSum c rs (acc + w))))
| step_read_panic c r rs acc :
    t_pc (st_threads s k) = PSum c (r :: rs) acc ->
    (let! b := st_table s (Z.shiftr r 2) in unpack b r) = Panic ->
    step s k (setT s k (withPc (st_threads s k) (PFail c)))
| step_return c acc todo res :
    st_threads s k = mkThread (PSum c [] acc) todo res ->
    step s k (setT s k (mkThread PIdle todo (res ++ [(c, acc)]))).

(** Program start: nothing built, each goroutine has its list of calls. *)
Definition start (progs : nat -> list call) : state :=
  mkState false None nilTable 0 (fun k => mkThread PIdle (progs k) []).

Inductive reachable (progs : nat -> list call) : state -> Prop :=
| reach_start : reachable progs (start progs)
| reach_step s k s' : reachable progs s -> step s k s' -> reachable progs s'.
