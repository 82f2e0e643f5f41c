(** C99: LeftAlignUniform called by several goroutines. The model is in Shared.v: [steps w sched] runs the goroutines of [w] in the
    order [sched], one statement at a time; [answer lb c] is what the call [c] returns on its own. *)
From Coq Require Import String Ascii.
From Verif Require Import Base Arith ArithB64 Unicode Split SpecSplit Ansi SpecAnsi Hyph Nodes KP Render SpecKP Align Options Call Settings Reuse PropAlign Shared.
Open Scope Z_scope.

(** Any number of goroutines and line breakers: as long as no line breaker is used by two goroutines at a time, each call on plain
    tokens returns (or panics) as on a new line breaker. *)
Theorem C99_exclusive_partial : forall A u opts w0, starting A opts w0 -> plainCalls A w0 -> forall sched, exclusive A u w0 sched ->
  forall k c r, In (c, r) (g_results A (w_gos A (steps A u w0 sched) k)) -> r = answer A u (f_breaker A (w_breakers A w0 (c_on A c))) c.
Proof. exact shared_calls. Qed.
Print Assumptions C99_exclusive_partial.

Definition shCall (b : nat) (tokens : list string) (w : Z) : call B := mkCallOf B b (map txt tokens) (n w) (fun _ => []) (from 0).
Definition shWorld (calls : nat -> list (call B)) : world B :=
  mkWorld B (fun _ => mkFields B exB [] []) (fun k => mkGo B (Idle B) (calls k) []).
Definition shResults (w : world B) (k : nat) : list (result) := map snd (g_results B (w_gos B w k)).
Lemma sh_starting calls : starting B (fun _ => exO) (shWorld calls).
Proof.
  split; [|split; reflexivity]. intros b. cbn [shWorld w_breakers f_breaker].
  destruct (settings_new B BL ascii exO exM exPunct pairs ex_settings) as (sp & hy & E & _). unfold exB. rewrite E. reflexivity.
Qed.

(** goroutines 0 and 2 take turns on line breaker 0, goroutine 1 uses line breaker 1 *)
Definition shCalls (k : nat) : list (call B) :=
  match k with
  | 0%nat => [shCall 0 ["ab"; "cd"]%string 5; shCall 0 ["q"]%string 5]
  | 1%nat => [shCall 1 ["xy"; "z"; "abcdefg"]%string 5]
  | 2%nat => [shCall 0 ["cd"; "ef"; "g"]%string 2]
  | _ => []
  end.
Definition shSched : list nat := [0;1;0;1;0;1;0;1;0;1; 2;2;2;2;2; 0;0;0;0;0]%nat.
Example C99_ex : starting B (fun _ => exO) (shWorld shCalls) /\ plainCalls B (shWorld shCalls) /\ exclusive B ascii (shWorld shCalls) shSched /\
  shResults (steps B ascii (shWorld shCalls) shSched) 0 = [lines ["ab cd"]; lines ["q"]]%string /\
  shResults (steps B ascii (shWorld shCalls) shSched) 1 = [lines ["xy"; "z ab-"; "cdefg"]]%string /\
  shResults (steps B ascii (shWorld shCalls) shSched) 2 = [lines ["cd"; "ef"; "g"]]%string.
Proof.
  split; [apply sh_starting|]. split; [|split; [|repeat split; vm_compute; reflexivity]].
  - intros [|[|[|k]]]; repeat apply Forall_cons; try apply Forall_nil; apply plain_check; vm_compute; reflexivity.
  - apply noClash_ok with 3%nat; [reflexivity|]. vm_compute. reflexivity.
Qed.

(** Two goroutines sharing a line breaker: the first one gets the text of the second, and its own is lost; or it panics. *)
Definition twoCalls (k : nat) : list (call B) :=
  match k with 0%nat => [shCall 0 ["ab"; "cd"]%string 5] | 1%nat => [shCall 0 ["xy"]%string 5] | _ => [] end.
Theorem C99_shared_refuted : exists w sched1 sched2 c ls, starting B (fun _ => exO) w /\ plainCalls B w /\ g_todo B (w_gos B w 0) = [c] /\
  answer B ascii (f_breaker B (w_breakers B w (c_on B c))) c = Ret (Some ls) /\ ls = [txt "ab cd"] /\
  shResults (steps B ascii w sched1) 0 = [Ret (Some [txt "xy"])] /\ shResults (steps B ascii w sched2) 0 = [Panic].
Proof.
  exists (shWorld twoCalls), [0;0;1;1;0;0;0]%nat, [0;0;0;0;1;1;0]%nat, (shCall 0 ["ab"; "cd"]%string 5), [txt "ab cd"].
  split; [apply sh_starting|]. split; [|split; [|split; [|split; [|split]]]].
  - intros [|[|k]]; repeat apply Forall_cons; try apply Forall_nil; apply plain_check; vm_compute; reflexivity.
  - reflexivity.
  - vm_compute; reflexivity.
  - reflexivity.
  - vm_compute; reflexivity.
  - vm_compute; reflexivity.
Qed.
Print Assumptions C99_shared_refuted.
