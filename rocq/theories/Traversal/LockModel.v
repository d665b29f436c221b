(** Interleaving semantics of the parallel loop over slices,
    SlicedLockBasedTraversal.h:93-146: every iteration (slice) is executed by one
    thread from its first to its last action; different slices interleave
    arbitrarily.  Locks are AutoPasLock (utils/WrapOpenMP.h:72-112): lock()
    blocks while the lock is held by somebody, unlock() must be called by the
    holder.  OpenMP scheduling (which thread executes which slice and when a
    slice is started) is arbitrary: [StepStart] may fire for any slice at any
    time, a superset of the static and dynamic schedules. *)
From Verif.Base Require Import ZRange.
From Verif.Traversal Require Import SliceModel.

Record SState := mkSState {
  started : Z -> bool;
  todo : Z -> list Act;
  owner : Z -> option Z;
}.

Definition upd {A} (f : Z -> A) (k : Z) (v : A) : Z -> A := fun j => if j =? k then v else f j.

Definition initState (prog : Z -> list Act) : SState := mkSState (fun _ => false) prog (fun _ => None).

(** [step n st s ev st']: slice [s] makes a step; [ev] is the layer whose
    processing is finished by the step, if any. *)
Inductive step (n : Z) : SState -> Z -> option Z -> SState -> Prop :=
| StepStart st s : 0 <= s < n -> started st s = false ->
    step n st s None (mkSState (upd (started st) s true) (todo st) (owner st))
| StepLock st s i rest : 0 <= s < n -> started st s = true -> todo st s = Lock i :: rest -> owner st i = None ->
    step n st s None (mkSState (started st) (upd (todo st) s rest) (upd (owner st) i (Some s)))
| StepUnlock st s i rest : 0 <= s < n -> started st s = true -> todo st s = Unlock i :: rest -> owner st i = Some s ->
    step n st s None (mkSState (started st) (upd (todo st) s rest) (upd (owner st) i None))
| StepProc st s l rest : 0 <= s < n -> started st s = true -> todo st s = Proc l :: rest ->
    step n st s (Some l) (mkSState (started st) (upd (todo st) s rest) (owner st)).

(** [reach n st0 k done st]: [st] can be reached from [st0] in [k] steps, in which
    the layers [done] have been processed (latest first). *)
Inductive reach (n : Z) (st0 : SState) : nat -> list Z -> SState -> Prop :=
| ReachInit : reach n st0 0 [] st0
| ReachStep k d st s ev st' : reach n st0 k d st -> step n st s ev st' ->
    reach n st0 (S k) (match ev with Some l => l :: d | None => d end) st'.

(** Slice [s] is processing layer [l] (or about to). *)
Definition processing (st : SState) (s l : Z) : Prop :=
  started st s = true /\ exists rest, todo st s = Proc l :: rest.

Definition unfinished (st : SState) (s : Z) : Prop := started st s = true /\ todo st s <> [].

Definition allDone (n : Z) (st : SState) : Prop := forall s, 0 <= s < n -> todo st s = [].
