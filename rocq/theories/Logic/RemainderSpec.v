(** Specification vocabulary for the remainder traversal. *)
From Coq Require Import Reals.
From Coq Require Import ZArith List.
From Verif.Functor Require Import SortModel.
From Verif.Container Require Import ParticleModel.
Import ListNotations.
Open Scope R_scope.

(** [x] is in the half-open cube around [c]. *)
Definition inCube (cutoff : R) (c x : R3) : Prop :=
  (rx c - cutoff <= rx x < rx c + cutoff) /\ (ry c - cutoff <= ry x < ry c + cutoff) /\ (rz c - cutoff <= rz x < rz c + cutoff).

(** Closer than the cutoff. *)
Definition closer (cutoff : R) (a b : R3) : Prop :=
  (rx a - rx b) * (rx a - rx b) + (ry a - ry b) * (ry a - ry b) + (rz a - rz b) * (rz a - rz b) < cutoff * cutoff.

(** What the remainder traversal owes the user: no force is added twice, and between
    two particles closer than the cutoff, the first one owned, the second one not
    deleted, the force is added exactly if one of them is in a buffer.  (The forces
    between particles in the container are up to the traversal of the container.)
    [pairs] are the (target, source) pairs handed to the functor, in [buffered] are
    the particles in buffers, in [contained] those in the container. *)
Definition remainderCorrect (cutoff : R) (buffered contained : list Particle) (pairs : list (Particle * Particle)) : Prop :=
  NoDup pairs /\
  (forall t s, In t (buffered ++ contained) -> In s (buffered ++ contained) -> t <> s ->
    pown t = 1%Z -> pown s <> 0%Z -> closer cutoff (ppos t) (ppos s) ->
    (In (t, s) pairs <-> In t buffered \/ In s buffered)) /\
  forall p, pown p = 1%Z -> ~ In (p, p) pairs.
