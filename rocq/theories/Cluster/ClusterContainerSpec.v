(** Vocabulary for iteration over the cluster lists. *)
From Coq Require Import Reals.
From Verif.Base Require Import ZRange.
From Verif.Functor Require Import SortModel.
From Verif.Grid Require Import CellBlockSpec.
From Verif.Container Require Import IteratorModel IteratorContainers IteratorSpec.
From Verif.Cluster Require Import BlockModel.
Local Open Scope Z_scope.

(** A grid for at least one particle, with equally many halo towers in x and y (the code
    warns if they differ). *)
Definition regularGrid (g : Grid) : Prop :=
  exists bMin bMax il opt, g = estimatedGrid bMin bMax il opt /\ below bMin bMax /\ (0 < il)%R /\ (0 < opt)%R /\
    haloTowers il (sideLength (rx bMax - rx bMin) opt) = haloTowers il (sideLength (ry bMax - ry bMin) opt).

(** Before the first rebuild: one tower, the sizes of the grid are 0. *)
Definition initialGrid (bMin bMax : R3) (il : R) : Grid := mkGrid bMin bMax il 0 0 0 0 0.

(** The particles in the towers: particle [x] was at [old x] when the towers were built.
    It was in the box of its tower then, and inside the box if it is owned.  Or there are
    no particles in the towers, either because nothing was built yet or because there were
    no particles. *)
Definition inTowers {P} (ownership : P -> Z) (old : P -> R3) (g : Grid) (towers : list (list P)) : Prop :=
  (regularGrid g /\ size towers = gNX g * gNY g /\ size towers < sizeMax /\
   forall c l, at_ towers c = Some l -> size l < sizeMax /\
     forall x, In x l -> validState (ownership x) /\
       inBox (towerLo g (c mod gNX g) (c / gNX g)) (towerHi g (c mod gNX g) (c / gNX g)) (old x) /\
       (ownership x = 1 -> inBox (gMin g) (gMax g) (old x))) \/
  (towers = [[]] /\ exists bMin bMax il,
     (g = initialGrid bMin bMax il \/ (below bMin bMax /\ (0 < il)%R /\ g = emptyGrid bMin bMax il))).

(** The buffers: those of the logic handler, the first [nHandler], of which the first
    [nOwned] are for owned particles, and then the vectors of particles to add, which are
    empty if the container is valid. *)
Definition vclBuffers {P} (ownership : P -> Z) (nOwned nHandler : nat) (valid : bool) (bufs : list (list P)) : Prop :=
  validBuffers ownership nOwned (firstn nHandler bufs) /\ (nHandler <= length bufs)%nat /\ size bufs < sizeMax /\
  (forall l, In l bufs -> size l < sizeMax) /\
  (forall l x, In l (skipn nHandler bufs) -> In x l -> validState (ownership x)) /\
  (valid = true -> forall l, In l (skipn nHandler bufs) -> l = []).
