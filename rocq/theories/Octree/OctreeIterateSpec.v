(** Specification vocabulary for iteration over an octree. *)
From Coq Require Import Reals.
From Verif.Base Require Import ZRange.
From Verif.Functor Require Import SortModel SortSpec.
From Verif.Grid Require Import CellBlockSpec.
From Verif.Container Require Import IteratorModel IteratorSpec IteratorGenericModel.
From Verif.Octree Require Import DirectionModel OctreeModel OctreeSpec OctreeIteratorModel.
Local Open Scope Z_scope.

(** Trees the container can get: starting with an empty leaf, particles in the box are inserted
    and particles are deleted. *)
Inductive storedIn {P} (pos : P -> R3) (rnd : R -> R) (threshold : nat) (il : R) (lo hi : R3) : Tree P -> Prop :=
| storedEmpty : storedIn pos rnd threshold il lo hi (Leaf lo hi [])
| storedInsert t p fuel t' : storedIn pos rnd threshold il lo hi t -> inBox lo hi (pos p) ->
    insert pos rnd threshold il fuel t p = Some t' -> storedIn pos rnd threshold il lo hi t'
| storedDelete t k i t' : storedIn pos rnd threshold il lo hi t ->
    changeBelow t k (fun ps => swapDelete ps i) = Some t' -> storedIn pos rnd threshold il lo hi t'.

(** The same with particles that move all the time and may be anywhere: every insertion sees
    other positions. *)
Inductive grownIn {P} (rnd : R -> R) (threshold : nat) (il : R) (lo hi : R3) : Tree P -> Prop :=
| grownEmpty : grownIn rnd threshold il lo hi (Leaf lo hi [])
| grownInsert pos t p fuel t' : grownIn rnd threshold il lo hi t ->
    insert pos rnd threshold il fuel t p = Some t' -> grownIn rnd threshold il lo hi t'
| grownDelete t k i t' : grownIn rnd threshold il lo hi t ->
    changeBelow t k (fun ps => swapDelete ps i) = Some t' -> grownIn rnd threshold il lo hi t'.

(** The tree of owned particles has no halo particles and the other one no owned ones. *)
Definition otPlaced {P} (ownership : P -> Z) (ts : Trees P) : Prop :=
  (forall x, In x (collectAllParticles (fst ts)) -> validState (ownership x) /\ ownership x <> 2) /\
  (forall x, In x (collectAllParticles (snd ts)) -> validState (ownership x) /\ ownership x <> 1).

Fixpoint depth {P} (t : Tree P) : nat :=
  match t with Leaf _ _ _ => 0%nat | Inner _ _ cs => S (fold_right (fun c n => Nat.max (depth c) n) 0%nat cs) end.
(** The decimal numbers of the leaves fit into a size_t.  There are not more particles and leaves
    than a computer has memory for. *)
Definition otFits {P} (T : nat) (ts : Trees P) : Prop :=
  (depth (fst ts) <= 18)%nat /\ (depth (snd ts) <= 18)%nat /\
  size (collectAllParticles (fst ts)) < sizeMax /\ size (collectAllParticles (snd ts)) < sizeMax /\
  Z.of_nat T * Z.of_nat (countLeaves (fst ts) + countLeaves (snd ts)) < sizeMax.

(** All particles in the trees and the buffers. *)
Definition otContents {P} (st : GStore P (Trees P)) : list P :=
  collectAllParticles (fst (gContainer st)) ++ collectAllParticles (snd (gContainer st)) ++ concat (gBuffers st).

(** What iteration promises, as [iterationCorrectBy]. *)
Definition otIterationCorrect {P} (ownership : P -> Z) (behavior : Z) (nOwned T : nat) (region : P -> bool)
    (access : Z -> Access P (Trees P)) (conf : Z -> Conf P) (decide : Z -> list P -> P -> bool) (st : GStore P (Trees P))
    (schedule : list nat) : Prop :=
  let asked x := region x && wantedb behavior (ownership x) in
  exists st' ths, gRunParallel access conf (gatherBuffers behavior nOwned) decide schedule st (repeat NotStarted T) = Some (st', ths) /\
    ((forall t, (t < T)%nat -> (length (otContents st) + 1 < count_occ Nat.eq_dec schedule t)%nat) -> Forall finished ths) /\
    (Forall finished ths -> Permutation (visited T ths) (filter asked (otContents st))) /\
    ((forall t seen x, decide t seen x = false) -> st' = st) /\
    Permutation (otContents st) (deletedParticles decide T ths ++ otContents st').

(** As [iterationOrRestartBy]. *)
Definition otIterationOrRestart {P} (ownership : P -> Z) (behavior : Z) (nOwned T : nat) (region : P -> bool)
    (access : Z -> Access P (Trees P)) (conf : Z -> Conf P) (d : P -> bool) (st : GStore P (Trees P)) (schedule : list nat) : Prop :=
  let asked x := region x && wantedb behavior (ownership x) in
  exists st' ths, gRunParallel access conf (gatherBuffers behavior nOwned) (fun _ _ x => d x) schedule st (repeat NotStarted T) = Some (st', ths) /\
    ((forall t, (t < T)%nat -> (2 * length (otContents st) + 1 < count_occ Nat.eq_dec schedule t)%nat) -> Forall finished ths) /\
    (Forall finished ths ->
      (exists again never, Permutation (visited T ths) (filter asked (otContents st) ++ again) /\
         Permutation (again ++ never) (filter (fun x => negb (d x)) (filter asked (otContents st)))) /\
      Permutation (otContents st) (filter d (filter asked (otContents st)) ++ otContents st')).
