(** C50: the octree traversals end to end.  [old] are the positions at which the
    particles were inserted, [pos] the current ones; [s] bounds twice the distance every
    particle moved since.  [t] is the tree of the particles [ownedPs], [u] the tree of
    the particles [haloPs]; [order] is the order in which a set of leaves is iterated. *)
From Coq Require Import Reals Lra Permutation.
From Verif.Base Require Import ZRange.
From Verif.Functor Require Import CellFunctorModel FunctorSpec SortModel SortSpec.
From Verif.Grid Require Import CellBlockSpec.
From Verif.Container Require Import LinkedCellsSpec LinkedCellsExample.
From Verif.Octree Require Import DirectionModel OctreeModel OctreeSpec OctreeTraversalModel OctreeTraversal.

(** OTC18 (with Newton 3), in arithmetic with error [eps]: the functor is called at
    most once for every pair of particles, exactly once for a pair within the cutoff one
    of which is owned, and never for two halo particles. *)
Theorem C50_c18 : forall (P : Type) (pid : P -> Z) (isHalo : P -> bool) (pos old : P -> R3) (view : R3 -> list P -> list P)
    (rnd : R -> R) (threshold : nat) (il M eps cutoff s : R) (bMin bMax hMin hMax : R3) (ownedPs haloPs : list P) (t u : Tree P)
    (order : list Path -> list Path) (cf : CFSettings),
  (forall dir l, isSortedView pos dir l (view dir l)) -> (forall l, Permutation l (order l)) ->
  precise rnd M eps il bMin bMax -> precise rnd M eps il hMin hMax ->
  builtBy old rnd threshold il bMin bMax ownedPs t -> builtBy old rnd threshold il hMin hMax haloPs u ->
  wideBox il hMin hMax -> (il <= M)%R -> distinctIds pid (ownedPs ++ haloPs) -> movedAtMost old pos s (ownedPs ++ haloPs) ->
  (cutoff + s <= il - 3 * eps)%R -> useNewton3 cf = true ->
  let calls := otInteract isHalo pos view t u cf cutoff (otC18 t u order rnd il) in
  forall a c, In a (ownedPs ++ haloPs) -> In c (ownedPs ++ haloPs) -> a <> c ->
    (received pid calls a c <= 1)%nat /\
    (In a ownedPs \/ In c ownedPs -> (dist3 (pos a) (pos c) <= cutoff)%R -> received pid calls a c = 1%nat) /\
    (In a haloPs -> In c haloPs -> received pid calls a c = 0%nat).
Proof.
  intros P pid isHalo pos old view rnd threshold il M eps cutoff s bMin bMax hMin hMax ownedPs haloPs t u order cf H1 H2 H3 H4 H5 H6 H7 H8 H9 H10 H11 N calls a c Ia Ic Hne.
  exact (ot_c18 pid isHalo pos old view rnd threshold il M eps cutoff s bMin bMax hMin hMax ownedPs haloPs t u order cf H1 H2 H3 H4 H5 H6 H7 H8 H9 H10 H11 a c N Ia Ic Hne).
Qed.
Print Assumptions C50_c18.

(** OTC01 (without Newton 3): every owned particle receives the contribution of every
    particle within the cutoff exactly once, no particle any contribution twice, and
    halo particles receive nothing. *)
Theorem C50_c01 : forall (P : Type) (pid : P -> Z) (isHalo : P -> bool) (pos old : P -> R3) (view : R3 -> list P -> list P)
    (rnd : R -> R) (threshold : nat) (il M eps cutoff s : R) (bMin bMax hMin hMax : R3) (ownedPs haloPs : list P) (t u : Tree P)
    (order : list Path -> list Path) (cf : CFSettings),
  (forall dir l, isSortedView pos dir l (view dir l)) -> (forall l, Permutation l (order l)) ->
  precise rnd M eps il bMin bMax -> precise rnd M eps il hMin hMax ->
  builtBy old rnd threshold il bMin bMax ownedPs t -> builtBy old rnd threshold il hMin hMax haloPs u ->
  wideBox il hMin hMax -> (il <= M)%R -> distinctIds pid (ownedPs ++ haloPs) -> movedAtMost old pos s (ownedPs ++ haloPs) ->
  (cutoff + s <= il - 3 * eps)%R -> useNewton3 cf = false -> bidirectional cf = false ->
  let calls := otInteract isHalo pos view t u cf cutoff (otC01 t u order rnd il) in
  forall a c, In a (ownedPs ++ haloPs) -> In c (ownedPs ++ haloPs) -> a <> c ->
    (received pid calls a c <= 1)%nat /\
    (In a ownedPs -> isHalo a = false -> (dist3 (pos a) (pos c) <= cutoff)%R -> received pid calls a c = 1%nat) /\
    (In a haloPs -> received pid calls a c = 0%nat).
Proof.
  intros P pid isHalo pos old view rnd threshold il M eps cutoff s bMin bMax hMin hMax ownedPs haloPs t u order cf H1 H2 H3 H4 H5 H6 H7 H8 H9 H10 H11 N B calls a c Ia Ic Hne.
  exact (ot_c01 pid isHalo pos old view rnd threshold il M eps cutoff s bMin bMax hMin hMax ownedPs haloPs t u order cf H1 H2 H3 H4 H5 H6 H7 H8 H9 H10 H11 a c N B Ia Ic Hne).
Qed.
Print Assumptions C50_c01.

(** The precision hypotheses hold in exact arithmetic; then the cutoff may be all of the
    interaction length minus [s].  For doubles see C41_double_is_precise. *)
Theorem C50_exact_is_precise : forall il lo hi lo' hi', (0 < il)%R -> below lo hi -> below lo' hi' ->
  exists M, precise rndExact M 0 il lo hi /\ precise rndExact M 0 il lo' hi' /\ (il <= M)%R.
Proof. exact exact_common. Qed.
Print Assumptions C50_exact_is_precise.

(** Box [0,4]^3, interaction length 1, s = 0.2: the owned particles 0 and 1 are in
    different leaves and within 0.8 of each other, the halo particle 2 is within 0.8 of
    particle 0. *)
Example C50_example :
  let bMin := mkR3 0 0 0 in let bMax := mkR3 4 4 4 in let hMin := mkR3 (-1) (-1) (-1) in let hMax := mkR3 5 5 5 in
  exists t u, builtBy exOOld rndExact 1 1 bMin bMax [0; 1]%Z t /\ builtBy exOOld rndExact 1 1 hMin hMax [2]%Z u /\
  (below bMin bMax /\ below hMin hMax /\ wideBox 1 hMin hMax) /\ distinctIds (fun p => p) ([0; 1] ++ [2])%Z /\
  movedAtMost exOOld exOPos (1 / 5) ([0; 1] ++ [2])%Z /\ (dist3 (exOPos 0) (exOPos 1) <= 1 - 1 / 5)%R /\ (dist3 (exOPos 0) (exOPos 2) <= 1 - 1 / 5)%R /\
  (forall p l h c, leafAt t p l h c -> ~ (In 0%Z c /\ In 1%Z c)).
Proof. exact ot_example. Qed.
Example C50_example_view : forall dir l, isSortedView exOPos dir l (sortBy exOPos dir l).
Proof. apply sortBy_sorted. Qed.
