(** * The search space: which configurations the user's options give

    Models src/autopas/tuning/utils/SearchSpaceGenerators.cpp, the compatibility of options
    (Configuration.cpp hasCompatibleValues, CompatibleTraversals.h, CompatibleLoadEstimators.h), and what
    these tables are about: the traversal classes with their isApplicable, the TraversalSelector that
    creates them, and the containers that accept or refuse them.

    Cell size factors and lengths are reals.  A std::set is a list without duplicates whose order is not
    modelled.  utils::ExceptionHandler::exception is taken to throw. *)

From Coq Require Import Reals List Bool String Arith ZArith.
From Flocq Require Import Core.Raux.
Import ListNotations.
Open Scope R_scope.

(** ContainerOption.h:23-71. *)
Inductive container : Set :=
| directSum | linkedCells | linkedCellsReferences | varVerletListsAsBuild | verletClusterLists
| verletLists | verletListsCells | pairwiseVerletLists | octree.

(** TraversalOption.h:25-180. *)
Inductive traversal : Set :=
| ds_sequential
| lc_c01 | lc_c01_combined_SoA | lc_c04 | lc_c04_HCP | lc_c04_combined_SoA | lc_c08 | lc_c18
| lc_sliced | lc_sliced_balanced | lc_sliced_c02
| ot_c01 | ot_c18
| vcl_c01_balanced | vcl_c06 | vcl_cluster_iteration | vcl_sliced | vcl_sliced_balanced | vcl_sliced_c02
| vl_list_iteration
| vlc_c01 | vlc_c18 | vlc_c08 | vlc_sliced | vlc_sliced_balanced | vlc_sliced_c02
| vlp_c01 | vlp_c18 | vlp_sliced | vlp_sliced_balanced | vlp_sliced_c02 | vlp_c08
| vvl_as_built.

(** LoadEstimatorOption.h:23-36, DataLayoutOption.h, Newton3Option.h, InteractionTypeOption.h:28-42. *)
Inductive loadEstimator : Set := leNone | squaredParticlesPerCell | neighborListLength.
Inductive dataLayout : Set := aos | soa.
Inductive newton3 : Set := n3Disabled | n3Enabled.
Inductive interaction : Set := pairwise | triwise | allInteractions.

Definition container_eq (a b : container) : {a = b} + {a <> b}. Proof. decide equality. Defined.
Definition traversal_eq (a b : traversal) : {a = b} + {a <> b}. Proof. decide equality. Defined.
Definition loadEstimator_eq (a b : loadEstimator) : {a = b} + {a <> b}. Proof. decide equality. Defined.
Definition dataLayout_eq (a b : dataLayout) : {a = b} + {a <> b}. Proof. decide equality. Defined.
Definition newton3_eq (a b : newton3) : {a = b} + {a <> b}. Proof. decide equality. Defined.
Definition interaction_eq (a b : interaction) : {a = b} + {a <> b}. Proof. decide equality. Defined.

(** std::set::find. *)
Definition contains {A} (eq : forall a b : A, {a = b} + {a <> b}) (x : A) (l : list A) : bool :=
  if in_dec eq x l then true else false.

(** std::set_intersection. *)
Definition intersection {A} (eq : forall a b : A, {a = b} + {a <> b}) (a b : list A) : list A :=
  filter (fun x => contains eq x b) a.

(** Configuration.h: the fields of a configuration. *)
Record config : Type := Config {
  cContainer : container;
  cFactor : R;
  cTraversal : traversal;
  cLoadEstimator : loadEstimator;
  cLayout : dataLayout;
  cNewton3 : newton3;
  cInteraction : interaction
}.

Definition config_eq (a b : config) : {a = b} + {a <> b}.
Proof.
  decide equality; auto using container_eq, traversal_eq, loadEstimator_eq, dataLayout_eq, newton3_eq,
                              interaction_eq, Req_EM_T.
Defined.

(** TraversalOption.h:284-341 getOptionNames. *)
Definition optionNames : list (traversal * string) := [
  (ds_sequential, "ds_sequential");
  (lc_sliced, "lc_sliced"); (lc_sliced_balanced, "lc_sliced_balanced"); (lc_sliced_c02, "lc_sliced_c02");
  (lc_c01, "lc_c01"); (lc_c01_combined_SoA, "lc_c01_combined_SoA"); (lc_c04, "lc_c04");
  (lc_c04_HCP, "lc_c04_HCP"); (lc_c04_combined_SoA, "lc_c04_combined_SoA"); (lc_c08, "lc_c08");
  (lc_c18, "lc_c18");
  (vcl_cluster_iteration, "vcl_cluster_iteration"); (vcl_c06, "vcl_c06");
  (vcl_c01_balanced, "vcl_c01_balanced"); (vcl_sliced, "vcl_sliced"); (vcl_sliced_c02, "vcl_sliced_c02");
  (vcl_sliced_balanced, "vcl_sliced_balanced");
  (vl_list_iteration, "vl_list_iteration");
  (vlc_sliced, "vlc_sliced"); (vlc_sliced_c02, "vlc_sliced_c02"); (vlc_c18, "vlc_c18"); (vlc_c01, "vlc_c01");
  (vlc_c08, "vlc_c08"); (vlc_sliced_balanced, "vlc_sliced_balanced");
  (vvl_as_built, "vvl_as_built");
  (vlp_sliced, "vlp_sliced"); (vlp_sliced_c02, "vlp_sliced_c02"); (vlp_c18, "vlp_c18"); (vlp_c01, "vlp_c01");
  (vlp_sliced_balanced, "vlp_sliced_balanced"); (vlp_c08, "vlp_c08");
  (ot_c18, "ot_c18"); (ot_c01, "ot_c01")]%string.

(** TraversalOption.h:230-278 getAllPairwiseOptions, getAllTriwiseOptions, getAllOptionsOf; Option.h:37-43
    getAllOptions are the keys of the names. *)
Definition allOptionsOf (i : interaction) : list (traversal * string) :=
  match i with
  | pairwise => optionNames
  | triwise => filter (fun o => contains traversal_eq (fst o) [ds_sequential; lc_c01]) optionNames
  | allInteractions => []
  end.

(** CompatibleTraversals.h:29-36 filterAllOptions. *)
Definition filterAllOptions (prefix : string) (i : interaction) : list traversal :=
  map fst (filter (fun o => String.eqb (substring 0 (String.length prefix) (snd o)) prefix) (allOptionsOf i)).

(** CompatibleTraversals.h:142-176. *)
Definition onlyNewton3Disabled : list traversal :=
  [lc_c01; lc_c01_combined_SoA; ot_c01; vcl_c01_balanced; vcl_cluster_iteration; vl_list_iteration; vlc_c01;
   vlp_c01].
Definition onlyNewton3Enabled : list traversal := [ot_c18].
Definition onlyAoS : list traversal := [].
Definition onlySoA : list traversal := [lc_c01_combined_SoA; lc_c04_combined_SoA].

(** CompatibleTraversals.h:183-245 allCompatibleTraversals.  [None] is the exception of line 234. *)
Definition allCompatibleTraversals (c : container) (i : interaction) : option (list traversal) :=
  match i with
  | pairwise => Some
      match c with
      | linkedCells => filterAllOptions "lc_" pairwise
      | directSum => filterAllOptions "ds_" pairwise
      | verletClusterLists => filterAllOptions "vcl_" pairwise
      | verletLists => filterAllOptions "vl_" pairwise
      | verletListsCells => filterAllOptions "vlc_" pairwise
      | varVerletListsAsBuild => filterAllOptions "vvl_" pairwise
      | linkedCellsReferences => filterAllOptions "lc_" pairwise
      | pairwiseVerletLists => filterAllOptions "vlp_" pairwise
      | octree => filterAllOptions "ot_" pairwise
      end
  | triwise => Some
      match c with
      | directSum => filterAllOptions "ds_" triwise
      | linkedCells => filterAllOptions "lc_" triwise
      | _ => []
      end
  | allInteractions => None
  end.

(** CompatibleLoadEstimators.h:29-46 allCompatibleLoadEstimators. *)
Definition compatibleLoadEstimators (c : container) : list loadEstimator :=
  match c with
  | linkedCells => [leNone; squaredParticlesPerCell]
  | verletListsCells => [leNone; squaredParticlesPerCell; neighborListLength]
  | verletClusterLists => [leNone; neighborListLength]
  | _ => []
  end.

(** CompatibleLoadEstimators.h:54-67 usesLoadEstimator. *)
Definition usesLoadEstimator (t : traversal) : bool :=
  match t with lc_sliced_balanced | vcl_sliced_balanced | vlc_sliced_balanced => true | _ => false end.

(** CompatibleLoadEstimators.h:78-92 getApplicableLoadEstimators. *)
Definition applicableLoadEstimators (c : container) (t : traversal) (allowed : list loadEstimator)
  : list loadEstimator :=
  if usesLoadEstimator t then
    match intersection loadEstimator_eq allowed (compatibleLoadEstimators c) with
    | [] => [leNone]
    | l => l
    end
  else [leNone].

(** Configuration.cpp:53-94 hasCompatibleValues. *)
Definition hasCompatibleValues (c : config) : option bool :=
  match allCompatibleTraversals (cContainer c) (cInteraction c) with
  | None => None
  | Some ts => Some
      (contains traversal_eq (cTraversal c) ts
       && contains loadEstimator_eq (cLoadEstimator c)
            (applicableLoadEstimators (cContainer c) (cTraversal c)
               [leNone; squaredParticlesPerCell; neighborListLength])
       && match cNewton3 c with
          | n3Enabled => negb (contains traversal_eq (cTraversal c) onlyNewton3Disabled)
          | n3Disabled => negb (contains traversal_eq (cTraversal c) onlyNewton3Enabled)
          end
       && match cLayout c with
          | aos => negb (contains traversal_eq (cTraversal c) onlySoA)
          | soa => negb (contains traversal_eq (cTraversal c) onlyAoS)
          end)
  end.

(** ** The search space *)

(** NumberSetFinite.h and NumberInterval.h. *)
Inductive numberSet : Type :=
| Finite : list R -> numberSet
| Interval : R -> R -> numberSet.

(** std::set::insert. *)
Definition setInsert (c : config) (s : list config) : list config :=
  if in_dec config_eq c s then s else c :: s.

(** SearchSpaceGenerators.cpp:37-53 the five inner loops for one container. *)
Definition addContainer (c : container) (ts : list traversal) (allowedTraversals : list traversal)
  (allowedLoadEstimators : list loadEstimator) (layouts : list dataLayout) (n3s : list newton3)
  (factors : list R) (i : interaction) (acc : list config) : list config :=
  fold_left (fun acc t =>
    fold_left (fun acc f =>
      fold_left (fun acc le =>
        fold_left (fun acc dl =>
          fold_left (fun acc n3 =>
            match hasCompatibleValues (Config c f t le dl n3 i) with
            | Some true => setInsert (Config c f t le dl n3 i) acc
            | _ => acc
            end) n3s acc)
          layouts acc)
        (applicableLoadEstimators c t allowedLoadEstimators) acc)
      factors acc)
    (intersection traversal_eq allowedTraversals ts) acc.

(** SearchSpaceGenerators.cpp:18-64 cartesianProduct.  [None] is an exception. *)
Definition cartesianProduct (containers : list container) (traversals : list traversal)
  (loadEstimators : list loadEstimator) (layouts : list dataLayout) (n3s : list newton3)
  (factors : numberSet) (i : interaction) : option (list config) :=
  match factors with
  | Interval _ _ => None
  | Finite fs =>
      match
        fold_left (fun acc c =>
          match acc, allCompatibleTraversals c i with
          | Some s, Some ts => Some (addContainer c ts traversals loadEstimators layouts n3s fs i s)
          | _, _ => None
          end) containers (Some [])
      with
      | None => None
      | Some [] => None
      | Some s => Some s
      end
  end.

(** SearchSpaceGenerators.cpp:80-100 calculateRelevantCsfs.  The conversions to unsigned int are exact
    here: numbers of cells beyond 2^32 are not modelled. *)
Definition relevantCsfs (min max interactionLength domainLength : R) : list R :=
  let numCellsMin := Zceil (domainLength / (interactionLength * max)) in
  let numCellsMax := Zfloor (domainLength / (interactionLength * min)) in
  map (fun k => domainLength / (IZR (numCellsMin + Z.of_nat k) * interactionLength))
      (seq 0 (Z.to_nat (numCellsMax + 1 - numCellsMin))).

(** AutoPasImpl.h:86-98 the cell size factors that init hands to cartesianProduct.  [None] is undefined
    behaviour: the interaction length computed here is zero, the number of cells infinite, and infinity is
    converted to unsigned int. *)
Definition initFactors (allowed : numberSet) (cutoff skinPerTimestep : R) (rebuildFrequency : nat)
  (boxLengthX : R) : option (list R) :=
  match allowed with
  | Finite fs => Some fs
  | Interval min max =>
      let interactionLength := cutoff * skinPerTimestep * INR rebuildFrequency in
      if Req_EM_T interactionLength 0 then None
      else Some (relevantCsfs min max interactionLength boxLengthX)
  end.

(** AutoPasImpl.h:86-105 the search space of an interaction type after init.  [None]: exception or undefined
    behaviour. *)
Definition initSearchSpace (containers : list container) (traversals : list traversal)
  (loadEstimators : list loadEstimator) (layouts : list dataLayout) (n3s : list newton3) (allowed : numberSet)
  (cutoff skinPerTimestep : R) (rebuildFrequency : nat) (boxLengthX : R) (i : interaction) : option (list config) :=
  match initFactors allowed cutoff skinPerTimestep rebuildFrequency boxLengthX with
  | Some fs => cartesianProduct containers traversals loadEstimators layouts n3s (Finite fs) i
  | None => None
  end.

(** ** What the tables are about *)

(** TraversalSelectorInfo.h: what a traversal knows about the domain. *)
Record geometry : Type := Geometry {
  gCells : nat * nat * nat;        (* cells or towers per dimension, with halo *)
  gLength : R * R * R;             (* their lengths *)
  gInteraction : R                 (* interaction length *)
}.

Definition min3 {A} (le : A -> A -> bool) (v : A * A * A) : A :=
  let '(x, y, z) := v in
  let m := if le x y then x else y in if le m z then m else z.
Definition Rle_bool' (a b : R) : bool := if Rle_dec a b then true else false.

(** ColorBasedTraversal.h:46-49, SlicedBasedTraversal.h:182-189 the overlap of a dimension. *)
Definition overlap (g : geometry) (len : R) : nat := Z.to_nat (Zceil (gInteraction g / len)).

(** SlicedBasedTraversal.h:191-197: the longest axis is the last maximal one (std::minmax_element). *)
Definition longest (g : geometry) : nat * R :=
  let '(nx, ny, nz) := gCells g in let '(lx, ly, lz) := gLength g in
  let m := if (nx <=? ny)%nat then (ny, ly) else (nx, lx) in
  if (fst m <=? nz)%nat then (nz, lz) else m.

Definition overlapLongest (forward : bool) (g : geometry) : nat :=
  (if forward then 1 else 2) * overlap g (snd (longest g)).

(** SlicedBasedTraversal.h:64-68. *)
Definition slicedApplicable (forward : bool) (g : geometry) : bool :=
  (0 <? fst (longest g) / (overlapLongest forward g + 1))%nat.

(** SlicedC02BasedTraversal.h:59-61. *)
Definition slicedC02Applicable (forward : bool) (g : geometry) : bool :=
  (overlapLongest forward g <=? fst (longest g))%nat.

Definition minLengthFits (g : geometry) : bool := Rle_bool' (gInteraction g) (min3 Rle_bool' (gLength g)).
Definition isSoa (d : dataLayout) : bool := match d with soa => true | aos => false end.
Definition usesN3 (n : newton3) : bool := match n with n3Enabled => true | n3Disabled => false end.

(** The isApplicable of the classes that TraversalSelector.h:114-336 creates. *)
Definition isApplicable (i : interaction) (t : traversal) (d : dataLayout) (n : newton3) (g : geometry) : bool :=
  match t with
  | ds_sequential => true                                            (* DSSequentialTraversal.h:49 *)
  | lc_c01 => negb (usesN3 n)                                        (* LCC01Traversal.h:125-128 *)
  | lc_c01_combined_SoA => negb (usesN3 n) && isSoa d
                           && match i with pairwise => true | _ => false end
  | lc_c04 => minLengthFits g && (3 <? min3 Nat.leb (gCells g))%nat  (* LCC04Traversal.h:60-67 *)
  | lc_c04_HCP => minLengthFits g                                    (* LCC04HCPTraversal.h:56-62 *)
  | lc_c04_combined_SoA =>                                           (* LCC04CombinedSoATraversal.h:58-61 *)
      let '(lx, ly, lz) := gLength g in
      isSoa d && ((overlap g lx =? 1) && (overlap g ly =? 1) && (overlap g lz =? 1))%nat
  | lc_c08 | lc_c18 => true                            (* LCC08Traversal.h:57, LCC18Traversal.h:73 *)
  | lc_sliced | lc_sliced_balanced => slicedApplicable true g        (* LCSlicedTraversal.h:49-50 *)
  | lc_sliced_c02 => slicedC02Applicable true g                      (* LCSlicedC02Traversal.h:48-49 *)
  | ot_c01 => negb (usesN3 n)                                        (* OTC01Traversal.h:55 *)
  | ot_c18 => usesN3 n                                               (* OTC18Traversal.h:57 *)
  | vcl_c01_balanced | vcl_cluster_iteration => negb (usesN3 n)      (* VCLC01BalancedTraversal.h:40-42 *)
  | vcl_c06 => true                                                  (* VCLC06Traversal.h:68-70 *)
  | vcl_sliced | vcl_sliced_balanced => slicedApplicable false g     (* VCLSlicedTraversal.h:62-63 *)
  | vcl_sliced_c02 => slicedC02Applicable false g                    (* VCLSlicedC02Traversal.h:61-62 *)
  | vl_list_iteration => negb (usesN3 n)                             (* VLListIterationTraversal.h:39-42 *)
  | vlc_c01 | vlp_c01 => negb (usesN3 n)                             (* VLCC01Traversal.h:64-67 *)
  | vlc_c08 => minLengthFits g                                       (* VLCC08Traversal.h:56-62 *)
  | vlc_c18 | vlp_c18 | vlc_sliced | vlp_sliced | vlc_sliced_balanced | vlp_sliced_balanced
  | vlc_sliced_c02 | vlp_sliced_c02 | vlp_c08 => true    (* VLCC18Traversal.h:66-68 and the like *)
  | vvl_as_built => true                                             (* VVLAsBuildTraversal.h:78-80 *)
  end.

(** TraversalSelector.h:114-305 and 310-334: is there a class for this option? *)
Definition selectorCreates (i : interaction) (t : traversal) : bool :=
  match i with
  | pairwise => true
  | triwise => match t with ds_sequential | lc_c01 => true | _ => false end
  | allInteractions => false
  end.

(** The interface that the class of a traversal derives from. *)
Inductive interface : Set :=
| DSTraversalInterface | LCTraversalInterface | OTTraversalInterface | VCLTraversalInterface
| VLTraversalInterface | VLCAllCellsInterface | VLCCellPairInterface | VVLTraversalInterface.

Definition interfaceOf (t : traversal) : interface :=
  match t with
  | ds_sequential => DSTraversalInterface
  | lc_c01 | lc_c01_combined_SoA | lc_c04 | lc_c04_HCP | lc_c04_combined_SoA | lc_c08 | lc_c18
  | lc_sliced | lc_sliced_balanced | lc_sliced_c02 => LCTraversalInterface
  | ot_c01 | ot_c18 => OTTraversalInterface
  | vcl_c01_balanced | vcl_c06 | vcl_cluster_iteration | vcl_sliced | vcl_sliced_balanced
  | vcl_sliced_c02 => VCLTraversalInterface
  | vl_list_iteration => VLTraversalInterface
  | vlc_c01 | vlc_c18 | vlc_c08 | vlc_sliced | vlc_sliced_balanced | vlc_sliced_c02 => VLCAllCellsInterface
  | vlp_c01 | vlp_c18 | vlp_sliced | vlp_sliced_balanced | vlp_sliced_c02 | vlp_c08 => VLCCellPairInterface
  | vvl_as_built => VVLTraversalInterface
  end.

(** The dynamic_cast in the computeInteractions of the containers: LinkedCells.h:544, LinkedCellsReferences.h:175,
    DirectSum.h:487, Octree.h:143, VerletClusterLists.h:150, VerletLists.h:76, VLCAllCellsNeighborList.h:215,
    VLCCellPairNeighborList.h:197-202, VarVerletLists.h:44.  (The octree ignores other traversals silently.) *)
Definition acceptsInterface (c : container) (f : interface) : bool :=
  match c, f with
  | directSum, DSTraversalInterface | linkedCells, LCTraversalInterface
  | linkedCellsReferences, LCTraversalInterface | octree, OTTraversalInterface
  | verletClusterLists, VCLTraversalInterface | verletLists, VLTraversalInterface
  | verletListsCells, VLCAllCellsInterface | pairwiseVerletLists, VLCCellPairInterface
  | varVerletListsAsBuild, VVLTraversalInterface => true
  | _, _ => false
  end.

(** The classes that derive from BalancedTraversal and so ask the container for a load estimator:
    LCSlicedBalancedTraversal.h:35, VLCSlicedBalancedTraversal.h:35 (with both kinds of lists),
    VCLSlicedBalancedTraversal.h:25, through SlicedBalancedBasedTraversal.h:30. *)
Definition isBalanced (t : traversal) : bool :=
  match t with
  | lc_sliced_balanced | vlc_sliced_balanced | vlp_sliced_balanced | vcl_sliced_balanced => true
  | _ => false
  end.

(** getLoadEstimatorFunction of LinkedCells.h:110-126, LinkedCellsReferences.h:129-145,
    VerletListsCells.h:72-97 and VerletClusterLists.h:111-140: the estimators with their own case. *)
Definition implementsEstimator (c : container) (le : loadEstimator) : bool :=
  match le, c with
  | leNone, _ => true
  | squaredParticlesPerCell, (linkedCells | linkedCellsReferences | verletListsCells | pairwiseVerletLists) => true
  | neighborListLength, (verletListsCells | pairwiseVerletLists | verletClusterLists) => true
  | _, _ => false
  end.
