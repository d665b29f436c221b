(** Model of the lc_c04 and lc_c04_HCP traversals:
    containers/linkedCells/traversals/LCC04Traversal.h and LCC04HCPTraversal.h.
    Both use the base step of c08 (C08Model.v). *)
From Verif.Base Require Import ZRange.
From Verif.Grid Require Import IndexModel.
From Verif.Traversal Require Import C08Model.

(** c08 base steps of a list of base cells, in order. *)
Definition c08BaseSteps (near : Z -> Z -> Z -> bool) (dims ov : I3) (bases : list I3) : list (Z * Z) :=
  flat_map (fun b => c08ProcessBaseCell (computePairwiseCellOffsetsC08 near ov dims) (threeToOneD b dims)) bases.

(** computeOffsets32Pack, LCC04Traversal.h:96-133. *)
Definition c04Layer0 (z : Z) : list I3 := [mkI3 1 1 z; mkI3 1 2 z; mkI3 2 1 z; mkI3 2 2 z].
Definition c04Layer1 (z : Z) : list I3 :=
  flat_map (fun y => flat_map (fun x =>
    if ((x =? 0) && (y =? 0)) || ((x =? 3) && (y =? 0)) || ((x =? 0) && (y =? 3)) || ((x =? 3) && (y =? 3))
    then [] else [mkI3 x y z]) (zrange 0 4)) (zrange 0 4).
Definition c04Offsets32Pack : list I3 :=
  c04Layer0 0 ++ flat_map c04Layer1 (zrange 1 3) ++ c04Layer0 3.

(** isIn of processBasePack32, LCC04Traversal.h:150-155; [_end] is
    [cellsPerDimension - 1] (line 50-51). *)
Definition c04IsIn (dims i : I3) : bool :=
  (0 <=? ix i) && (ix i <? ix dims - 1) && ((0 <=? iy i) && (iy i <? iy dims - 1)) &&
  ((0 <=? iz i) && (iz i <? iz dims - 1)).

(** The base cells processed by processBasePack32, LCC04Traversal.h:144-163. *)
Definition c04Pack32 (dims base : I3) : list I3 :=
  filter (c04IsIn dims) (map (i3add base) c04Offsets32Pack).

(** parity, LCC04Traversal.h:83 (C remainder). *)
Definition c04Parity (x y z : Z) : Z := Z.rem (x + y + z + 24) 8.

(** traverseSingleColor, LCC04Traversal.h:187-235: the base indices of the packs
    of one colour.  Every iteration of the collapsed loop may run concurrently
    with every other one of the colour. *)
Definition c04Packs (dims : I3) (color : Z) : list I3 :=
  let s := if Z.rem color 2 =? 0 then -2 else 0 in
  let correct := c04Parity s s s + (if 2 <=? color then 4 else 0) in
  flat_map (fun z => flat_map (fun y => flat_map (fun x =>
    if c04Parity x y z =? correct then [mkI3 x y z] else [])
    (zsteps s (ix dims - 1) 4)) (zsteps s (iy dims - 1) 4)) (zsteps s (iz dims - 1) 4).

(** traverseParticles, LCC04Traversal.h:172-185: four colours separated by
    barriers, each a list of concurrent tasks (one per pack). *)
Definition c04Tasks (near : Z -> Z -> Z -> bool) (dims ov : I3) : list (list (list (Z * Z))) :=
  map (fun color => map (fun base => c08BaseSteps near dims ov (c04Pack32 dims base)) (c04Packs dims color))
      (zrange 0 4).

(** LCC04HCPTraversal.h: processBasePack6, lines 78-106. *)
Definition hcpIsIn (dims ov i : I3) : bool :=
  (0 <=? ix i) && (ix i <=? ix dims - 1 - ix ov) && ((0 <=? iy i) && (iy i <=? iy dims - 1 - iy ov)) &&
  ((0 <=? iz i) && (iz i <=? iz dims - 1 - iz ov)).
Definition hcpPack6 (dims ov base : I3) : list I3 :=
  filter (hcpIsIn dims ov) (flat_map (fun z => map (fun x => mkI3 (ix base + x) (iy base) (iz base + z)) (zrange 0 2)) (zrange 0 3)).

(** The starting points, lines 137-157 (x and z; y is 0 for every colour). *)
Definition hcpStartX (color : Z) : Z :=
  if color =? 0 then 0 else if color =? 1 then -4 else if color =? 2 then -4 else -2.
Definition hcpStartZ (color : Z) : Z :=
  if color =? 0 then 0 else if color =? 1 then 1 else if color =? 2 then -2 else -1.

(** The shift of the x index, lines 173-195. *)
Definition hcpShift (y z startZ : Z) : Z :=
  (let s := Z.quot (Z.rem (z - startZ) 12) 4 in if s =? 0 then 0 else if s =? 1 then -4 else if s =? 2 then -2 else 0)
  + (if negb (Z.rem (y - 0) 2 =? 0) then 3 else 0).

(** traverseSingleColor, lines 129-200. *)
Definition hcpPacks (dims : I3) (color : Z) : list I3 :=
  flat_map (fun z => flat_map (fun y => map (fun x => mkI3 (x + hcpShift y z (hcpStartZ color)) y z)
    (zsteps (hcpStartX color) (ix dims - 1 + 4) 6)) (zsteps 0 (iy dims - 1) 1))
    (zsteps (hcpStartZ color) (iz dims - 1) 4).

(** traverseParticles, lines 108-120. *)
Definition hcpTasks (near : Z -> Z -> Z -> bool) (dims ov : I3) : list (list (list (Z * Z))) :=
  map (fun color => map (fun base => c08BaseSteps near dims ov (hcpPack6 dims ov base)) (hcpPacks dims color))
      (zrange 0 4).
