(** Model of the sliced traversals: containers/cellTraversals/
    SlicedBasedTraversal.h, SlicedLockBasedTraversal.h, SlicedC02BasedTraversal.h,
    SlicedBalancedBasedTraversal.h and their linked cells versions. *)
From Verif.Base Require Import ZRange.
From Verif.Grid Require Import IndexModel.
From Verif.Traversal Require Import C08Model C04Model.

(** std::array access with a dimension index 0, 1, 2. *)
Definition comp (d : Z) (a : I3) : Z := if d =? 0 then ix a else if d =? 1 then iy a else iz a.
Definition setComp (d v : Z) (a : I3) : I3 :=
  if d =? 0 then mkI3 v (iy a) (iz a) else if d =? 1 then mkI3 (ix a) v (iz a) else mkI3 (ix a) (iy a) v.

(** _dimsPerLength, SlicedBasedTraversal.h:189-192.  std::minmax_element returns
    the first smallest and the last largest element. *)
Definition dimLong (dims : I3) : Z :=
  if Z.max (ix dims) (iy dims) <=? iz dims then 2 else if ix dims <=? iy dims then 1 else 0.
Definition dimShort (dims : I3) : Z :=
  if ix dims <=? Z.min (iy dims) (iz dims) then 0 else if iy dims <=? iz dims then 1 else 2.
Definition dimMedium (dims : I3) : Z := 3 - (dimLong dims + dimShort dims).

(** SlicedBasedTraversal::initSliceThickness, lines 74-94.  [len] is the number
    of cells along the longest axis.  The loop of lines 85-88 over the first
    [remSlices] slices is [distribute]. *)
Fixpoint distribute (remSlices : nat) (rest : Z) (l : list Z) : list Z :=
  match remSlices, l with
  | S r, t :: l' => let q := rest / Z.of_nat remSlices in (t + q) :: distribute r (rest - q) l'
  | _, _ => l
  end.

(** line 91: [_sliceThickness.back() -= overlap], only if spaciallyForward. *)
Fixpoint shrinkLast (ov : Z) (l : list Z) : list Z :=
  match l with
  | [] => []
  | [t] => [t - ov]
  | t :: l' => t :: shrinkLast ov l'
  end.

Definition initSliceThickness (len minThickness ov : Z) (forward : bool) : list Z :=
  let numSlices := len / minThickness in
  if numSlices <? 1 then [] else
  let rest := len - minThickness * numSlices in
  let remSlices := Z.min rest numSlices in
  let l := distribute (Z.to_nat remSlices) rest (repeat minThickness (Z.to_nat numSlices)) in
  if forward then shrinkLast ov l else l.

(** SlicedBalancedBasedTraversal::initSliceThickness, lines 50-160.  The
    decision whether to add another layer to a slice (line 99 second condition
    and the break of lines 104-106) depends on the estimated loads; it is an
    arbitrary function [grow] of the slice number, the total thickness so far
    and the current thickness, which covers every load estimator and the
    integer conversions of the loads.  [None] stands for the access
    [_sliceThickness[-1]] in line 113. *)
Section Balanced.
  Variable grow : Z -> Z -> Z -> bool.
  Variables (minThickness len : Z).

  (** lines 98-108; [fuel] bounds the number of loop iterations by [len]. *)
  Fixpoint growSlice (fuel : nat) (s total thickness : Z) : Z :=
    match fuel with
    | O => thickness
    | S f => if (total + thickness + 1 <? len) && grow s total thickness
             then growSlice f s total (thickness + 1) else thickness
    end.

  (** lines 92-128; [left] is [numSlices - s], [acc] the slices so far in reverse
      order. *)
  Fixpoint balancedLoop (left : nat) (s total : Z) (acc : list Z) : option (list Z) :=
    match left with
    | O => Some (rev acc)
    | S left' =>
        let thickness := match left' with
                         | O => len - total
                         | _ => growSlice (Z.to_nat len) s total minThickness
                         end in
        if (len <? total + thickness) || (thickness <? minThickness) then
          match acc with
          | [] => None
          | t :: acc' => Some (rev ((t + (len - total)) :: acc'))
          end
        else balancedLoop left' (s + 1) (total + thickness) (thickness :: acc)
    end.

  Definition balancedSliceThickness (numThreads : nat) (ov : Z) (forward : bool) : option (list Z) :=
    match balancedLoop numThreads 0 0 [] with
    | None => None
    | Some l => Some (if forward then shrinkLast ov l else l)
    end.
End Balanced.

(** Start layer of a slice, SlicedLockBasedTraversal.h:96-99. *)
Definition sliceStart (t : list Z) (s : Z) : Z := fold_right Z.add 0 (firstn (Z.to_nat s) t).
Definition thicknessOf (t : list Z) (s : Z) : Z := nth (Z.to_nat s) t 0.

(** What one slice does, as a sequence of lock operations and of layers to
    process, SlicedLockBasedTraversal.h:95-144.  [ov] is _overlapLongestAxis. *)
Inductive Act := Lock (i : Z) | Unlock (i : Z) | Proc (layer : Z).

Definition layerActs (n ov s start thickness : Z) (sliceOffset : Z) : list Act :=
  let lastLayer := start + thickness in
  let dimSlice := start + sliceOffset in
  let lockBaseIndex := (s - 1) * ov in
  (* lines 109-113 *)
  (if negb (s =? n - 1) && (lastLayer - ov <=? dimSlice)
   then [Lock ((s + 1) * ov - (lastLayer - dimSlice))] else []) ++
  (* lines 114-126 *)
  [Proc dimSlice] ++
  (* lines 127-143 *)
  (if (0 <? s) && (dimSlice <? start + ov)
   then Unlock (lockBaseIndex + sliceOffset) ::
        (if dimSlice =? lastLayer - 1
         then map (fun i => Unlock (lockBaseIndex + i)) (zrange (sliceOffset + 1) ov) else [])
   else if negb (s =? n - 1) && (dimSlice =? lastLayer - 1)
        then map Unlock (zrange (s * ov) ((s + 1) * ov)) else []).

Definition sliceProg (t : list Z) (ov s : Z) : list Act :=
  let n := Z.of_nat (length t) in
  let start := sliceStart t s in
  let thickness := thicknessOf t s in
  (if 0 <? s then map (fun i => Lock ((s - 1) * ov + i)) (zrange 0 ov) else []) ++
  flat_map (layerActs n ov s start thickness) (zrange 0 thickness).

(** Size of the vector of locks, line 67. *)
Definition numLocks (t : list Z) (ov : Z) : Z := (Z.of_nat (length t) - 1) * ov.

(** The cells handed to the loop body for one layer, lines 114-126 /
    SlicedC02BasedTraversal.h:98-109.  [ov23] are the overlaps subtracted in the
    other two dimensions (0 if not spaciallyForward). *)
Definition layerCells (dims ov23 : I3) (layer : Z) : list I3 :=
  let dL := dimLong dims in let dM := dimMedium dims in let dS := dimShort dims in
  flat_map (fun m => map (fun s => setComp dS s (setComp dM m (setComp dL layer (mkI3 0 0 0))))
      (zrange 0 (comp dS dims - comp dS ov23))) (zrange 0 (comp dM dims - comp dM ov23)).

(** LCSlicedTraversal / LCSlicedBalancedTraversal: all layers of all slices. *)
Definition progLayers (p : list Act) : list Z :=
  flat_map (fun a => match a with Proc l => [l] | _ => [] end) p.

Definition slicedLayers (t : list Z) (ov : Z) : list Z :=
  flat_map (fun s => progLayers (sliceProg t ov s)) (zrange 0 (Z.of_nat (length t))).

Definition lcSlicedCalls (near : Z -> Z -> Z -> bool) (dims ov : I3) (t : list Z) : list (Z * Z) :=
  c08BaseSteps near dims ov (flat_map (layerCells dims ov) (slicedLayers t (comp (dimLong dims) ov))).

(** SlicedC02BasedTraversal::cSlicedTraversal, lines 74-113: even slices, barrier,
    odd slices; a task is the list of layers of one slice. *)
Definition c02SliceLayers (t : list Z) (s : Z) : list Z :=
  zrange (sliceStart t s) (sliceStart t s + thicknessOf t s).

Definition c02Tasks (t : list Z) : list (list (list Z)) :=
  map (fun offset => map (c02SliceLayers t) (zsteps offset (Z.of_nat (length t)) 2)) (zrange 0 2).

(** LCSlicedC02Traversal::traverseParticles. *)
Definition lcC02Tasks (near : Z -> Z -> Z -> bool) (dims ov : I3) (t : list Z) : list (list (list (Z * Z))) :=
  map (map (fun layers => c08BaseSteps near dims ov (flat_map (layerCells dims ov) layers))) (c02Tasks t).
