(** C34: the spatial locks of the remainder traversal.  The locks form a grid
    [n] (three numbers of locks); [lockOf] and [lockOf3B] are the indices of the lock
    taken for a position by the pairwise and by the triwise remainder traversal. *)
From Coq Require Import Reals Lra.
From Flocq Require Import Core.
From Verif.Base Require Import ZRange.
From Verif.Grid Require Import IndexModel CellBlockSpec.
From Verif.Functor Require Import SortModel.
From Verif.Logic Require Import LocksModel LocksSpec LocksProofs.
Open Scope R_scope.

(** Pairwise, exact arithmetic: for the locks made by the constructor and after
    resizeBox, the lock of every position in the halo box exists, unless the number
    of locks was limited and some dimension got none. *)
Theorem C34_pairwise : forall il bMin bMax pos n, 0 < il -> below bMin bMax ->
  n = locksInitial rndExact il bMin bMax \/ n = locksAfterResize rndExact il bMin bMax ->
  (locksWanted il (boxWithHalo il bMin bMax) <= maxNumSpacialLocks)%Z \/ ((1 <= ix n) /\ (1 <= iy n) /\ (1 <= iz n))%Z ->
  inBox (haloLow il bMin) (haloHigh il bMax) pos -> lockExists n (lockOf rndExact il bMin bMax n pos).
Proof. exact exact_2b. Qed.
Print Assumptions C34_pairwise.

(** Pairwise, IEEE arithmetic: the same for every position that is at least
    2^-50 times the length of the halo box away from its upper end. *)
Theorem C34_pairwise_double : forall il bMin bMax (n : I3) pos,
  let total a b := rndDouble (rndDouble (b + il) - rndDouble (a - il)) in
  let fine a b x := bpow radix2 (-1000) <= total a b <= bpow radix2 1000 /\
    rndDouble (a - il) <= x <= rndDouble (a - il) + total a b * (1 - bpow radix2 (-50)) in
  fine (rx bMin) (rx bMax) (rx pos) -> fine (ry bMin) (ry bMax) (ry pos) -> fine (rz bMin) (rz bMax) (rz pos) ->
  (1 <= ix n < 2 ^ 53)%Z -> (1 <= iy n < 2 ^ 53)%Z -> (1 <= iz n < 2 ^ 53)%Z ->
  lockExists n (lockOf rndDouble il bMin bMax n pos).
Proof. exact double_2b. Qed.
Print Assumptions C34_pairwise_double.

(** Closer to the end it is false. *)
Theorem C34_rounding_refuted : exists il bMin bMax pos, isDouble il /\ isDouble3 bMin /\ isDouble3 bMax /\ isDouble3 pos /\
  0 < il /\ below bMin bMax /\ inBox (haloLow il bMin) (haloHigh il bMax) pos /\
  ~ lockExists (locksInitial rndDouble il bMin bMax)
      (lockOf rndDouble il bMin bMax (locksInitial rndDouble il bMin bMax) pos).
Proof. exact rounding_refuted. Qed.
Print Assumptions C34_rounding_refuted.

(** A box of size 1 x 3000 x 3000 with interaction length 1 gets no locks. *)
Theorem C34_thin_box_refuted : exists il bMin bMax, 0 < il /\ below bMin bMax /\
  rx bMin + il <= rx bMax /\ ry bMin + il <= ry bMax /\ rz bMin + il <= rz bMax /\
  ix (locksInitial rndExact il bMin bMax) = 0%Z.
Proof. exact thin_box_refuted. Qed.
Print Assumptions C34_thin_box_refuted.

(** Triwise: in range for the locks of the constructor if their number is not
    limited... *)
Theorem C34_triwise_partial : forall il bMin bMax pos, 0 < il -> below bMin bMax ->
  (locksWanted il (boxWithHalo il bMin bMax) <= maxNumSpacialLocks)%Z ->
  inBox (haloLow il bMin) (haloHigh il bMax) pos ->
  lockExists (locksInitial rndExact il bMin bMax) (lockOf3B rndExact il bMin pos).
Proof. exact exact_3b. Qed.
Print Assumptions C34_triwise_partial.

(** ... but out of range for owned particles after resizeBox, and if the number of
    locks is limited. *)
Theorem C34_resize_refuted : exists il bMin bMax pos, 0 < il /\ below bMin bMax /\ inBox bMin bMax pos /\
  (locksWanted il (boxWithHalo il bMin bMax) <= maxNumSpacialLocks)%Z /\
  ~ lockExists (locksAfterResize rndExact il bMin bMax) (lockOf3B rndExact il bMin pos).
Proof. exact resize_3b_refuted. Qed.
Print Assumptions C34_resize_refuted.

Theorem C34_limited_refuted : exists il bMin bMax pos, 0 < il /\ below bMin bMax /\ inBox bMin bMax pos /\
  (1 <= ix (locksInitial rndExact il bMin bMax))%Z /\
  ~ lockExists (locksInitial rndExact il bMin bMax) (lockOf3B rndExact il bMin pos).
Proof. exact capped_3b_refuted. Qed.
Print Assumptions C34_limited_refuted.

Example C34_nonvacuous : 0 < 1 /\ below (mkR3 0 0 0) (mkR3 10 10 10) /\
  (locksWanted 1 (boxWithHalo 1 (mkR3 0%R 0%R 0%R) (mkR3 10%R 10%R 10%R)) = 1728)%Z /\
  inBox (haloLow 1 (mkR3 0 0 0)) (haloHigh 1 (mkR3 10 10 10)) (mkR3 (-1 / 2) 5 (21 / 2)).
Proof.
  split; [lra|]. split; [unfold below; cbn [rx ry rz]; lra|]. split.
  - unfold locksWanted, boxWithHalo. cbn [rx ry rz]. replace ((10 - 0 + 2 * 1) / 1) with 12 by field. rewrite (Zceil_IZR 12). reflexivity.
  - unfold inBox, haloLow, haloHigh. cbn [rx ry rz]. lra.
Qed.
