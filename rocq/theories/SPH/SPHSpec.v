(** Smoothed particle hydrodynamics as in text books, independent of the functors. *)
From Coq Require Import Reals List ZArith Bool.
From Verif.Functor Require Import SortModel.
From Verif.Container Require Import IteratorModel ParticleModel.
From Verif.MD Require Import LJModel LJSpec.
Import ListNotations.
Local Open Scope R_scope.

(** The cubic spline in three dimensions with support H, at distance r. *)
Definition cubicSpline (H r : R) : R :=
  let q := r / H in
  if Rle_dec q (1 / 2) then 8 / (PI * H ^ 3) * (1 - 6 * q ^ 2 + 6 * q ^ 3)
  else if Rle_dec q 1 then 8 / (PI * H ^ 3) * (2 * (1 - q) ^ 3)
  else 0.
(** Its slope. *)
Definition cubicSplineSlope (H r : R) : R :=
  let q := r / H in
  if Rle_dec q (1 / 2) then 8 / (PI * H ^ 4) * (- 12 * q + 18 * q ^ 2)
  else if Rle_dec q 1 then 8 / (PI * H ^ 4) * (- 6 * (1 - q) ^ 2)
  else 0.
(** The support of the kernel of a particle of smoothing length h. *)
Definition support (h : R) : R := 5 / 2 * h.

(** Do one pairwise call after the other. *)
Definition forEach {A S} (call : A -> A -> S -> S) (pairs : list (A * A)) (s : S) : S :=
  fold_left (fun s p => call (fst p) (snd p) s) pairs s.
(** Every unordered pair of a list. *)
Fixpoint pairsOf {A} (l : list A) : list (A * A) :=
  match l with [] => [] | a :: l' => map (pair a) l' ++ pairsOf l' end.
(** The pairs in both orders. *)
Definition bothWays {A} (l : list (A * A)) : list (A * A) := flat_map (fun p => [p; (snd p, fst p)]) l.
