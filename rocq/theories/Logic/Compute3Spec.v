(** Specification vocabulary for one interaction computation with a three-body functor. *)
From Coq Require Import Reals List ZArith.
From Verif.Grid Require Import IndexSpec CellBlockModel CellBlockSpec.
From Verif.Functor Require Import SortModel.
From Verif.Container Require Import ParticleModel.
From Verif.Logic Require Import HandlerModel ComputeModel.
Import ListNotations.
Local Open Scope Z_scope.

(** The particle in front receives the force of the other two; their order plays no role. *)
Definition sameTriple {A} (p q r : A) (x : A * (A * A)) : Prop := x = (p, (q, r)) \/ x = (p, (r, q)).
Definition tripleOnce {A} (p q r : A) (l : list (A * (A * A))) : Prop :=
  exists l1 x l2, l = l1 ++ x :: l2 /\ sameTriple p q r x /\ forall y, In y (l1 ++ l2) -> ~ sameTriple p q r y.

(** How many particles the calls add. *)
Definition additions (es : list Event) : Z :=
  Z.of_nat (length (filter (fun e => match e with AddParticle _ _ | AddHalo _ _ => true | _ => false end) es)).

(** The traversal can be used with the container: lc_c01 is without Newton 3 and the
    number of cells fits into a size_t; for direct sum, which sorts with the cutoff only,
    the skin is not longer than the cutoff. *)
Definition suits3 (cutoff spt : R) (freq : Z) (lo hi : R3) (k : Kind) (t : Traversal) (newton3 : bool) : Prop :=
  match k, t with
  | KDirectSum, DSSequential => (spt * IZR freq <= cutoff)%R
  | KLinkedCells csf, LCC01 =>
      newton3 = false /\ numCells (blockDims (rebuild rndExact (cutoff + spt * IZR freq) csf lo hi)) < 2 ^ 64 - 1
  | _, _ => False
  end.
