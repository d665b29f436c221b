(** What the positions, velocities and forces of a simulation should be: the velocity form of
    the Störmer-Verlet scheme. *)
From Coq Require Import Reals List.
From Verif.Functor Require Import SortModel SortSpec.
From Verif.MD Require Import LJModel.
Import ListNotations.
Local Open Scope R_scope.

(** Entry [i] of a list of vectors. *)
Definition vec (l : list R3) (i : nat) : R3 := nth i l rzero.

(** [x n], [v n], [f n]: positions, velocities and forces of [num] molecules after [n] steps
    of length [dt].  [total xs i] is the force on molecule [i] if the molecules are at [xs];
    [reenter] moves positions that left a periodic domain back into it. *)
Definition stoermerVerlet (num : nat) (dt : R) (mass : nat -> R) (reenter : R3 -> R3)
    (total : list R3 -> nat -> R3) (x v f : nat -> list R3) : Prop :=
  forall n,
    length (x n) = num /\ length (v n) = num /\ length (f n) = num /\
    forall i, (i < num)%nat ->
      vec (x (S n)) i = reenter (radd (vec (x n) i)
                                (radd (rscale (vec (v n) i) dt) (rscale (vec (f n) i) (dt * dt / (2 * mass i))))) /\
      vec (f (S n)) i = total (x (S n)) i /\
      vec (v (S n)) i = radd (vec (v n) i) (rscale (radd (vec (f n) i) (vec (f (S n)) i)) (dt / (2 * mass i))).

(** Sum of vectors, total momentum. *)
Definition vsum (num : nat) (h : nat -> R3) : R3 := fold_right radd rzero (map h (seq 0 num)).
Definition momentum (mass : nat -> R) (num : nat) (v : list R3) : R3 :=
  vsum num (fun i => rscale (vec v i) (mass i)).
Definition rneg (a : R3) : R3 := rscale a (-1).
