(** Specification vocabulary: what a list of pairwise functor calls means for the
    particles.  AoSFunctor(i, j, newton3) adds the contribution of j to i and, if
    newton3 is set, the contribution of i to j. *)
From Verif.Base Require Import ZRange Occ.
From Verif.Functor Require Import CellFunctorModel.
From Coq Require Import Sorted.

Section Spec.
  Context {P : Type}.
  (** Unique id of a particle. *)
  Variable pid : P -> Z.

  (** The call adds the contribution of particle [b] to particle [a]. *)
  Definition contributes (a b : Z) (c : Call P) : bool :=
    ((pid (fstP c) =? a) && (pid (sndP c) =? b)) ||
    (n3 c && (pid (fstP c) =? b) && (pid (sndP c) =? a)).

  (** How often [a] receives the contribution of [b]. *)
  Definition received (calls : list (Call P)) (a b : P) : nat := occ (contributes (pid a) (pid b)) calls.

  (** All particles of the list have different ids. *)
  Definition distinctIds (l : list P) : Prop := NoDup (map pid l).

  (** [view] returns the particles sorted along a direction in which particle [p]
      has projection [proj p]; [far] is monotone: if q is too far ahead of p, so
      is everything that is sorted behind q.  [okFrom p l]: *)
  Definition breakSafe (far : P -> P -> bool) (p : P) (l : list P) : Prop :=
    forall l1 q l2, l = l1 ++ q :: l2 -> far p q = true -> Forall (fun r => far p r = true) l2.
End Spec.
