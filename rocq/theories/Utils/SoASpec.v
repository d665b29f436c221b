(** What loading and extracting are to do. *)
From Coq Require Import List Arith.
From Verif.Utils Require Import SoAModel.
Import ListNotations.

Section Spec.
  Variable V : Type.
  (** The particles of a cell are at a position of the buffer. *)
  Definition holds (attrs : list nat) (cell : list (Particle V)) (s : Soa V) (offset : nat) : Prop :=
    forall i p a, nth_error cell i = Some p -> In a attrs -> nth_error (s a) (offset + i) = Some (p a).
  (** The same particles, attribute by attribute. *)
  Definition sameParticles (c c' : list (Particle V)) : Prop := Forall2 (fun p p' => forall a, p' a = p a) c c'.
  (** Only the given attributes differ, and they are those of the buffer. *)
  Definition takenFrom (attrs : list nat) (s : Soa V) (offset : nat) (c c' : list (Particle V)) : Prop :=
    length c' = length c /\ forall i p p', nth_error c i = Some p -> nth_error c' i = Some p' ->
      forall a, (In a attrs -> nth_error (s a) (offset + i) = Some (p' a)) /\ (~ In a attrs -> p' a = p a).
End Spec.
