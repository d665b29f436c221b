(** What the fuzzy tuning strategy should keep. *)
From Coq Require Import Reals List.
Import ListNotations.
Open Scope R_scope.

(** The first entry of the mapping whose value is closest to v has the patterns ps. *)
Definition closestEntry {Pattern} (v : R) (m : list (R * list Pattern)) (ps : list Pattern) : Prop :=
  exists m1 k m2, m = m1 ++ (k, ps) :: m2 /\
    (forall e, In e m1 -> Rabs (k - v) < Rabs (fst e - v)) /\ (forall e, In e m2 -> Rabs (k - v) <= Rabs (fst e - v)).

(** The configuration c fits what the system (its prediction and its mapping) predicts. *)
Definition fits {Conf Pattern} (matches : Pattern -> Conf -> bool) (s : option R * list (R * list Pattern)) (c : Conf) : Prop :=
  exists v ps p, fst s = Some v /\ closestEntry v (snd s) ps /\ In p ps /\ matches p c = true.
