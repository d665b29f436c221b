(** Histories of the buffer of neighbour lists of VerletClusterLists. *)
From Coq Require Import List Arith.
From Verif.Cluster Require Import ListsBufferModel.
Import ListNotations.

Section Histories.
  Context {K V : Type}.
  Variable dflt : V.

  (** Lists are written through references: their contents change in any way. *)
  Definition written (b b' : @buffer K V) : Prop :=
    bKeys b' = bKeys b /\ length (bLists b') = length (bLists b) /\ bLast b' = bLast b /\ bDefault b' = bDefault b /\
    bGrow b' = bGrow b /\ bGen b' = bGen b.

  (** Particles per tower and clusters of each tower that get a list: at most all clusters. *)
  Definition towersOk (clusterSize : nat) (particles needs : list nat) : Prop :=
    0 < clusterSize /\ particles <> [] /\ Forall2 (fun n p => n <= numClusters clusterSize p) needs particles.

  Inductive reached : @buffer K V -> Prop :=
  | reachedNew : reached newBuffer
  | reachedWritten b b' : reached b -> written b b' -> reached b'
  | reachedRebuilt b c particles needs ps b' : reached b -> towersOk c particles needs ->
      rebuildLists dflt (list_sum particles) c (length particles) needs b = Some (ps, b') -> reached b'.
End Histories.
