(** Specification vocabulary for lc_c04_combined_SoA. *)
From Coq Require Import Permutation.
From Verif.Base Require Import ZRange Occ.
From Verif.Grid Require Import IndexModel.
From Verif.Container Require Import CombinedC04Model.
Local Open Scope Z_scope.

(** All contributions that the rows hold: (receiving particle, giving particle). *)
Definition contributions {P} (rows : list (Row P)) : list (P * P) := flat_map (fun r => map (pair (rowP r)) (got r)) rows.

Definition isPair {P} (pid : P -> Z) (a c : P) (e : P * P) : bool := (pid (fst e) =? pid a) && (pid (snd e) =? pid c).

(** How often the cells [0, n) hold the contribution of [c] to [a]. *)
Definition stored {P} (pid : P -> Z) (n : Z) (cells : Z -> list (Row P)) (a c : P) : nat :=
  occ (isPair pid a c) (contributions (flat_map cells (zrange 0 n))).

(** The cells of the lines [y, y + 1] in the planes [z, z + 1]. *)
Definition inBlock (dims : I3) (yz : Z * Z) (k : Z) : Prop :=
  exists x y z, 0 <= x < ix dims /\ fst yz <= y <= fst yz + 1 /\ snd yz <= z <= snd yz + 1 /\ k = threeToOneD (mkI3 x y z) dims.

(** [evs] is an execution in which the threads of the list [threads] together process
    the lines [lines]: [work t] are the lines thread [t] takes, one after another; the
    events of different threads interleave arbitrarily. *)
Definition executes (dims : I3) (lines : list (Z * Z)) (evs : list (Z * I3)) : Prop :=
  exists (threads : list Z) (work : Z -> list (Z * Z)),
    NoDup threads /\ Permutation (flat_map work threads) lines /\
    (forall e, In e evs -> In (fst e) threads) /\
    (forall t, In t threads -> map snd (filter (fun e => fst e =? t) evs) = flat_map (c04cLineBases (mkI3 1 1 1) dims) (work t)).
