(** What the tuner is to do, in terms of what goes in (times of the computations) and what
    comes out (the configuration of every computation). *)
From Coq Require Import ZArith List Bool Permutation.
From Verif.Tuning Require Import TunerModel.
Import ListNotations.
Local Open Scope Z_scope.

(** A strategy that only reorders the queue, and that does not make an inapplicable
    configuration the last one to be tried. *)
Definition reorders (applicable : Z -> bool) (f : Filter) : Prop := forall q m, exists q' w,
  f q m = Some (q', w) /\ Permutation q q' /\
  (q <> [] -> applicable (last q 0) = true -> applicable (last q' 0) = true).
Definition tame (applicable : Z -> bool) (i : Input) : Prop :=
  Forall (reorders applicable) (inResets i) /\ Forall (reorders applicable) (inOpts i) /\ 0 <= inSample i < longMax.

(** An estimate that is not larger than the samples. *)
Definition fairEstimate (est : list Z -> list Z -> Z) : Prop :=
  forall a b, a ++ b <> [] -> Forall (fun x => 0 <= x < longMax) (a ++ b) -> est a b < longMax.

(** The estimate from the measurements of some computations. *)
Definition valueOf (est : list Z -> list Z -> Z) (is : list Input) : Z :=
  est (map inSample (filter inRebuilt is)) (map inSample (filter (fun i => negb (inRebuilt i)) is)).

Section Spec.
  Variables (interval maxSamples freq : nat) (est : list Z -> list Z -> Z).
  (** The samples of the [j]-th configuration in the phase that starts with
      computation [from]. *)
  Definition sampleOf (is : list Input) (from j : nat) : Z :=
    valueOf est (firstn maxSamples (skipn (from + j * maxSamples) is)).

  (** In the phase that starts with computation [from], each of the configurations
      [usable] is used for [maxSamples] consecutive computations.  Then one with the
      smallest estimate is used for all others.  The third component of the output says
      that neighbour lists are rebuilt before the next computation. *)
  Definition phaseDone (usable : list Z) (is : list Input) (outs : list (Z * bool * bool)) (from : nat) : Prop :=
    exists cs best, Permutation cs usable /\ (best < length cs)%nat /\
      (forall j r, (j < length cs)%nat -> (r < maxSamples)%nat ->
         nth_error outs (from + (j * maxSamples + r)) = Some (nth j cs 0, true, Nat.eqb (S r) maxSamples)) /\
      (forall j, (j < length cs)%nat -> sampleOf is from best <= sampleOf is from j) /\
      (forall r, (length cs * maxSamples + r < interval)%nat ->
         nth_error outs (from + (length cs * maxSamples + r)) = Some (nth best cs 0, false, Nat.eqb (Nat.modulo (S r) freq) 0)).
End Spec.

(** What a search space has to satisfy: no duplicates, the configuration that is tried last
    is applicable, and at least two configurations are never removed. *)
Definition goodSpace (applicable forever : Z -> bool) (sp : list Z) : Prop :=
  NoDup sp /\ applicable (last sp 0) = true /\
  (2 <= length (filter (fun c => applicable c || negb (forever c)) sp))%nat.
