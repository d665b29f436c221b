(** What a history of registrations means. *)
From Coq Require Import Reals List.
From Verif.MD Require Import MixingModel.
Import ListNotations.
Local Open Scope R_scope.

(** Epsilon and sigma of a type: the last ones set, zero by default. *)
Definition parametersOf (rs : list Registration) (i : nat) : R * R :=
  fold_left (fun acc r => match r with
                          | RLJ id e s => if Nat.eqb i id then (e, s) else acc
                          | _ => acc
                          end) rs (0, 0).
(** The Axilrod-Teller parameter of a type: likewise. *)
Definition nuOfType (rs : list Registration) (i : nat) : R :=
  fold_left (fun acc r => match r with RAT id n => if Nat.eqb i id then n else acc | _ => acc end) rs 0.
(** The number of types registered. *)
Definition numSites (rs : list Registration) : nat :=
  length (filter (fun r => match r with RSite _ => true | _ => false end) rs).
(** Lennard-Jones parameters were set for some type. *)
Definition usesLJ (rs : list Registration) : Prop := exists id e s, In (RLJ id e s) rs.
(** Axilrod-Teller parameters were set for some type. *)
Definition usesAT (rs : list Registration) : Prop := exists id n, In (RAT id n) rs.

(** Lorentz-Berthelot mixing: geometric mean of the epsilons, arithmetic mean of the
    sigmas. *)
Definition mixedEpsilon (p q : R * R) : R := sqrt (fst p * fst q).
Definition mixedSigma (p q : R * R) : R := (snd p + snd q) / 2.
Definition mixed (cutoff : R) (p q : R * R) : LJProps :=
  mkLJ (24 * mixedEpsilon p q) (mixedSigma p q * mixedSigma p q)
    (calcShift6 (24 * mixedEpsilon p q) (mixedSigma p q * mixedSigma p q) (cutoff * cutoff)).
