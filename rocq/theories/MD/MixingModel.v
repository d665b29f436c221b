(** Model of the particle properties library for Lennard-Jones and Axilrod-Teller sites
    (applicationLibrary/molecularDynamics/molecularDynamicsLibrary/ParticlePropertiesLibrary.h).
    Masses and multi-site molecules are left out. *)
From Coq Require Import Reals List Arith.
From Verif.Base Require Import OptionM.
Import ListNotations.
Local Open Scope R_scope.

(** PackedLJMixingData, ParticlePropertiesLibrary.h:322-330. *)
Record LJProps := mkLJ { epsilon24 : R; sigmaSquared : R; shift6 : R }.

(** _numRegisteredSiteTypes, _cutoff, _epsilons, _sigmas, _storeLJData,
    _computedLJMixingData; _nus, _storeATData, _computedATMixingData. *)
Record Library := mkLib {
  siteTypes : nat; libCutoff : R; epsilons : list R; sigmas : list R; storeLJ : bool; ljTable : list LJProps;
  nus : list R; storeAT : bool; atTable : list R }.

(** Constructor. *)
Definition newLibrary (cutoff : R) : Library := mkLib 0 cutoff [] [] false [] [] false [].

(** addSiteType: [None] is the exception for a non-consecutive id. *)
Definition addSiteType (id : nat) (l : Library) : option Library :=
  if Nat.eqb (siteTypes l) id
  then Some (mkLib (S (siteTypes l)) (libCutoff l)
               (if storeLJ l then epsilons l ++ [0] else epsilons l)
               (if storeLJ l then sigmas l ++ [0] else sigmas l) (storeLJ l) (ljTable l)
               (if storeAT l then nus l ++ [0] else nus l) (storeAT l) (atTable l))
  else None.

(** std::vector::resize. *)
Definition resize (n : nat) (l : list R) : list R := firstn n l ++ repeat 0 (n - length l).
(** l[i] = v. *)
Definition setNth {A} (i : nat) (v : A) (l : list A) : list A := firstn i l ++ v :: skipn (S i) l.

(** addLJParametersToSite: [None] is the exception for an unknown site type. *)
Definition addLJ (id : nat) (epsilon sigma : R) (l : Library) : option Library :=
  if Nat.leb (siteTypes l) id then None
  else
    let fit v := if Nat.eqb (length (epsilons l)) (siteTypes l) then v else resize (siteTypes l) v in
    Some (mkLib (siteTypes l) (libCutoff l) (setNth id epsilon (fit (epsilons l))) (setNth id sigma (fit (sigmas l)))
            true (ljTable l) (nus l) (storeAT l) (atTable l)).

(** addATParametersToSite: [None] is the exception for an unknown site type. *)
Definition addAT (id : nat) (nu : R) (l : Library) : option Library :=
  if Nat.leb (siteTypes l) id then None
  else
    let fit v := if Nat.eqb (length (nus l)) (siteTypes l) then v else resize (siteTypes l) v in
    Some (mkLib (siteTypes l) (libCutoff l) (epsilons l) (sigmas l) (storeLJ l) (ljTable l)
            (setNth id nu (fit (nus l))) true (atTable l)).

(** calcShift6. *)
Definition calcShift6 (eps24 sigma2 cutoff2 : R) : R :=
  let p2 := sigma2 / cutoff2 in
  let p6 := p2 * p2 * p2 in
  eps24 * (p6 - p6 * p6).

(** One entry of the table; [None]: out of bounds. *)
Definition mixEntry (l : Library) (i j : nat) : option LJProps :=
  match nth_error (epsilons l) i, nth_error (epsilons l) j, nth_error (sigmas l) i, nth_error (sigmas l) j with
  | Some ei, Some ej, Some si, Some sj =>
      let e24 := 24 * sqrt (ei * ej) in
      let sigma := (si + sj) / 2 in
      let s2 := sigma * sigma in
      Some (mkLJ e24 s2 (calcShift6 e24 s2 (libCutoff l * libCutoff l)))
  | _, _, _, _ => None
  end.

(** std::cbrt. *)
Definition cbrt (x : R) : R :=
  if Rlt_dec 0 x then Rpower x (1 / 3) else if Rlt_dec x 0 then - Rpower (- x) (1 / 3) else 0.
(** One entry of the Axilrod-Teller table; [None]: out of bounds. *)
Definition mixEntryAT (l : Library) (i j k : nat) : option R :=
  match nth_error (nus l) i, nth_error (nus l) j, nth_error (nus l) k with
  | Some ni, Some nj, Some nk => Some (cbrt (ni * nj * nk))
  | _, _, _ => None
  end.

(** The indices of nested loops over all types, in the order of the entries. *)
Definition pairsBelow (n : nat) : list (nat * nat) := flat_map (fun i => map (pair i) (seq 0 n)) (seq 0 n).
Definition triplesBelow (n : nat) : list (nat * (nat * nat)) := flat_map (fun i => map (pair i) (pairsBelow n)) (seq 0 n).

(** calculateMixingCoefficients.  The loops fill the entries in the order of their
    index.  Without site types the code creates an exception object and does not throw
    it: the call has no effect. *)
Definition calculateMixing (l : Library) : option Library :=
  let n := siteTypes l in
  match (if storeLJ l then mapM (fun ij => mixEntry l (fst ij) (snd ij)) (pairsBelow n) else Some (ljTable l)),
        (if storeAT l then mapM (fun ijk => mixEntryAT l (fst ijk) (fst (snd ijk)) (snd (snd ijk))) (triplesBelow n) else Some (atTable l)) with
  | Some t, Some u => Some (mkLib n (libCutoff l) (epsilons l) (sigmas l) (storeLJ l) t (nus l) (storeAT l) u)
  | _, _ => None
  end.

(** getLJMixingData, getMixing24Epsilon, getMixingSigmaSquared, getMixingShift6; [None]:
    out of bounds. *)
Definition getMixing (l : Library) (i j : nat) : option LJProps := nth_error (ljTable l) (i * siteTypes l + j).

(** getMixingNu, getATMixingData; [None]: out of bounds. *)
Definition getMixingNu (l : Library) (i j k : nat) : option R :=
  nth_error (atTable l) (i * siteTypes l * siteTypes l + j * siteTypes l + k).

(** A registration. *)
Inductive Registration := RSite (id : nat) | RLJ (id : nat) (epsilon sigma : R) | RAT (id : nat) (nu : R).
Definition register (r : Registration) (l : Library) : option Library :=
  match r with RSite id => addSiteType id l | RLJ id e s => addLJ id e s l | RAT id n => addAT id n l end.
Fixpoint registerAll (rs : list Registration) (l : Library) : option Library :=
  match rs with
  | [] => Some l
  | r :: rs' => match register r l with Some l' => registerAll rs' l' | None => None end
  end.
