(** Model of the thermostat of md-flexible (examples/md-flexible/src/Thermostat.h), exact
    arithmetic.  The particles are given as ranks, threads of a rank, and particles a thread
    iterates over: owned particles and halo particles, since begin() without argument visits
    both (AutoPasDecl.h:271,277). *)
From Coq Require Import Reals List Bool Arith.
From Verif.Base Require Import OptionM.
From Verif.Functor Require Import SortModel.
Import ListNotations.
Local Open Scope R_scope.

Record TPart := mkTPart { tType : nat; tVel : R3; tAng : R3; tOwned : bool }.
Definition System := list (list (list TPart)).

Section Thermostat.
  (** MD_FLEXIBLE_MODE == MULTISITE, number of registered types, getMolMass, getMomentOfInertia. *)
  Variables (multiSite : bool) (numberComponents : nat) (molMass : nat -> R) (momentOfInertia : nat -> R3).

  (** Contribution of a particle to kineticEnergyMul2, Thermostat.h:107-115. *)
  Definition energyMul2 (p : TPart) : R :=
    let e := molMass (tType p) * dot (tVel p) (tVel p) in
    if multiSite then e + dot (momentOfInertia (tType p)) (rmul (tAng p) (tAng p)) else e.

  (** kineticEnergyMul2Map and numParticleMap: values of the types below numberComponents. *)
  Definition Aggregate := ((nat -> R) * (nat -> nat))%type.
  Definition zeroAggregate : Aggregate := ((fun _ => 0), (fun _ => 0%nat)).
  (** Loop of a thread, Thermostat.h:105-117; [None]: at() throws for an unregistered type. *)
  Fixpoint threadLoop (ps : list TPart) (a : Aggregate) : option Aggregate :=
    match ps with
    | [] => Some a
    | p :: t =>
        if (tType p <? numberComponents)%nat then
          threadLoop t
            ((fun k => if (k =? tType p)%nat then fst a k + energyMul2 p else fst a k),
             (fun k => if (k =? tType p)%nat then S (snd a k) else snd a k))
        else None
    end.
  (** Thermostat.h:119-124 and the MPI_Allreduce of lines 132-140. *)
  Definition plusAggregate (a b : Aggregate) : Aggregate :=
    ((fun k => fst a k + fst b k), (fun k => (snd a k + snd b k)%nat)).
  Definition rankAggregate (threads : list (list TPart)) : option Aggregate :=
    match mapM (fun ps => threadLoop ps zeroAggregate) threads with
    | Some l => Some (fold_left plusAggregate l zeroAggregate)
    | None => None
    end.
  Definition allreduce (sys : System) : option Aggregate :=
    match mapM rankAggregate sys with
    | Some l => Some (fold_left plusAggregate l zeroAggregate)
    | None => None
    end.
  (** Thermostat.h:126-131. *)
  Definition degreesOfFreedom : R := if multiSite then 6 else 3.
  (** Thermostat.h:75-149; a temperature [None] is 0/0, not a number. *)
  Definition calcTemperatureComponent (sys : System) : option (nat -> option R) :=
    match allreduce sys with
    | Some a => Some (fun k => if (snd a k =? 0)%nat then None else Some (fst a k / (INR (snd a k) * degreesOfFreedom)))
    | None => None
    end.

  (** Thermostat.h:250-255. *)
  Definition immediateTargetTemperature (target delta current : R) : R :=
    if Rlt_dec current target then Rmin (current + Rabs delta) target else Rmax (current - Rabs delta) target.
  (** Line 255; [None]: not a finite number (division by zero, root of a negative number, or the
      temperature is not a number). *)
  Definition scaling (target delta : R) (current : option R) : option R :=
    match current with
    | Some t =>
        let q := immediateTargetTemperature target delta t / t in
        if Req_EM_T t 0 then None else if Rlt_dec q 0 then None else Some (sqrt q)
    | None => None
    end.
  (** Thermostat.h:263-269. *)
  Definition scaleParticle (scal : nat -> option R) (p : TPart) : option TPart :=
    match scal (tType p) with
    | Some c => Some (mkTPart (tType p) (rscale (tVel p) c) (if multiSite then rscale (tAng p) c else tAng p) (tOwned p))
    | None => None
    end.
  (** Thermostat.h:229-271; [None] also stands for velocities that are not finite. *)
  Definition apply (target delta : R) (sys : System) : option System :=
    match calcTemperatureComponent sys with
    | Some temp => mapM (mapM (mapM (scaleParticle (fun k => scaling target delta (temp k))))) sys
    | None => None
    end.
  (** [n] applications without motion in between. *)
  Fixpoint applyN (n : nat) (target delta : R) (sys : System) : option System :=
    match n with
    | O => Some sys
    | S k => match apply target delta sys with Some s => applyN k target delta s | None => None end
    end.
End Thermostat.
