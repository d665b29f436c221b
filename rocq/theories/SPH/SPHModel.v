(** Model of the smoothed particle hydrodynamics functors
    (applicationLibrary/sph/SPHLibrary: SPHKernels.h, SPHCalcDensityFunctor.h, SPHCalcHydroForceFunctor.h), exact
    arithmetic.  Divisions by zero (smoothing length or density zero) are not distinguished. *)
From Coq Require Import Reals List ZArith Bool.
From Verif.Functor Require Import SortModel.
From Verif.Container Require Import IteratorModel ParticleModel.
From Verif.MD Require Import LJModel.
Import ListNotations.
Local Open Scope R_scope.

(** SPHKernels.h line 20. *)
Definition kernelSupportRadius : R := 5 / 2.

(** SPHKernels::W(dr2, h), lines 48-61. *)
Definition kernelW (dr2 h : R) : R :=
  let H := kernelSupportRadius * h in
  if Rlt_dec dr2 (H * H) then
    let s := sqrt dr2 / H in
    let s1 := 1 - s in
    let s2 := Rmax 0 (1 / 2 - s) in
    let r_value := s1 * s1 * s1 - 4 * (s2 * s2 * s2) in
    r_value * (16 / PI / (H * H * H))
  else 0.

(** SPHKernels::W(dr, h), lines 37-40. *)
Definition kernelWVec (dr : R3) (h : R) : R := kernelW (dot dr dr) h.

(** SPHKernels::gradW, lines 75-88. *)
Definition kernelGradW (dr : R3) (h : R) : R3 :=
  let H := kernelSupportRadius * h in
  let drabs := l2Norm dr in
  let s := drabs / H in
  let s1 := if Rlt_dec (1 - s) 0 then 0 else 1 - s in
  let s2 := if Rlt_dec (1 / 2 - s) 0 then 0 else 1 / 2 - s in
  let r_value := (-3 * (s1 * s1) + 12 * (s2 * s2)) * (16 / PI / (H * H * H)) in
  rscale dr (r_value / (drabs * H + 1 / 1000000 * h)).

Section SPH.
  (** Addresses of particles; attributes that the functors only read (SPHParticle.h).  The density is read by the
      hydro force functor only; the memory written by the density functor is a separate map. *)
  Context {A : Type}.
  Variable same : A -> A -> bool.
  Variable part : A -> Particle.
  Variable vel : A -> R3.
  Variables mass smth dens pres snds : A -> R.

  (** addDensity, addEngDot; addAcceleration, subAcceleration; checkAndSetVSigMax (SPHParticle.h lines 175 f.). *)
  Definition incr (a : A) (v : R) (m : A -> R) : A -> R := fun x => if same x a then m x + v else m x.
  Definition incr3 (a : A) (v : R3) (m : A -> R3) : A -> R3 := fun x => if same x a then radd (m x) v else m x.
  Definition decr3 (a : A) (v : R3) (m : A -> R3) : A -> R3 := fun x => if same x a then rsub (m x) v else m x.
  Definition checkMax (a : A) (v : R) (m : A -> R) : A -> R := fun x => if same x a then Rmax v (m x) else m x.

  (** ** Density *)
  (** SPHCalcDensityFunctor::AoSFunctor, lines 44-60. *)
  Definition densityAoS (newton3 : bool) (i j : A) (m : A -> R) : A -> R :=
    if isDummy (part i) || isDummy (part j) then m
    else
      let dr := rsub (ppos (part j)) (ppos (part i)) in
      let m1 := incr i (mass j * kernelWVec dr (smth i)) m in
      if newton3 then incr j (mass i * kernelWVec dr (smth j)) m1 else m1.

  (** Lines 103-123, 168-189 and 227-249: the inner loop for particle i; densacc is the local sum. *)
  Definition densityStep (newton3 : bool) (i : A) (st : (A -> R) * R) (j : A) : (A -> R) * R :=
    let '(m, densacc) := st in
    let drx := rx (ppos (part i)) - rx (ppos (part j)) in
    let dry := ry (ppos (part i)) - ry (ppos (part j)) in
    let drz := rz (ppos (part i)) - rz (ppos (part j)) in
    let dr2 := drx * drx + dry * dry + drz * drz in
    let mask := negb (isDummy (part j)) in
    let density := if mask then mass j * kernelW dr2 (smth i) else 0 in
    let density2 := if mask then mass i * kernelW dr2 (smth j) else 0 in
    (if newton3 then incr j density2 m else m, densacc + density).
  Definition densityRow (newton3 : bool) (i : A) (js : list A) (m : A -> R) : A -> R :=
    if isDummy (part i) then m
    else let '(m', densacc) := fold_left (densityStep newton3 i) js (m, 0) in incr i densacc m'.

  (** SoAFunctorSingle, lines 79-128 (the argument newton3 is ignored). *)
  Fixpoint densitySingle (soa : list A) (m : A -> R) : A -> R :=
    match soa with
    | [] => m
    | i :: rest => densitySingle rest (densityRow true i rest m)
    end.
  (** SoAFunctorPair, lines 133-194. *)
  Definition densityPair (newton3 : bool) (soa1 soa2 : list A) (m : A -> R) : A -> R :=
    fold_left (fun m i => densityRow newton3 i soa2 m) soa1 m.
  (** SoAFunctorVerlet, lines 201-252; the neighbours are given by their addresses instead of by indices. *)
  Definition densityVerlet (newton3 : bool) (i : A) (neighbours : list A) (m : A -> R) : A -> R :=
    densityRow newton3 i neighbours m.

  (** ** Hydrodynamic force *)
  (** What the functor writes: acceleration, rate of the internal energy, largest signal velocity. *)
  Record Hydro := mkHydro { hAcc : A -> R3; hEng : A -> R; hVsig : A -> R }.

  (** SPHCalcHydroForceFunctor::AoSFunctor, lines 46-105. *)
  Definition hydroAoS (newton3 : bool) (i j : A) (s : Hydro) : Hydro :=
    if isDummy (part i) || isDummy (part j) then s
    else
      let dr := rsub (ppos (part i)) (ppos (part j)) in
      let cutoff := smth i * kernelSupportRadius in
      if Rle_dec (cutoff * cutoff) (dot dr dr) then s
      else
        let dv := rsub (vel i) (vel j) in
        let dvdr := dot dv dr in
        let w_ij := if Rlt_dec dvdr 0 then dvdr / l2Norm dr else 0 in
        let v_sig := snds i + snds j - 3 * w_ij in
        let vs1 := checkMax i v_sig (hVsig s) in
        let vs2 := if newton3 then checkMax j v_sig vs1 else vs1 in
        let AV := - (1 / 2) * v_sig * w_ij / (1 / 2 * (dens i + dens j)) in
        let gradW_ij := rscale (radd (kernelGradW dr (smth i)) (kernelGradW dr (smth j))) (1 / 2) in
        let scale := pres i / (dens i * dens i) + pres j / (dens j * dens j) + AV in
        let acc1 := decr3 i (rscale gradW_ij (scale * mass j)) (hAcc s) in
        let acc2 := if newton3 then incr3 j (rscale gradW_ij (scale * mass i)) acc1 else acc1 in
        let scale2i := mass j * (pres i / (dens i * dens i) + 1 / 2 * AV) in
        let eng1 := incr i (dot gradW_ij dv * scale2i) (hEng s) in
        let scale2j := mass i * (pres j / (dens j * dens j) + 1 / 2 * AV) in
        let eng2 := if newton3 then incr j (dot gradW_ij dv * scale2j) eng1 else eng1 in
        mkHydro acc2 eng2 vs2.

  (** The local sums localAcc, localengdotsum and localvsigmax. *)
  Record Local := mkLocal { lAcc : R3; lEng : R; lVsig : R }.

  (** Lines 150-217, 289-359 and 416-488: the inner loop for particle i. *)
  Definition hydroStep (newton3 : bool) (i : A) (st : Hydro * Local) (j : A) : Hydro * Local :=
    let '(s, l) := st in
    let drx := rx (ppos (part i)) - rx (ppos (part j)) in
    let dry := ry (ppos (part i)) - ry (ppos (part j)) in
    let drz := rz (ppos (part i)) - rz (ppos (part j)) in
    let dr2 := drx * drx + dry * dry + drz * drz in
    let cutoff := smth i * kernelSupportRadius in
    if Rle_dec (cutoff * cutoff) dr2 then st
    else if isDummy (part j) then st
    else
      let dvX := rx (vel i) - rx (vel j) in
      let dvY := ry (vel i) - ry (vel j) in
      let dvZ := rz (vel i) - rz (vel j) in
      let dvdr := dvX * drx + dvY * dry + dvZ * drz in
      let w_ij := if Rlt_dec dvdr 0 then dvdr / sqrt dr2 else 0 in
      let v_sig := snds i + snds j - 3 * w_ij in
      let vs := if newton3 then (fun x => if same x j then (if Rlt_dec v_sig (hVsig s x) then hVsig s x else v_sig)
                                          else hVsig s x)
                else hVsig s in
      let AV := - (1 / 2) * v_sig * w_ij / (1 / 2 * (dens i + dens j)) in
      let gradW_ij := rscale (radd (kernelGradW (mkR3 drx dry drz) (smth i)) (kernelGradW (mkR3 drx dry drz) (smth j))) (1 / 2) in
      let scale := pres i / (dens i * dens i) + pres j / (dens j * dens j) + AV in
      let massscale := scale * mass j in
      let lacc := mkR3 (rx (lAcc l) - rx gradW_ij * massscale) (ry (lAcc l) - ry gradW_ij * massscale)
                       (rz (lAcc l) - rz gradW_ij * massscale) in
      let massscale2 := scale * mass i in
      let acc := if newton3 then incr3 j (mkR3 (rx gradW_ij * massscale2) (ry gradW_ij * massscale2) (rz gradW_ij * massscale2)) (hAcc s)
                 else hAcc s in
      let work := rx gradW_ij * dvX + ry gradW_ij * dvY + rz gradW_ij * dvZ in
      let scale2i := mass j * (pres i / (dens i * dens i) + 1 / 2 * AV) in
      let scale2j := mass i * (pres j / (dens j * dens j) + 1 / 2 * AV) in
      let eng := if newton3 then incr j (work * scale2j) (hEng s) else hEng s in
      (mkHydro acc eng vs, mkLocal lacc (lEng l + work * scale2i) (Rmax (lVsig l) v_sig)).
  (** The outer loop: lines 136-145 and 219-223, 275-284 and 361-365, 382-408 and 491-495. *)
  Definition hydroRow (newton3 : bool) (i : A) (js : list A) (s : Hydro) : Hydro :=
    if isDummy (part i) then s
    else
      let '(s', l) := fold_left (hydroStep newton3 i) js (s, mkLocal rzero 0 0) in
      mkHydro (incr3 i (lAcc l) (hAcc s')) (incr i (lEng l) (hEng s')) (checkMax i (lVsig l) (hVsig s')).

  (** SoAFunctorSingle, lines 111-225 (the argument newton3 is ignored). *)
  Fixpoint hydroSingle (soa : list A) (s : Hydro) : Hydro :=
    match soa with
    | [] => s
    | i :: rest => hydroSingle rest (hydroRow true i rest s)
    end.
  (** SoAFunctorPair, lines 230-367. *)
  Definition hydroPair (newton3 : bool) (soa1 soa2 : list A) (s : Hydro) : Hydro :=
    fold_left (fun s i => hydroRow newton3 i soa2 s) soa1 s.
  (** SoAFunctorVerlet, lines 373-496; neighbours by address. *)
  Definition hydroVerlet (newton3 : bool) (i : A) (neighbours : list A) (s : Hydro) : Hydro :=
    hydroRow newton3 i neighbours s.
End SPH.
