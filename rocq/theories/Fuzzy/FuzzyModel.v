(** Model of the fuzzy controller (src/autopas/tuning/tuningStrategy/fuzzyTuning/fuzzyController/).  Doubles are real numbers,
    names of dimensions are natural numbers, names of sets are left out.  [None]: exception, endless loop or undefined. *)
From Coq Require Import Reals List Arith.
Import ListNotations.
Open Scope R_scope.

(** FuzzySetFactory.cpp:63-74. *)
Definition triangle (min peak max value : R) : R :=
  if Rle_dec value min then 0 else if Rle_dec max value then 0
  else if Rle_dec value peak then (value - min) / (peak - min) else (max - value) / (max - peak).
(** FuzzySetFactory.cpp:76-90. *)
Definition trapezoid (min leftPeak rightPeak max value : R) : R :=
  if Rle_dec value min then 0 else if Rle_dec max value then 0
  else if Rle_dec value leftPeak then (value - min) / (leftPeak - min)
  else if Rle_dec value rightPeak then 1 else (max - value) / (max - rightPeak).
(** FuzzySetFactory.cpp:92-95. *)
Definition gaussian (mean sigma value : R) : R := exp (- (1 / 2) * ((value - mean) / sigma) ^ 2).
(** FuzzySetFactory.cpp:97-100. *)
Definition sigmoid (center slope value : R) : R := 1 / (1 + exp (- slope * (value - center))).
(** FuzzySetFactory.cpp:102-124. *)
Definition sShape (x lower center upper : R) : R :=
  if Rle_dec x lower then 0
  else if Rle_dec x center then 1 / 2 * ((x - lower) / (center - lower)) ^ 2
  else if Rle_dec x upper then 1 - 1 / 2 * ((x - upper) / (center - upper)) ^ 2
  else 1.
Definition sigmoidFinite (lower center upper value : R) : R :=
  if Rlt_dec upper lower then 1 - sShape value upper center lower else sShape value lower center upper.

(** CrispSet.h: map from dimensions to ranges; operator* (CrispSet.cpp:15-22): insert keeps what is there. *)
Definition CrispSet := list (nat * (R * R)).
Definition insertDim (l : CrispSet) (d : nat * (R * R)) : CrispSet := if existsb (fun e => fst e =? fst d)%nat l then l else l ++ [d].
Definition product (a b : CrispSet) : CrispSet := fold_left insertDim b (fold_left insertDim a []).

(** FuzzySet.h: sets with a membership function of one value, sets composed with the operators of FuzzySet.cpp:148-171, and the
    cut consequents of FuzzyRule.cpp:14-27. *)
Inductive FuzzySet :=
| Base (c : CrispSet) (f : R -> R)
| Or (a b : FuzzySet)
| And (a b : FuzzySet)
| Not (a : FuzzySet)
| Cut (cut : R) (a : FuzzySet).

Fixpoint crispSet (s : FuzzySet) : CrispSet :=
  match s with
  | Base c _ => c
  | Or a b | And a b => product (crispSet a) (crispSet b)
  | Not a | Cut _ a => crispSet a
  end.

(** FuzzySet::Data: values of dimensions. *)
Definition Data := nat -> option R.

(** evaluate_membership, FuzzySet.cpp:27-49. *)
Fixpoint evaluate (data : Data) (s : FuzzySet) : option R :=
  match s with
  | Base [(d, _)] f => option_map f (data d)
  | Base _ _ => None
  | Or a b => match evaluate data a, evaluate data b with Some x, Some y => Some (Rmax x y) | _, _ => None end
  | And a b => match evaluate data a, evaluate data b with Some x, Some y => Some (Rmin x y) | _, _ => None end
  | Not a => option_map (fun x => 1 - x) (evaluate data a)
  | Cut c a => option_map (Rmin c) (evaluate data a)
  end.

(** FuzzyRule: antecedent and consequent; apply, FuzzyRule.cpp:14-27. *)
Definition Rule := (FuzzySet * FuzzySet)%type.
Definition applyRule (data : Data) (r : Rule) : option FuzzySet := option_map (fun cut => Cut cut (snd r)) (evaluate data (fst r)).

(** applyRules, FuzzyControlSystem.cpp:33-38.  transform_reduce may combine in any order; here from the left. *)
Definition combine2 (data : Data) (acc : option FuzzySet) (r : Rule) : option FuzzySet :=
  match acc, applyRule data r with Some s, Some t => Some (Or s t) | _, _ => None end.
Definition applyRules (data : Data) (rules : list Rule) : option FuzzySet :=
  match rules with [] => None | r :: rs => fold_left (combine2 data) rs (applyRule data r) end.

(** The loops of FuzzySet.cpp:76 and 103: the values of x.  [fuel] bounds the steps. *)
Fixpoint sampleLoop (fuel : nat) (x step maxBoundary : R) : option (list R) :=
  match fuel with
  | O => None
  | S f => if Rle_dec x maxBoundary then option_map (cons x) (sampleLoop f (x + step) step maxBoundary) else Some []
  end.
Definition sampleXs (fuel numSamples : nat) (minBoundary maxBoundary : R) : option (list R) :=
  sampleLoop fuel minBoundary ((maxBoundary - minBoundary) / (INR numSamples - 1)) maxBoundary.

(** data[dimensionName] = x. *)
Definition single (d : nat) (x : R) : Data := fun k => if (k =? d)%nat then Some x else None.
Fixpoint memberships (s : FuzzySet) (d : nat) (xs : list R) : option (list (R * R)) :=
  match xs with
  | [] => Some []
  | x :: r => match evaluate (single d x) s, memberships s d r with Some m, Some l => Some ((x, m) :: l) | _, _ => None end
  end.

(** centerOfGravity, FuzzySet.cpp:62-84. *)
Definition gravity (ps : list (R * R)) : R :=
  let '(numerator, denominator) := fold_left (fun '(n, e) '(x, m) => (n + x * m, e + m)) ps (0, 0) in
  if Req_EM_T denominator 0 then 0 else numerator / denominator.

(** isNearRel with 1e-5, utils/Math.cpp:32-37. *)
Definition isNear (a b : R) : Prop := Rabs (a - b) <= / 100000 * Rmax (Rabs a) (Rabs b).
Definition isNear_dec a b : {isNear a b} + {~ isNear a b} := Rle_dec _ _.
(** meanOfMaximum, FuzzySet.cpp:86-119. *)
Definition maximumStep (st : R * list R) (p : R * R) : R * list R :=
  let st1 := if Rlt_dec (fst st) (snd p) then (snd p, []) else st in
  if isNear_dec (snd p) (fst st1) then (fst st1, snd st1 ++ [fst p]) else st1.
Definition meanMaximum (ps : list (R * R)) : R :=
  match snd (fold_left maximumStep ps (0, [])) with
  | [] => 0
  | xs => fold_left Rplus xs 0 / INR (length xs)
  end.

(** defuzzify, FuzzySet.cpp:51-60; predict, FuzzyControlSystem.cpp:40-57 (settings resolved). *)
Inductive Method := CoG | MoM.
Definition defuzzify (fuel : nat) (method : Method) (numSamples : nat) (s : FuzzySet) : option R :=
  match crispSet s with
  | [(d, (lo, hi))] =>
      match sampleXs fuel numSamples lo hi with
      | None => None
      | Some xs => option_map (match method with CoG => gravity | MoM => meanMaximum end) (memberships s d xs)
      end
  | _ => None
  end.
Definition predict (fuel : nat) (method : Method) (numSamples : nat) (rules : list Rule) (data : Data) : option R :=
  match applyRules data rules with None => None | Some s => defuzzify fuel method numSamples s end.
