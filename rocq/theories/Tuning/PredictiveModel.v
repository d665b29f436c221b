(** Model of the tuning strategy that predicts run times (src/autopas/tuning/tuningStrategy/PredictiveTuning.cpp).
    Arithmetic on doubles is exact. *)
From Coq Require Import Reals List ZArith Bool Arith.
Import ListNotations.

(** Evidence.h:20-28. *)
Record Evid := mkEvid { eIteration : nat; ePhase : nat; eValue : Z }.

(** Result of an extrapolation: _predictionErrorValue after the configuration was put into
    _tooLongNotTestedSearchSpace, a value, or an access beyond a vector. *)
Inductive Extrapolated := NotEnough | Predicted (z : Z) | Undefined.

(** Limits of long; PredictiveTuning.h:117-127. *)
Definition longMax : Z := 2 ^ 63 - 1.
Definition predictionErrorValue : Z := longMax.
Definition predictionOverflowValue : Z := longMax - 1.

Section Predictive.
  Context {Conf Params : Type}.
  Variable eqb : Conf -> Conf -> bool.
  (** _relativeOptimumRange, _maxTuningPhasesWithoutTest, _extrapolationMethod: iteration, phase, evidence of the
      configuration, its stored parameters; gives the stored parameters of afterwards.  [None]: no parameters. *)
  Variable relativeOptimumRange : R.
  Variable maxTuningPhasesWithoutTest : nat.
  Variable extrapolate : nat -> nat -> list Evid -> option Params -> Extrapolated * option Params.

  (** _tooLongNotTestedSearchSpace and _predictionFunctionParameters.  The order of the set is not modelled. *)
  Record PState := mkPState { tooLong : list Conf; params : Conf -> option Params }.

  (** std::set::emplace. *)
  Definition emplaceConf (c : Conf) (l : list Conf) : list Conf := if existsb (eqb c) l then l else c :: l.
  (** vector::back. *)
  Definition back (l : list Evid) : option Evid := nth_error l (length l - 1).

  (** reset, lines 359-369.  Phases of evidence are not later than the phase that starts (no wrap around). *)
  Definition collectTooLong (phase : nat) (evidence : Conf -> list Evid) (queue tl : list Conf) : list Conf :=
    fold_left (fun tl c =>
      match back (evidence c) with
      | None => tl
      | Some e => if maxTuningPhasesWithoutTest <=? phase - ePhase e then emplaceConf c tl else tl
      end) queue tl.

  (** predictions[configuration] = value. *)
  Definition setPrediction (c : Conf) (z : Z) (ps : list (Conf * Z)) : list (Conf * Z) :=
    (c, z) :: filter (fun p => negb (eqb (fst p) c)) ps.

  (** calculatePredictions, lines 43-83, with the placeholder of lines 125, 202, 317 and 345.  [None]: undefined. *)
  Fixpoint calculatePredictions (iteration phase : nat) (evidence : Conf -> list Evid) (queue : list Conf)
      (ps : list (Conf * Z)) (s : PState) : option (list (Conf * Z) * PState) :=
    match queue with
    | [] => Some (ps, s)
    | c :: rest =>
        match evidence c with
        | [] => calculatePredictions iteration phase evidence rest ps s
        | _ =>
            let '(r, p) := extrapolate iteration phase (evidence c) (params s c) in
            let params' := fun x => if eqb x c then p else params s x in
            match r with
            | Undefined => None
            | NotEnough => calculatePredictions iteration phase evidence rest ps (mkPState (emplaceConf c (tooLong s)) params')
            | Predicted z =>
                calculatePredictions iteration phase evidence rest
                  (if (z =? predictionErrorValue)%Z then ps else setPrediction c (Z.max 0 z) ps) (mkPState (tooLong s) params')
            end
        end
    end.

  (** std::min_element, lines 376-382: the value of the best prediction. *)
  Definition bestPrediction (p : Conf * Z) (ps : list (Conf * Z)) : Z := fold_left (fun b q => if (snd q <? b)%Z then snd q else b) ps (snd p).
  (** Lines 383-384: the cast of a value beyond long is undefined. *)
  Definition bestAcceptable (best : Z) : option Z :=
    let z := Int_part (relativeOptimumRange * IZR best) in if (z <=? longMax)%Z then Some z else None.
  (** Lines 389-403: any order with the largest prediction first; insertion sort stands for std::sort. *)
  Fixpoint insertSorted (p : Conf * Z) (l : list (Conf * Z)) : list (Conf * Z) :=
    match l with
    | [] => [p]
    | q :: r => if (snd q <? snd p)%Z then p :: l else q :: insertSorted p r
    end.
  Definition sortPredictions (l : list (Conf * Z)) : list (Conf * Z) := fold_right insertSorted [] l.

  (** reset, lines 357-418. *)
  Definition resetPredictive (iteration phase : nat) (evidence : Conf -> list Evid) (queue : list Conf) (s : PState)
      : option (list Conf * PState) :=
    let s1 := mkPState (collectTooLong phase evidence queue (tooLong s)) (params s) in
    match calculatePredictions iteration phase evidence queue [] s1 with
    | None => None
    | Some ([], s2) => Some (queue, s2)
    | Some (p :: ps, s2) =>
        match bestAcceptable (bestPrediction p ps) with
        | None => None
        | Some limit =>
            let worthy := map fst (sortPredictions (filter (fun q => snd q <=? limit)%Z (p :: ps))) in
            Some (filter (fun c => negb (existsb (eqb c) worthy)) (tooLong s2) ++ worthy, s2)
        end
    end.

  (** addEvidence and rejectConfiguration, lines 420-432. *)
  Definition eraseConf (c : Conf) (s : PState) : PState := mkPState (filter (fun x => negb (eqb x c)) (tooLong s)) (params s).
  Definition addEvidencePredictive (c : Conf) (s : PState) : PState := eraseConf c s.
  Definition rejectPredictive (c : Conf) (indefinitely : bool) (s : PState) : PState := if indefinitely then eraseConf c s else s.
End Predictive.

(** lastResult, lines 322-349; _minNumberOfEvidence is 1; the stored parameter is the last time.  Phase 0 has no phase
    before. *)
Definition testedLastPhase (phase : nat) (evs : list Evid) : bool :=
  match back evs with Some e => S (ePhase e) =? phase | None => false end.
Definition lastResult (iteration phase : nat) (evs : list Evid) (p : option Z) : Extrapolated * option Z :=
  match negb (testedLastPhase phase evs), p with
  | true, Some v => (Predicted v, p)
  | _, _ => match back evs with Some e => (Predicted (eValue e), Some (eValue e)) | None => (NotEnough, p) end
  end.

(** newtonPolynomial, lines 207-250: reuse of stored coefficients.  The index of the evidence is computed in size_t.  Sums
    and products are exact, terms are truncated (overflows not modelled). *)
Definition sizeT : Z := 2 ^ 64.
Definition newtonIndex (size minEvidence j : nat) : Z :=
  ((Z.of_nat size - 1) mod sizeT - Z.of_nat minEvidence + Z.of_nat j) mod sizeT.
Definition access (evs : list Evid) (i : Z) : option Evid :=
  if (i <? Z.of_nat (length evs))%Z then nth_error evs (Z.to_nat i) else None.
Fixpoint newtonProduct (iteration minEvidence : nat) (evs : list Evid) (js : list nat) (v : R) : option R :=
  match js with
  | [] => Some v
  | j :: r => match access evs (newtonIndex (length evs) minEvidence j) with
              | None => None
              | Some e => newtonProduct iteration minEvidence evs r (v * (INR iteration - INR (eIteration e)))
              end
  end.
Definition truncate (x : R) : Z := if Rlt_dec x 0 then (- Int_part (- x))%Z else Int_part x.
Fixpoint newtonTerms (iteration minEvidence : nat) (evs : list Evid) (i : nat) (coefficients : list R) (sum : Z) : option Z :=
  match coefficients with
  | [] => Some sum
  | c :: r => match newtonProduct iteration minEvidence evs (seq 0 i) c with
              | None => None
              | Some v => newtonTerms iteration minEvidence evs (S i) r (sum + truncate v)%Z
              end
  end.
Definition newtonReuse (iteration minEvidence : nat) (evs : list Evid) (coefficients : list R) : option Z :=
  newtonTerms iteration minEvidence evs 0 coefficients 0.
