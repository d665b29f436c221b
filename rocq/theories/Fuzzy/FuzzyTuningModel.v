(** Model of the fuzzy tuning strategy (src/autopas/tuning/tuningStrategy/fuzzyTuning/FuzzyTuning.cpp, OutputMapper.cpp).  Doubles
    are real numbers.  [None]: exception or undefined. *)
From Coq Require Import Reals List Bool.
Import ListNotations.
Open Scope R_scope.

Section FuzzyTuning.
  Context {Conf Pattern : Type}.
  Variable matches : Pattern -> Conf -> bool.

  (** OutputMapper: values with lists of patterns. *)
  Definition Mapping := list (R * list Pattern).
  (** getClosestConfigurationPatterns, OutputMapper.cpp:15-28; min_element gives the first minimum. *)
  Definition closest (value : R) (m : Mapping) : option (list Pattern) :=
    match m with
    | [] => None
    | e :: r => Some (snd (fold_left (fun best a => if Rlt_dec (Rabs (fst a - value)) (Rabs (fst best - value)) then a else best) r e))
    end.

  (** A fuzzy control system: what it predicts for the current live info ([None]: exception) and its output mapping. *)
  Definition System := (option R * Mapping)%type.
  Definition patternsOf (s : System) : option (list Pattern) := match fst s with None => None | Some v => closest v (snd s) end.

  Definition anyMatch (ps : list Pattern) (c : Conf) : bool := existsb (fun p => matches p c) ps.

  (** updateQueueInterpretOutputAsIndividualSystems, FuzzyTuning.cpp:142-183. *)
  Fixpoint filterSystems (systems : list System) (space : list Conf) : option (list Conf) :=
    match systems with
    | [] => Some space
    | s :: r => match patternsOf s with None => None | Some ps => filterSystems r (filter (anyMatch ps) space) end
    end.
  Definition updateIndividual (systems : list System) (queue : list Conf) : option (list Conf) :=
    option_map (@rev Conf) (filterSystems systems queue).

  (** updateQueueInterpretOutputAsSuitability, FuzzyTuning.cpp:185-240: exactly one pattern for each system. *)
  Fixpoint suitabilities (systems : list System) : option (list (Pattern * R)) :=
    match systems with
    | [] => Some []
    | s :: r => match fst s, patternsOf s, suitabilities r with Some v, Some [p], Some l => Some ((p, v) :: l) | _, _, _ => None end
    end.
  (** std::sort, largest first; the order of equal ones is not specified. *)
  Fixpoint insertSuit (p : Pattern * R) (l : list (Pattern * R)) : list (Pattern * R) :=
    match l with [] => [p] | q :: r => if Rlt_dec (snd q) (snd p) then p :: l else q :: insertSuit p r end.
  Definition sortSuit (l : list (Pattern * R)) : list (Pattern * R) := fold_right insertSuit [] l.
  (** The loop of lines 217-227 with its break. *)
  Fixpoint takeBest (limit : R) (l : list (Pattern * R)) : list Pattern :=
    match l with [] => [] | (p, s) :: r => if Rlt_dec s limit then [] else p :: takeBest limit r end.
  Definition updateSuitability (threshold : R) (systems : list System) (queue : list Conf) : option (list Conf) :=
    match suitabilities systems with
    | None => None
    | Some l =>
        match sortSuit l with
        | [] => None
        | b :: r => Some (rev (filter (anyMatch (takeBest (snd b * (1 - threshold)) (b :: r))) queue))
        end
    end.
End FuzzyTuning.
