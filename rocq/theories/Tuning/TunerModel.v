(** Model of the auto tuner: AutoTuner.cpp, EvidenceCollection.cpp, OptimumSelector.h and
    the selection loop of the LogicHandler.  Configurations are numbers in the order of
    Configuration's operator<; only that order and equality are used.  Times are integers
    and the sums of times are assumed to fit in a long; counters are assumed not to wrap.
    Smoothing of evidence (LOESS) is taken to be switched off, the loggers are left out.
    The outcome [None] is an exception or undefined behaviour. *)
From Coq Require Import ZArith List Bool.
Import ListNotations.
Local Open Scope Z_scope.

(** Evidence.h:16-28. *)
Record Evidence := mkEv { evIter : nat; evPhase : nat; evValue : Z }.
(** EvidenceCollection::_evidenceMap, EvidenceCollection.h:77: a map ordered by
    configuration; the vectors are kept with the newest entry first. *)
Definition Evidences := list (Z * list Evidence).

(** EvidenceCollection::addEvidence, EvidenceCollection.cpp:16-19, i.e. std::map::operator[]
    and push_back. *)
Fixpoint addEvidence (m : Evidences) (c : Z) (e : Evidence) : Evidences :=
  match m with
  | [] => [(c, [e])]
  | (d, es) :: m' =>
      if c =? d then (d, e :: es) :: m'
      else if c <? d then (c, [e]) :: m
      else (d, es) :: addEvidence m' c e
  end.

(** std::numeric_limits<long>::max(). *)
Definition longMax : Z := 2 ^ 63 - 1.

(** The inner loop of EvidenceCollection::getOptimalConfiguration,
    EvidenceCollection.cpp:45-52: the newest evidence of the phase below the best value so
    far. *)
Fixpoint improves (phase : nat) (best : Z) (es : list Evidence) : option Z :=
  match es with
  | [] => None
  | e :: es' => if Nat.eqb (evPhase e) phase && (evValue e <? best) then Some (evValue e) else improves phase best es'
  end.
(** The outer loop, EvidenceCollection.cpp:41-53; [None] is the default configuration. *)
Fixpoint scan (phase : nat) (opt : option Z) (best : Z) (m : Evidences) : option Z :=
  match m with
  | [] => opt
  | (c, es) :: m' =>
      match improves phase best es with
      | Some v => scan phase (Some c) v m'
      | None => scan phase opt best m'
      end
  end.
(** EvidenceCollection::getOptimalConfiguration, EvidenceCollection.cpp:34-62. *)
Definition getOptimal (phase : nat) (m : Evidences) : option Z := scan phase None longMax m.

(** OptimumSelector.h:24-50, 58-80.  min_element; accumulate and integer division (which
    truncates); sort and the element (size-1)/2. *)
Inductive Selector := FastestAbs | FastestMean | FastestMedian.
Definition minValue (l : list Z) : Z := match l with [] => 0 | x :: r => fold_left Z.min r x end.
Definition meanValue (l : list Z) : Z := Z.quot (fold_left Z.add l 0) (Z.of_nat (length l)).
Fixpoint insertZ (x : Z) (l : list Z) : list Z :=
  match l with [] => [x] | y :: r => if x <=? y then x :: l else y :: insertZ x r end.
Definition sortZ (l : list Z) : list Z := fold_right insertZ [] l.
Definition medianValue (l : list Z) : Z := nth (Nat.div (length l - 1) 2) (sortZ l) 0.
Definition optimumValue (sel : Selector) (l : list Z) : Z :=
  match l with
  | [] => 0
  | _ => match sel with FastestAbs => minValue l | FastestMean => meanValue l | FastestMedian => medianValue l end
  end.
(** AutoTuner::estimateRuntimeFromSamples, AutoTuner.cpp:365-378. *)
Definition estimateRuntime (sel : Selector) (freq : nat) (rebuilding notRebuilding : list Z) : Z :=
  let b := optimumValue sel rebuilding in
  let n := match notRebuilding with [] => b | _ => optimumValue sel notRebuilding end in
  Z.quot (b + (Z.of_nat freq - 1) * n) (Z.of_nat freq).

(** What one tuning strategy does with the queue: TuningStrategyInterface::reset and
    ::optimizeSuggestions.  It returns the new queue and whether it wiped it
    intentionally; [None] is undefined behaviour in the strategy. *)
Definition Filter := list Z -> Evidences -> option (list Z * bool).

(** The state of the tuner, AutoTuner.h:262-407.  The head of [queue] is the back of
    _configQueue.  The contents of a sample vector that is filled up by resize do not
    matter, only its length. *)
Record Tuner := mkTuner {
  space : list Z; queue : list Z; sRebuild : list Z; sNoRebuild : list Z;
  iter : nat; phase : nat; baseline : nat; isTuning : bool; forced : bool; evs : Evidences }.

Section Tuner.
  (** Tuning interval, samples per configuration, rebuild frequency, and the estimate. *)
  Variables (interval maxSamples freq : nat) (est : list Z -> list Z -> Z).

  (** The constructor, AutoTuner.cpp:22-51. *)
  Definition construct (sp : list Z) : option Tuner :=
    match sp with
    | [] => None
    | _ => Some (mkTuner sp (rev sp) [] (repeat 0 maxSamples) 0 0 0 false false [])
    end.

  (** AutoTuner::searchSpaceIsTrivial, ::inTuningPhase, ::getCurrentNumSamples,
      ::getCurrentConfig, AutoTuner.cpp:73, 438-442, 361-363, 172. *)
  Definition trivial (t : Tuner) : bool := Nat.eqb (length (space t)) 1.
  Definition inTuningPhase (t : Tuner) : bool :=
    (Nat.eqb (Nat.modulo (iter t) interval) 0 || isTuning t || forced t) && negb (trivial t).
  Definition numSamples (t : Tuner) : nat := length (sNoRebuild t) + length (sRebuild t).
  Definition current (t : Tuner) : option Z := hd_error (queue t).

  (** AutoTuner::forceRetune, AutoTuner.cpp:77-84. *)
  Definition forceRetune (t : Tuner) : Tuner :=
    mkTuner (space t) (queue t) (sRebuild t) (repeat 0 maxSamples) (iter t) (phase t) 0 (isTuning t) true (evs t).

  (** The loop over the strategies in tuneConfiguration with restoreConfigQueueIfEmpty,
      AutoTuner.cpp:97-106, 127-137, 144-154. *)
  Fixpoint applyAll (fs : list Filter) (q : list Z) (m : Evidences) : option (list Z) :=
    match fs with
    | [] => Some q
    | f :: fs' =>
        match f q m with
        | None => None
        | Some (q', wiped) =>
            let q'' := match q' with [] => if wiped then [] else q | _ => q' end in
            applyAll fs' q'' m
        end
    end.
  (** The same loop in rejectConfig, which does not restore the queue,
      AutoTuner.cpp:214-220. *)
  Fixpoint applyPlain (fs : list Filter) (q : list Z) (m : Evidences) : option (list Z) :=
    match fs with
    | [] => Some q
    | f :: fs' => match f q m with None => None | Some (q', _) => applyPlain fs' q' m end
    end.

  (** AutoTuner::tuneConfiguration, AutoTuner.cpp:86-170.  [resets] and [opts] are the
      strategies' answers. *)
  Definition tuneConfiguration (resets opts : list Filter) (t : Tuner) : option (Tuner * bool) :=
    match queue t with
    | [] => None
    | _ :: popped =>
        let start := (Nat.eqb (Nat.modulo (iter t) interval) 0 && negb (isTuning t)) || forced t in
        let filtered := if start then applyAll resets (space t) (evs t) else applyAll opts popped (evs t) in
        match filtered with
        | None => None
        | Some q =>
            let base := if start then 0%nat else baseline t in
            match q with
            | [] =>
                match getOptimal (phase t) (evs t) with
                | None => None
                | Some c => Some (mkTuner (space t) [c] (repeat 0 maxSamples) [] (iter t) (phase t) 0 false
                                    (if start then false else forced t) (evs t), false)
                end
            | _ => Some (mkTuner (space t) q [] [] (iter t) (phase t) base true
                           (if start then false else forced t) (evs t), true)
            end
        end
    end.

  (** AutoTuner::getNextConfig, AutoTuner.cpp:174-187. *)
  Definition getNextConfig (resets opts : list Filter) (t : Tuner) : option (Tuner * Z * bool) :=
    if negb (inTuningPhase t) then option_map (fun c => (t, c, false)) (current t)
    else if Nat.ltb (numSamples t) maxSamples then option_map (fun c => (t, c, true)) (current t)
    else match tuneConfiguration resets opts t with
         | None => None
         | Some (t', still) => option_map (fun c => (t', c, still)) (current t')
         end.

  (** AutoTuner::rejectConfig, AutoTuner.cpp:189-223. *)
  Definition rejectConfig (opts : list Filter) (c : Z) (indefinitely : bool) (t : Tuner) : option (Tuner * Z * bool) :=
    if trivial t then None
    else
      let q := filter (fun d => negb (d =? c)) (queue t) in
      let sp := if indefinitely then filter (fun d => negb (d =? c)) (space t) else space t in
      match applyPlain opts q (evs t) with
      | None => None
      | Some q' =>
          let t' := mkTuner sp q' (sRebuild t) (sNoRebuild t) (iter t) (phase t) (baseline t) (isTuning t) (forced t) (evs t) in
          option_map (fun d => (t', d, true)) (current t')
      end.

  (** AutoTuner::addMeasurement, AutoTuner.cpp:225-291. *)
  Definition addMeasurement (sample : Z) (rebuilt : bool) (t : Tuner) : option Tuner :=
    match queue t with
    | [] => None
    | c :: _ =>
        if Nat.leb maxSamples (numSamples t) then None
        else
          let sr := if rebuilt then sRebuild t ++ [sample] else sRebuild t in
          let sn := if rebuilt then sNoRebuild t else sNoRebuild t ++ [sample] in
          let m := if Nat.eqb (length sn + length sr) maxSamples
                   then addEvidence (evs t) c (mkEv (iter t) (phase t) (est sr sn)) else evs t in
          Some (mkTuner (space t) (queue t) sr sn (iter t) (phase t) (baseline t) (isTuning t) (forced t) m)
    end.

  (** AutoTuner::bumpIterationCounters, AutoTuner.cpp:293-311. *)
  Definition bump (needToWait : bool) (t : Tuner) : Tuner :=
    let base := if negb (needToWait || inTuningPhase t || Nat.ltb (baseline t) interval) then 0%nat else baseline t in
    let i := S (iter t) in
    mkTuner (space t) (queue t) (sRebuild t) (sNoRebuild t) i
      (if Nat.eqb (Nat.modulo i interval) 0 then S (phase t) else phase t) (S base) (isTuning t) (forced t) (evs t).

  (** AutoTuner::willRebuildNeighborLists, AutoTuner.cpp:313-319. *)
  Definition willRebuild (t : Tuner) : bool :=
    let rhythm := if inTuningPhase t then maxSamples else freq in
    Nat.eqb (Nat.modulo (if forced t then baseline t else S (baseline t)) rhythm) 0.

  (** LogicHandler::isConfigurationApplicable as seen by the tuner: whether a
      configuration can be used, and whether it is rejected forever if not
      (LogicHandler.h:1676-1723). *)
  Variables (applicable forever : Z -> bool).

  (** The loop of LogicHandler::selectConfiguration, LogicHandler.h:1573-1582.  Running out
      of [fuel] is a loop that does not end. *)
  Fixpoint rejectLoop (fuel : nat) (opts : list Filter) (t : Tuner) (c : Z) (still : bool) : option (Tuner * Z * bool) :=
    if applicable c then Some (t, c, still)
    else match fuel with
         | O => None
         | S fuel' => match rejectConfig opts c (forever c) t with
                      | None => None
                      | Some (t', c', still') => rejectLoop fuel' opts t' c' still'
                      end
         end.

  (** One computation: what the strategies answer, the time it takes and whether lists
      were rebuilt, and what the tuners of other interaction types do. *)
  Record Input := mkInput { inResets : list Filter; inOpts : list Filter; inSample : Z; inRebuilt : bool; inWait : bool }.

  (** LogicHandler::computeInteractionsPipeline, LogicHandler.h:1598-1672: select a
      configuration and hand the measurement to the tuner.  The functor is relevant for
      tuning. *)
  Definition compute (i : Input) (t : Tuner) : option (Tuner * Z * bool) :=
    match getNextConfig (inResets i) (inOpts i) t with
    | None => None
    | Some (t1, c1, still1) =>
        match rejectLoop (S (length (queue t1))) (inOpts i) t1 c1 still1 with
        | None => None
        | Some (t2, c, still) =>
            if still then option_map (fun t3 => (t3, c, still)) (addMeasurement (inSample i) (inRebuilt i) t2)
            else Some (t2, c, still)
        end
    end.

  (** One time step: a computation and then the update of the container, in which the
      handler asks whether lists are to be rebuilt and then bumps the counters
      (LogicHandler.h:160-192, 984-997).  The output is the configuration used, whether the
      tuner was tuning, and that answer. *)
  Definition timeStep (i : Input) (t : Tuner) : option (Tuner * (Z * bool * bool)) :=
    match compute i t with
    | None => None
    | Some (t', c, still) => Some (bump (inWait i) t', (c, still, willRebuild t'))
    end.
  Fixpoint runTuner (is : list Input) (t : Tuner) : option (Tuner * list (Z * bool * bool)) :=
    match is with
    | [] => Some (t, [])
    | i :: is' =>
        match timeStep i t with
        | None => None
        | Some (t', o) => option_map (fun r => (fst r, o :: snd r)) (runTuner is' t')
        end
    end.
End Tuner.

(** RandomSearch::optimizeSuggestions, RandomSearch.cpp:17-32: the queue is wiped when
    enough evidence was collected, otherwise a random element is swapped to the back; that
    accesses the back of the queue, also of an empty one. *)
Definition swapFront (k : nat) (q : list Z) : list Z :=
  match q with
  | [] => []
  | x :: r => match k with
              | O => q
              | S k' => match nth_error r k' with
                        | None => q
                        | Some y => y :: firstn k' r ++ x :: skipn (S k') r
                        end
              end
  end.
Definition randomSearch (numEvidence maxEvidence k : nat) : Filter := fun q _ =>
  if Nat.eqb numEvidence maxEvidence then Some ([], true)
  else match q with
       | [] => None
       | _ => Some (swapFront (Nat.modulo k (length q)) q, false)
       end.
(** SortByName::optimizeSuggestions and ::reset, SortByName.cpp:9-20: the back of the
    vector is the largest. *)
Definition sortByName : Filter := fun q _ => Some (rev (sortZ q), false).
