(** Model of the distribution of configurations over MPI ranks:
    ConfigurationAndRankIteratorHandler, generateDistribution and getSearchSpaceSize
    (AutoPasConfigurationCommunicator.cpp), MPIParallelizedStrategy::reset.  Options are
    numbers; sets are lists in the order of iteration; ints are assumed not to overflow.
    [None] is undefined behaviour (an end iterator is dereferenced) or an exception. *)
From Coq Require Import ZArith List Bool.
Import ListNotations.

(** Container, cell size factor, traversal, load estimator, data layout, Newton 3. *)
Record Config := mkConfig { cContainer : Z; cCsf : Z; cTraversal : Z; cEstimator : Z; cLayout : Z; cNewton3 : Z }.

(** The option sets.  [traversals c] are the allowed traversals compatible with
    container [c] and [estimators c t] the load estimators that are applicable
    (ConfigurationAndRankIteratorHandler.cpp:88-106). *)
Record Options := mkOptions {
  containers : list Z; csfs : list Z; traversals : Z -> list Z; estimators : Z -> Z -> list Z; layouts : list Z; newton3s : list Z }.

(** getSearchSpaceSize, AutoPasConfigurationCommunicator.cpp:17-45. *)
Definition searchSpaceSize (o : Options) : nat :=
  list_sum (map (fun c =>
    list_sum (map (fun t => length (csfs o) * length (estimators o c t) * length (layouts o) * length (newton3s o)) (traversals o c)))
    (containers o)).

(** The option iterators, ConfigurationAndRankIteratorHandler.h:159-173; an iterator is the
    part of the list from where it points. *)
Record Its := mkIts { itC : list Z; itF : list Z; itT : list Z; itL : list Z; itD : list Z; itN : list Z }.

(** What the iterators point to. *)
Definition deref (i : Its) : option Config :=
  match itC i, itF i, itT i, itL i, itD i, itN i with
  | c :: _, f :: _, t :: _, l :: _, d :: _, n :: _ => Some (mkConfig c f t l d n)
  | _, _, _, _, _, _ => None
  end.

Section Handler.
  Variable o : Options.

  (** selectTraversalsForCurrentContainer and
      selectLoadEstimatorsForCurrentContainerAndTraversal,
      ConfigurationAndRankIteratorHandler.cpp:92-109. *)
  Definition selectEstimators (cs ts : list Z) : option (list Z) :=
    match cs, ts with c :: _, t :: _ => Some (estimators o c t) | _, _ => None end.

  (** advanceConfigIterators, ConfigurationAndRankIteratorHandler.cpp:14-41. *)
  Definition advanceConfig (i : Its) : option Its :=
    match tl (itN i) with
    | _ :: _ => Some (mkIts (itC i) (itF i) (itT i) (itL i) (itD i) (tl (itN i)))
    | [] =>
        match tl (itD i) with
        | _ :: _ => Some (mkIts (itC i) (itF i) (itT i) (itL i) (tl (itD i)) (newton3s o))
        | [] =>
            match tl (itL i) with
            | _ :: _ => Some (mkIts (itC i) (itF i) (itT i) (tl (itL i)) (layouts o) (newton3s o))
            | [] =>
                match tl (itT i) with
                | _ :: _ => option_map (fun l => mkIts (itC i) (itF i) (tl (itT i)) l (layouts o) (newton3s o)) (selectEstimators (itC i) (tl (itT i)))
                | [] =>
                    match itC i with
                    | [] => None
                    | c :: cs =>
                        match selectEstimators (itC i) (traversals o c) with
                        | None => None
                        | Some l =>
                            match tl (itF i) with
                            | _ :: _ => Some (mkIts (itC i) (tl (itF i)) (traversals o c) l (layouts o) (newton3s o))
                            | [] =>
                                match cs with
                                | [] => Some (mkIts [] (csfs o) (traversals o c) l (layouts o) (newton3s o))
                                | c' :: _ => option_map (fun l' => mkIts cs (csfs o) (traversals o c') l' (layouts o) (newton3s o)) (selectEstimators cs (traversals o c'))
                                end
                            end
                        end
                    end
                end
            end
        end
    end.

  (** The whole handler, ConfigurationAndRankIteratorHandler.h:174-179. *)
  Record Handler := mkHandler { its : Its; rankIt : nat; remBlock : nat; remainder : nat; offset : nat; blockSize : nat }.

  Variables (numConfigs commSize : nat).

  (** reset, ConfigurationAndRankIteratorHandler.cpp:77-90. *)
  Definition start : option Handler :=
    match containers o with
    | [] => None
    | c :: _ =>
        option_map (fun l => 
          let big := Nat.leb numConfigs commSize in
          let base := if big then Nat.div commSize numConfigs else Nat.div numConfigs commSize in
          mkHandler (mkIts (containers o) (csfs o) (traversals o c) l (layouts o) (newton3s o)) 0 (base - 1)
            (if big then Nat.modulo commSize numConfigs else Nat.modulo numConfigs commSize) 0 base)
          (selectEstimators (containers o) (traversals o c))
    end.

  (** advanceIterators, ConfigurationAndRankIteratorHandler.cpp:43-75. *)
  Definition advance (h : Handler) : option Handler :=
    let newBlock := Nat.eqb (remBlock h) 0 in
    match (if Nat.leb commSize numConfigs || newBlock then advanceConfig (its h) else Some (its h)) with
    | None => None
    | Some i =>
        let nextRank := Nat.leb numConfigs commSize || newBlock in
        let rank := if nextRank then S (rankIt h) else rankIt h in
        let off := if nextRank then S (offset h) else offset h in
        if newBlock then
          let more := Nat.leb commSize numConfigs in
          let base := if more then Nat.div numConfigs commSize else Nat.div commSize numConfigs in
          let rem := if Nat.ltb 0 (remainder h) then S base else base in
          Some (mkHandler i rank (rem - 1) (remainder h - 1) (if more then off else 0) (if more then blockSize h else base))
        else Some (mkHandler i rank (remBlock h - 1) (remainder h) off (blockSize h))
    end.

  (** generateDistribution, AutoPasConfigurationCommunicator.cpp:92-113: the loop up to the
      rank and the loop that collects its configurations.  Running out of [fuel] is a loop
      that does not end. *)
  Fixpoint skipTo (fuel rank : nat) (h : Handler) : option Handler :=
    if Nat.ltb (rankIt h) rank then
      match fuel with
      | O => None
      | S fuel' => match advance h with None => None | Some h' => skipTo fuel' rank h' end
      end
    else Some h.
  Fixpoint collect (fuel rank : nat) (h : Handler) : option (list Config) :=
    if Nat.eqb (rankIt h) rank then
      match fuel with
      | O => None
      | S fuel' =>
          match deref (its h), advance h with
          | Some c, Some h' => option_map (cons c) (collect fuel' rank h')
          | _, _ => None
          end
      end
    else Some [].
  (** The configurations of a rank and its share of an infinite set of cell size factors:
      AutoPasConfigurationCommunicator.cpp:60-129.  The code keeps the set of values of
      each option; the rank then searches their combinations, which include these. *)
  Definition generate (rank : nat) : option (list Config * nat * nat) :=
    match start with
    | None => None
    | Some h0 =>
        match skipTo (numConfigs + commSize) rank h0 with
        | None => None
        | Some h => option_map (fun l => (l, offset h, blockSize h)) (collect (numConfigs + commSize) rank h)
        end
    end.
End Handler.

(** distributeConfigurations, AutoPasConfigurationCommunicator.cpp:131-156. *)
Definition distribute (o : Options) (commSize rank : nat) : option (list Config * nat * nat) :=
  match searchSpaceSize o with
  | O => None
  | S n => generate o (S n) commSize rank
  end.

(** The option sets a rank keeps, AutoPasConfigurationCommunicator.cpp:104-128: the values
    of each option that occur in its configurations.  [none] is LoadEstimatorOption::none,
    which getApplicableLoadEstimators returns if nothing else is left
    (CompatibleLoadEstimators.h:79-93). *)
Definition used (p : Config -> Z) (l : list Config) (x : Z) : bool := existsb (fun c => Z.eqb (p c) x) l.
Definition rankOptions (o : Options) (none : Z) (l : list Config) : Options :=
  mkOptions (filter (used cContainer l) (containers o)) (filter (used cCsf l) (csfs o))
    (fun c => filter (used cTraversal l) (traversals o c))
    (fun c t => match filter (used cEstimator l) (estimators o c t) with [] => [none] | e => e end)
    (filter (used cLayout l) (layouts o)) (filter (used cNewton3 l) (newton3s o)).

(** MPIParallelizedStrategy::reset, MPIParallelizedStrategy.cpp:120-142: the configurations
    of the queue for one rank of a bucket; [pick] is the random choice. *)
Fixpoint everyNth (fuel i n : nat) (q : list Config) : list Config :=
  match fuel with
  | O => []
  | S fuel' => match nth_error q i with None => [] | Some c => c :: everyNth fuel' (i + n) n q end
  end.
Definition roundRobin (q : list Config) (ranks rank pick : nat) : option (list Config) :=
  if Nat.ltb rank (length q) then Some (everyNth (length q) rank ranks q)
  else match q with
       | [] => None
       | _ => option_map (fun c => [c]) (nth_error q (Nat.modulo pick (length q)))
       end.
