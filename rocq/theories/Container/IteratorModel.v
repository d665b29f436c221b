(** Model of iterators/ContainerIterator.h together with the index search of the
    containers (LinkedCells.h, DirectSum.h).

    A container is its vector of cells, each a list of particles.  size_t values
    are integers, [++] and [--] on particle indices wrap around at 2^64 (the code
    decrements 0 and stores the largest size_t).  A pointer to the current particle
    is represented by the particle it points at.  [None] is undefined behaviour
    (access past the end of a vector) or a loop that does not terminate. *)
From Verif.Base Require Import ZRange.

(** Values of size_t. *)
Definition sizeMod : Z := 18446744073709551616.
Definition sizeMax : Z := sizeMod - 1.
Definition incr (i : Z) : Z := (i + 1) mod sizeMod.
Definition decr (i : Z) : Z := (i - 1) mod sizeMod.

(** options/IteratorBehavior.h:31-55. *)
Definition bhOwned : Z := 1.
Definition bhHalo : Z := 2.
Definition bhOwnedOrHalo : Z := 3.
Definition bhDummy : Z := 4.
Definition bhAll : Z := 7.
Definition bhForceSequential : Z := 8.
Definition hasFlag (behavior flag : Z) : bool := negb (Z.land behavior flag =? 0).

(** particles/OwnershipState.h:17-24. *)
Definition stDummy : Z := 0.
Definition stOwned : Z := 1.
Definition stHalo : Z := 2.

(** containerIteratorUtils::particleFulfillsIteratorRequirements,
    ContainerIterator.h:57-79.  [inRegion] is inBox for region iterators and true
    otherwise. *)
Definition fulfills (behavior : Z) (inRegion : bool) (ownership : Z) : bool :=
  if negb inRegion then false
  else if (Z.land behavior bhAll =? bhAll) || (hasFlag behavior bhDummy && (ownership =? stDummy)) then true
  else hasFlag ownership behavior.

Section Iterator.
  Variable P : Type.

  Definition cells_t := list (list P).

  (** Element [i] of a vector; out of range is undefined behaviour. *)
  Definition at_ {A} (l : list A) (i : Z) : option A :=
    if i <? 0 then None else nth_error l (Z.to_nat i).
  Definition size {A} (l : list A) : Z := Z.of_nat (length l).

  Fixpoint setAt {A} (l : list A) (i : nat) (x : A) : list A :=
    match l, i with
    | [], _ => []
    | _ :: r, O => x :: r
    | y :: r, S n => y :: setAt r n x
    end.

  (** What a container and an iterator behaviour fix for one thread:
      cellIsRelevant(), startCellIndex, the index after which advanceIteratorIndices
      gives up, the index after which getParticleImpl returns nullptr, the stride,
      the number of the thread (0 and stride 1 if forceSequential),
      particleFulfillsIteratorRequirements, and, for containers that only mark
      deleted particles, the marking. *)
  Record Conf := mkConf {
    relevant : Z -> bool; startCell : Z; endCell : Z; lastCell : Z;
    stride : Z; threadNum : Z; ful : P -> bool; marking : option (P -> P) }.

  Section OneThread.
    Variable cf : Conf.

    (** The inner while loop of advanceIteratorIndices, LinkedCells.h:517-529,
        DirectSum.h:464-471.  [Some None] is the return from inside the loop. *)
    Fixpoint skipCells (fuel : nat) (cells : cells_t) (c p : Z) : option (option (Z * Z)) :=
      match fuel with
      | O => None
      | S f =>
          match at_ cells c with
          | None => None
          | Some cell =>
              if negb (relevant cf c) || (size cell <=? p) then
                if endCell cf <? c + stride cf then Some None
                else skipCells f cells (c + stride cf) 0
              else Some (Some (c, p))
          end
      end.

    (** advanceIteratorIndices, LinkedCells.h:487-535, DirectSum.h:454-478. *)
    Fixpoint advance (fuel : nat) (cells : cells_t) (c p : Z) : option (Z * Z) :=
      match fuel with
      | O => None
      | S f =>
          match skipCells (S (length cells)) cells c (incr p) with
          | None => None
          | Some None => Some (sizeMax, sizeMax)
          | Some (Some (c', p')) =>
              match at_ cells c' with
              | None => None
              | Some cell =>
                  match at_ cell p' with
                  | None => None
                  | Some x => if ful cf x then Some (c', p') else advance f cells c' p'
                  end
              end
          end
      end.

    (** getParticleImpl, LinkedCells.h:228-285, DirectSum.h:390-440. *)
    Definition getParticle (cells : cells_t) (c p : Z) : option (option P * Z * Z) :=
      let c := if (c =? 0) && (p =? 0) then startCell cf + threadNum cf else c in
      if size cells <=? c then Some (None, 0, 0)
      else match at_ cells c with
      | None => None
      | Some cell =>
          let ok := if size cell <=? p then Some false
                    else match at_ cell p with Some x => Some (ful cf x) | None => None end in
          let idx := match ok with
            | None => None
            | Some true => Some (c, p)
            | Some false => advance (S (length (concat cells))) cells c p
            end in
          match idx with
          | None => None
          | Some (c', p') =>
              if lastCell cf <? c' then Some (None, 0, 0)
              else match at_ cells c' with
                | None => None
                | Some cell' => match at_ cell' p' with Some x => Some (Some x, c', p') | None => None end
                end
          end
      end.

    (** Swap-delete, LinkedCells.h:297-304, DirectSum.h:353-360, or marking as
        deleted (LinkedCellsReferences.h:287-291, VerletClusterLists.h:352-356).
        Returns the new vector and whether the index is still valid. *)
    Definition swapDelete (l : list P) (i : nat) : list P :=
      match rev l with
      | [] => l
      | b :: _ => removelast (setAt l i b)
      end.
    Definition deleteFrom (l : list P) (i : nat) : list P * bool :=
      match marking cf with
      | None => let l' := swapDelete l i in (l', (i <? length l')%nat)
      | Some mark => (match nth_error l i with Some x => setAt l i (mark x) | None => l end, false)
      end.

    (** The object: the cells of the container and the buffers of the logic
        handler. *)
    Record Store := mkStore { cells : cells_t; buffers : list (list P) }.

    (** Members of ContainerIterator, ContainerIterator.h:398-455: the indices,
        the current particle, the additional vectors (numbers of the buffers) and
        the flag. *)
    Record Iter := mkIter {
      vecIdx : Z; partIdx : Z; current : option P; vectors : list nat; inVectors : bool }.

    (** Inner for loop over one additional vector, ContainerIterator.h:345-352,
        starting with the tail of the vector at index [i]. *)
    Fixpoint firstMatch (l : list P) (i : Z) : option (Z * P) :=
      match l with
      | [] => None
      | x :: r => if ful cf x then Some (i, x) else firstMatch r (i + 1)
      end.

    (** Outer for loop, ContainerIterator.h:343-354. *)
    Fixpoint scanVectors (fuel : nat) (bufs : list (list P)) (vs : list nat) (v i : Z) : option (option (Z * Z * P)) :=
      match fuel with
      | O => None
      | S f =>
          if v <? size vs then
            match at_ vs v with
            | None => None
            | Some b =>
                match nth_error bufs b with
                | None => None
                | Some l =>
                    match firstMatch (skipn (Z.to_nat i) l) i with
                    | Some (i', x) => Some (Some (v, i', x))
                    | None => scanVectors f bufs vs (v + stride cf) 0
                    end
                end
            end
          else Some None
      end.

    Definition fetchVectors (st : Store) (vs : list nat) (v i : Z) : option Iter :=
      match scanVectors (S (length vs)) (buffers st) vs v i with
      | None => None
      | Some (Some (v', i', x)) => Some (mkIter v' i' (Some x) vs true)
      | Some None => Some (mkIter sizeMax sizeMax None vs true)
      end.

    (** fetchParticleAtCurrentIndex, ContainerIterator.h:320-361. *)
    Definition fetch (st : Store) (it : Iter) : option Iter :=
      if inVectors it then fetchVectors st (vectors it) (vecIdx it) (partIdx it)
      else match getParticle (cells st) (vecIdx it) (partIdx it) with
      | None => None
      | Some (Some x, c, p) => Some (mkIter c p (Some x) (vectors it) false)
      | Some (None, c, p) =>
          match vectors it with
          | [] => Some (mkIter c p None [] false)
          | _ => fetchVectors st (vectors it) (threadNum cf) 0
          end
      end.

    (** Constructor, ContainerIterator.h:229-262. *)
    Definition begin_ (st : Store) (vs : list nat) : option Iter := fetch st (mkIter 0 0 None vs false).

    (** operator++, ContainerIterator.h:271-276. *)
    Definition next (st : Store) (it : Iter) : option Iter :=
      fetch st (mkIter (vecIdx it) (incr (partIdx it)) (current it) (vectors it) (inVectors it)).

    (** deleteCurrentParticle, ContainerIterator.h:368-395.  After the last
        particle of an additional vector was deleted the code reads it once more
        through the dangling pointer; we read the value that was there. *)
    Definition deleteCurrent (st : Store) (it : Iter) : option (Store * Iter) :=
      match current it with
      | None => None
      | Some x =>
          let back st' it' := Some (st', mkIter (vecIdx it') (decr (partIdx it')) (current it') (vectors it') (inVectors it')) in
          let advance_ st' := match next st' it with None => None | Some it' => back st' it' end in
          if inVectors it then
            match at_ (vectors it) (vecIdx it) with
            | None => None
            | Some b =>
                match nth_error (buffers st) b with
                | None => None
                | Some l =>
                    let l' := swapDelete l (Z.to_nat (partIdx it)) in
                    let st' := mkStore (cells st) (setAt (buffers st) b l') in
                    let now := match nth_error l' (Z.to_nat (partIdx it)) with Some y => y | None => x end in
                    if match l' with [] => true | _ => false end || negb (ful cf now) then advance_ st'
                    else back st' (mkIter (vecIdx it) (partIdx it) (Some now) (vectors it) true)
                end
            end
          else
            match at_ (cells st) (vecIdx it) with
            | None => None
            | Some l =>
                let (l', valid) := deleteFrom l (Z.to_nat (partIdx it)) in
                let st' := mkStore (setAt (cells st) (Z.to_nat (vecIdx it)) l') (buffers st) in
                match nth_error l' (Z.to_nat (partIdx it)), valid with
                | Some y, true =>
                    if ful cf y then back st' (mkIter (vecIdx it) (partIdx it) (Some y) (vectors it) false)
                    else advance_ st'
                | _, _ => advance_ st'
                end
            end
      end.

    (** One round of
          for (auto it = begin(); it.isValid(); ++it) { ... }
        whose body deletes the current particle iff [del]. *)
    Definition loopStep (st : Store) (it : Iter) (del : bool) : option (Store * Iter) :=
      if del then
        match deleteCurrent st it with
        | None => None
        | Some (st', it') => match next st' it' with None => None | Some it'' => Some (st', it'') end
        end
      else match next st it with None => None | Some it' => Some (st, it') end.

    (** The loop on one thread.  Which particles are deleted is decided by
        [decide], which may depend on everything visited so far. *)
    Fixpoint runLoop (fuel : nat) (decide : list P -> P -> bool) (st : Store) (it : Iter) (seen : list P)
      : option (Store * list P) :=
      match current it with
      | None => Some (st, seen)
      | Some x =>
          match fuel with
          | O => None
          | S f =>
              match loopStep st it (decide seen x) with
              | None => None
              | Some (st', it') => runLoop f decide st' it' (seen ++ [x])
              end
          end
      end.
  End OneThread.

  (** LogicHandler::gatherAdditionalVectors, LogicHandler.h:437-459: the non-empty
      ones among the buffers the behaviour asks for.  [buffers] are the particle
      buffers followed by the halo buffers, [nOwned] the number of the former. *)
  Definition gather (behavior : Z) (nOwned : nat) (st : Store) : list nat :=
    let wanted := (if hasFlag behavior bhOwned then seq 0 nOwned else []) ++
                  (if hasFlag behavior bhHalo then seq nOwned (length (buffers st) - nOwned) else []) in
    filter (fun b => match nth_error (buffers st) b with Some (_ :: _) => true | _ => false end) wanted.

  (** A parallel region in which every thread runs the loop.  A thread that has not
      started creates its iterator with its first step; a step of a running thread
      is one round of the loop; a finished thread does nothing.  Rounds are atomic:
      a round of one thread accesses no vector that another thread accesses. *)
  Inductive Thread := NotStarted | Running (it : Iter) (seen : list P).

  Section Parallel.
    Variable conf : Z -> Conf.
    Variable gatherNow : Store -> list nat.
    Variable decide : Z -> list P -> P -> bool.

    Definition threadStep (t : nat) (st : Store) (th : Thread) : option (Store * Thread) :=
      let cf := conf (Z.of_nat t) in
      match th with
      | NotStarted => match begin_ cf st (gatherNow st) with None => None | Some it => Some (st, Running it []) end
      | Running it seen =>
          match current it with
          | None => Some (st, th)
          | Some x =>
              match loopStep cf st it (decide (Z.of_nat t) seen x) with
              | None => None
              | Some (st', it') => Some (st', Running it' (seen ++ [x]))
              end
          end
      end.

    (** [schedule] lists which thread makes the next step. *)
    Fixpoint runParallel (schedule : list nat) (st : Store) (ths : list Thread) : option (Store * list Thread) :=
      match schedule with
      | [] => Some (st, ths)
      | t :: r =>
          match nth_error ths t with
          | None => runParallel r st ths
          | Some th =>
              match threadStep t st th with
              | None => None
              | Some (st', th') => runParallel r st' (setAt ths t th')
              end
          end
      end.
  End Parallel.
End Iterator.

Arguments relevant {P}. Arguments startCell {P}. Arguments endCell {P}. Arguments lastCell {P}.
Arguments stride {P}. Arguments threadNum {P}. Arguments ful {P}. Arguments marking {P}.
Arguments cells {P}. Arguments buffers {P}. Arguments mkStore {P}.
Arguments vecIdx {P}. Arguments partIdx {P}. Arguments current {P}. Arguments vectors {P}. Arguments inVectors {P}.
Arguments mkIter {P}. Arguments mkConf {P}.
Arguments skipCells {P}. Arguments advance {P}. Arguments getParticle {P}. Arguments swapDelete {P}.
Arguments deleteFrom {P}. Arguments firstMatch {P}. Arguments scanVectors {P}. Arguments fetchVectors {P}.
Arguments fetch {P}. Arguments begin_ {P}. Arguments next {P}. Arguments deleteCurrent {P}. Arguments loopStep {P}.
Arguments runLoop {P}. Arguments gather {P}. Arguments NotStarted {P}. Arguments Running {P}.
Arguments threadStep {P}. Arguments runParallel {P}.
