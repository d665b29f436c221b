(** Model of iterators/ContainerIterator.h over a container that is only accessed through
    getParticle and deleteParticle (ParticleContainerInterface.h).  [IteratorModel] is the
    same for containers that are vectors of cells, see [flat_run]. *)
From Verif.Base Require Import ZRange.
From Verif.Container Require Import IteratorModel.

Section Generic.
  Variables P C : Type.

  (** What a thread calls.  [acGet c i p]: getParticle for the indices [i] and [p].
      [acDelete c i p]: deleteParticle; the container, the particle that now is at these
      indices and whether the indices are still valid. *)
  Record Access := mkAccess {
    acGet : C -> Z -> Z -> option (option P * Z * Z);
    acDelete : C -> Z -> Z -> option (C * option P * bool) }.

  (** The container and the buffers of the logic handler. *)
  Record GStore := mkGStore { gContainer : C; gBuffers : list (list P) }.

  Section OneThread.
    Variable ac : Access.
    (** Only [ful], [stride] and [threadNum] are used. *)
    Variable cf : Conf P.

    Definition gFetchVectors (st : GStore) (vs : list nat) (v i : Z) : option (Iter P) :=
      match scanVectors cf (S (length vs)) (gBuffers st) vs v i with
      | None => None
      | Some (Some (v', i', x)) => Some (mkIter v' i' (Some x) vs true)
      | Some None => Some (mkIter sizeMax sizeMax None vs true)
      end.

    (** fetchParticleAtCurrentIndex, ContainerIterator.h:320-361. *)
    Definition gFetch (st : GStore) (it : Iter P) : option (Iter P) :=
      if inVectors it then gFetchVectors st (vectors it) (vecIdx it) (partIdx it)
      else match acGet ac (gContainer st) (vecIdx it) (partIdx it) with
      | None => None
      | Some (Some x, c, p) => Some (mkIter c p (Some x) (vectors it) false)
      | Some (None, c, p) =>
          match vectors it with
          | [] => Some (mkIter c p None [] false)
          | _ => gFetchVectors st (vectors it) (threadNum cf) 0
          end
      end.

    (** Constructor, ContainerIterator.h:229-262. *)
    Definition gBegin (st : GStore) (vs : list nat) : option (Iter P) := gFetch st (mkIter 0 0 None vs false).

    (** operator++, ContainerIterator.h:271-276. *)
    Definition gNext (st : GStore) (it : Iter P) : option (Iter P) :=
      gFetch st (mkIter (vecIdx it) (incr (partIdx it)) (current it) (vectors it) (inVectors it)).

    (** deleteCurrentParticle, ContainerIterator.h:368-395. *)
    Definition gDeleteCurrent (st : GStore) (it : Iter P) : option (GStore * Iter P) :=
      match current it with
      | None => None
      | Some x =>
          let back st' it' := Some (st', mkIter (vecIdx it') (decr (partIdx it')) (current it') (vectors it') (inVectors it')) in
          let advance_ st' := match gNext st' it with None => None | Some it' => back st' it' end in
          if inVectors it then
            match at_ (vectors it) (vecIdx it) with
            | None => None
            | Some b =>
                match nth_error (gBuffers st) b with
                | None => None
                | Some l =>
                    let l' := swapDelete l (Z.to_nat (partIdx it)) in
                    let st' := mkGStore (gContainer st) (setAt (gBuffers st) b l') in
                    let now := match nth_error l' (Z.to_nat (partIdx it)) with Some y => y | None => x end in
                    if match l' with [] => true | _ => false end || negb (ful cf now) then advance_ st'
                    else back st' (mkIter (vecIdx it) (partIdx it) (Some now) (vectors it) true)
                end
            end
          else
            match acDelete ac (gContainer st) (vecIdx it) (partIdx it) with
            | None => None
            | Some (c', now, valid) =>
                let st' := mkGStore c' (gBuffers st) in
                match now, valid with
                | Some y, true =>
                    if ful cf y then back st' (mkIter (vecIdx it) (partIdx it) (Some y) (vectors it) false)
                    else advance_ st'
                | _, _ => advance_ st'
                end
            end
      end.

    (** One round of the loop, as [loopStep]. *)
    Definition gLoopStep (st : GStore) (it : Iter P) (del : bool) : option (GStore * Iter P) :=
      if del then
        match gDeleteCurrent st it with
        | None => None
        | Some (st', it') => match gNext st' it' with None => None | Some it'' => Some (st', it'') end
        end
      else match gNext st it with None => None | Some it' => Some (st, it') end.
  End OneThread.

  (** A parallel region in which every thread runs the loop, as [runParallel]. *)
  Section Parallel.
    Variable access : Z -> Access.
    Variable conf : Z -> Conf P.
    Variable gatherNow : list (list P) -> list nat.
    Variable decide : Z -> list P -> P -> bool.

    Definition gThreadStep (t : nat) (st : GStore) (th : Thread P) : option (GStore * Thread P) :=
      let ac := access (Z.of_nat t) in
      let cf := conf (Z.of_nat t) in
      match th with
      | NotStarted => match gBegin ac cf st (gatherNow (gBuffers st)) with None => None | Some it => Some (st, Running it []) end
      | Running it seen =>
          match current it with
          | None => Some (st, th)
          | Some x =>
              match gLoopStep ac cf st it (decide (Z.of_nat t) seen x) with
              | None => None
              | Some (st', it') => Some (st', Running it' (seen ++ [x]))
              end
          end
      end.

    Fixpoint gRunParallel (schedule : list nat) (st : GStore) (ths : list (Thread P)) : option (GStore * list (Thread P)) :=
      match schedule with
      | [] => Some (st, ths)
      | t :: r =>
          match nth_error ths t with
          | None => gRunParallel r st ths
          | Some th =>
              match gThreadStep t st th with
              | None => None
              | Some (st', th') => gRunParallel r st' (setAt ths t th')
              end
          end
      end.
  End Parallel.
End Generic.

Arguments acGet {P C}. Arguments acDelete {P C}. Arguments mkAccess {P C}.
Arguments gContainer {P C}. Arguments gBuffers {P C}. Arguments mkGStore {P C}.
Arguments gFetchVectors {P C}. Arguments gFetch {P C}. Arguments gBegin {P C}. Arguments gNext {P C}.
Arguments gDeleteCurrent {P C}. Arguments gLoopStep {P C}. Arguments gThreadStep {P C}. Arguments gRunParallel {P C}.

(** A vector of cells as in [IteratorModel]. *)
Definition flatAccess {P} (cf : Conf P) : Access P (list (list P)) :=
  mkAccess (getParticle cf)
    (fun cells c p =>
       match at_ cells c with
       | None => None
       | Some l =>
           let (l', valid) := deleteFrom cf l (Z.to_nat p) in
           Some (setAt cells (Z.to_nat c) l', nth_error l' (Z.to_nat p), valid)
       end).
