(** Model of structure-of-arrays buffers: SoA.h and the loader and extractor of Functor.h.
    Attributes are numbers, values are of any type; a particle gives a value for each
    attribute.  [None] is an access beyond the end of an array. *)
From Coq Require Import List Bool Arith.
Import ListNotations.

Section SoA.
  Variable V : Type.
  (** The value resize fills with. *)
  Variable zero : V.

  Definition Particle := nat -> V.
  (** Set an attribute, ParticleBase.h:333-374 and the particle classes. *)
  Definition setAttr (p : Particle) (a : nat) (v : V) : Particle := fun b => if Nat.eqb b a then v else p b.
  (** The arrays, SoAStorage.h. *)
  Definition Soa := nat -> list V.

  (** resizeArrays, SoA.h:42-44: all arrays. *)
  Definition resizeList (n : nat) (l : list V) : list V := firstn n l ++ repeat zero (n - length l).
  Definition resizeArrays (n : nat) (s : Soa) : Soa := fun a => resizeList n (s a).

  (** A write to a position of an array. *)
  Record Write := mkWrite { wAttr : nat; wPos : nat; wVal : V }.
  Definition setNth (i : nat) (v : V) (l : list V) : list V := firstn i l ++ v :: skipn (S i) l.
  Definition doWrite (s : Soa) (w : Write) : option Soa :=
    if Nat.ltb (wPos w) (length (s (wAttr w))) then
      Some (fun a => if Nat.eqb a (wAttr w) then setNth (wPos w) (wVal w) (s a) else s a)
    else None.
  Fixpoint doWrites (s : Soa) (ws : list Write) : option Soa :=
    match ws with
    | [] => Some s
    | w :: ws' => match doWrite s w with None => None | Some s' => doWrites s' ws' end
    end.

  (** SoALoaderImpl, Functor.h:202-231: its writes, and their execution. *)
  Fixpoint loaderWrites (needed : list nat) (i : nat) (cell : list Particle) : list Write :=
    match cell with
    | [] => []
    | p :: cell' => map (fun a => mkWrite a i (p a)) needed ++ loaderWrites needed (S i) cell'
    end.
  Definition soaLoader (needed : list nat) (cell : list Particle) (s : Soa) (offset : nat) (skipResize : bool) : option Soa :=
    doWrites (if skipResize then s else resizeArrays (offset + length cell) s) (loaderWrites needed offset cell).

  (** SoAExtractorImpl, Functor.h:240-268. *)
  Fixpoint extractParticle (computed : list nat) (s : Soa) (i : nat) (p : Particle) : option Particle :=
    match computed with
    | [] => Some p
    | a :: r => match nth_error (s a) i with None => None | Some v => extractParticle r s i (setAttr p a v) end
    end.
  Fixpoint soaExtractor (computed : list nat) (cell : list Particle) (s : Soa) (offset : nat) : option (list Particle) :=
    match cell with
    | [] => Some []
    | p :: cell' =>
        match extractParticle computed s offset p, soaExtractor computed cell' s (S offset) with
        | Some p', Some r => Some (p' :: r)
        | _, _ => None
        end
    end.

  (** initTraversal of the Verlet lists, VLListIterationTraversal.h:44-61 (the same code in
      VLCNeighborListInterface.h:64-87 and VerletNeighborListAsBuild.h:197-220): all cells go
      into one buffer.  The cells are loaded in parallel: the writes of all of them are
      executed in any order. *)
  Fixpoint offsets (o : nat) (cells : list (list Particle)) : list nat :=
    match cells with [] => [] | c :: r => o :: offsets (o + length c) r end.
  Definition total (cells : list (list Particle)) : nat := list_sum (map (@length Particle) cells).
  Definition allWrites (needed : list nat) (cells : list (list Particle)) : list Write :=
    flat_map (fun oc => loaderWrites needed (fst oc) (snd oc)) (combine (offsets 0 cells) cells).
  (** endTraversal, VLListIterationTraversal.h:63-72. *)
  Fixpoint extractAll (computed : list nat) (cells : list (list Particle)) (s : Soa) (offset : nat) : option (list (list Particle)) :=
    match cells with
    | [] => Some []
    | c :: r =>
        match soaExtractor computed c s offset, extractAll computed r s (offset + length c) with
        | Some c', Some r' => Some (c' :: r')
        | _, _ => None
        end
    end.
  (** SoA::append, SoA.h:75-79, 242-246: all arrays. *)
  Definition append (s t : Soa) : Soa := fun a => s a ++ t a.
End SoA.
Arguments mkWrite {V}. Arguments wAttr {V}. Arguments wPos {V}. Arguments wVal {V}.
