(** Model of the exchange of configurations between MPI ranks and of the grouping of ranks:
    AutoPasConfigurationCommunicator.cpp.  [None] is an access out of range or mismatched
    collective operations.  Numbers of bytes are assumed to fit in an int. *)
From Coq Require Import ZArith List Bool Reals.
Import ListNotations.
Local Open Scope Z_scope.

(** Configuration.h:143-172; the options are their enum values, the cell size factor is the
    64 bit pattern of the double. *)
Record Conf := mkConf { container : Z; traversal : Z; loadEstimator : Z; dataLayout : Z; newton3 : Z; interactionType : Z; csfBits : Z }.

(** castToByte, AutoPasConfigurationCommunicator.h:44-55. *)
Definition castToByte (v : Z) : Z := v mod 256.
(** The bytes memcpy copies from a number of [n] bytes, least significant first (any other
    fixed order works the same). *)
Fixpoint toBytes (n : nat) (z : Z) : list Z :=
  match n with O => [] | S n' => z mod 256 :: toBytes n' (z / 256) end.
Fixpoint ofBytes (l : list Z) : Z :=
  match l with [] => 0 | b :: l' => b + 256 * ofBytes l' end.

(** serializeConfiguration, AutoPasConfigurationCommunicator.cpp:183-195;
    SerializedConfiguration has 6 + sizeof(double) bytes,
    AutoPasConfigurationCommunicator.h:28-31. *)
Definition serialize (c : Conf) : list Z :=
  [castToByte (container c); castToByte (traversal c); castToByte (loadEstimator c); castToByte (dataLayout c); castToByte (newton3 c); castToByte (interactionType c)]
  ++ toBytes 8 (csfBits c).
Definition serializedSize : nat := 14.
(** serializeConfigurations, AutoPasConfigurationCommunicator.cpp:197-208. *)
Definition serializeAll (l : list Conf) : list Z := flat_map serialize l.
(** deserializeConfiguration, AutoPasConfigurationCommunicator.cpp:210-219. *)
Definition deserialize (b : list Z) : option Conf :=
  match b with
  | c :: t :: e :: d :: n :: i :: f => Some (mkConf c t e d n i (ofBytes (firstn 8 f)))
  | _ => None
  end.
(** deserializeConfigurations, AutoPasConfigurationCommunicator.cpp:221-236; [fuel] bounds
    the number of iterations. *)
Fixpoint deserializeLoop (fuel : nat) (b : list Z) (i : nat) : option (list Conf) :=
  if Nat.ltb i (length b) then
    match fuel with
    | O => None
    | S fuel' =>
        if Nat.leb (i + serializedSize) (length b) then
          match deserialize (firstn serializedSize (skipn i b)), deserializeLoop fuel' b (i + serializedSize) with
          | Some c, Some l => Some (c :: l)
          | _, _ => None
          end
        else None
    end
  else Some [].
Definition deserializeAll (b : list Z) : option (list Conf) := deserializeLoop (length b) b 0.

(** Writing to a buffer. *)
Definition writeAt (buf : list Z) (d : nat) (xs : list Z) : option (list Z) :=
  if Nat.leb (d + length xs) (length buf) then Some (firstn d buf ++ xs ++ skipn (d + length xs) buf) else None.
(** The offsets, AutoPasConfigurationCommunicator.cpp:307-312. *)
Fixpoint displacements (d : nat) (sizes : list nat) : list nat :=
  match sizes with [] => [] | s :: r => d :: displacements (d + s) r end.
(** MPI_Gatherv at the root. *)
Fixpoint gatherv (buf : list Z) (disp : list nat) (data : list (list Z)) : option (list Z) :=
  match disp, data with
  | d :: disp', xs :: data' => match writeAt buf d xs with None => None | Some buf' => gatherv buf' disp' data' end
  | _, _ => Some buf
  end.
(** gatherConfigurations, AutoPasConfigurationCommunicator.cpp:290-318, on rank [rank] when
    rank [i] passes [nth i local]: on the other ranks the sizes stay zero. *)
Definition gatherConfigurations (local : list (list Conf)) (root rank : nat) : option (list Conf) :=
  let data := map serializeAll local in
  if Nat.eqb rank root then
    let sizes := map (@length Z) data in
    match gatherv (repeat 0 (list_sum sizes)) (displacements 0 sizes) data with
    | None => None
    | Some b => deserializeAll b
    end
  else deserializeAll [].

(** MPI_MINLOC over (value, rank): the smallest value, among equal ones the lowest rank. *)
Fixpoint minloc (r : nat) (times : list Z) : option (Z * nat) :=
  match times with
  | [] => None
  | t :: rest => match minloc (S r) rest with
                 | None => Some (t, r)
                 | Some (t', r') => if t' <? t then Some (t', r') else Some (t, r)
                 end
  end.
(** findGloballyBestConfiguration, AutoPasConfigurationCommunicator.cpp:158-181; the result
    is the same on all ranks. *)
Definition findGloballyBest (confs : list Conf) (times : list Z) : option Conf :=
  match minloc 0 times with
  | None => None
  | Some (_, r) => match nth_error confs r with None => None | Some c => deserialize (serialize c) end
  end.

(** * Buckets *)
Section Buckets.
  Variable rnd : R -> R.
  Local Open Scope R_scope.

  (** similarityMetric, AutoPasConfigurationCommunicator.cpp:253. *)
  Definition metric (weight homogeneity density : R) : R := rnd (homogeneity + rnd (weight * density)).
  (** std::sort, AutoPasConfigurationCommunicator.cpp:265. *)
  Fixpoint insertR (x : R) (l : list R) : list R :=
    match l with [] => [x] | y :: r => if Rle_dec x y then x :: y :: r else y :: insertR x r end.
  Fixpoint sortR (l : list R) : list R := match l with [] => [] | x :: r => insertR x (sortR r) end.
  (** [d / s > t] in floating point arithmetic, AutoPasConfigurationCommunicator.cpp:272-281:
      0 / 0 is no number and not greater, d / 0 is infinite. *)
  Definition exceeds (t d s : R) : bool :=
    if Req_EM_T s 0 then (if Rlt_dec 0 d then true else false) else if Rlt_dec t (rnd (d / s)) then true else false.
  (** The loop over the sorted metrics, AutoPasConfigurationCommunicator.cpp:268-287, with
      the differences of std::adjacent_difference. *)
  Fixpoint bucketLoop (t : R) (prev : R) (l : list R) (cur mine : nat) (v : R) : nat :=
    match l with
    | [] => mine
    | s :: l' =>
        let cur' := if exceeds t (rnd (s - prev)) s then S cur else cur in
        bucketLoop t s l' cur' (if Req_EM_T s v then cur' else mine) v
    end.
  Definition bucketOf (t : R) (ms : list R) (v : R) : nat :=
    match sortR ms with
    | [] => 0
    | s :: l' =>
        let cur := if exceeds t s s then 1%nat else 0%nat in
        bucketLoop t s l' cur (if Req_EM_T s v then cur else 0%nat) v
    end.
  (** distributeRanksInBuckets, AutoPasConfigurationCommunicator.cpp:238-288: the colors the
      ranks pass to MPI_Comm_split, given homogeneity and density of all ranks.  If only
      some values are invalid, some ranks call MPI_Comm_split while others call
      MPI_Allgather. *)
  Definition invalid (hd : R * R) : bool := if Rlt_dec (fst hd) 0 then true else if Rlt_dec (snd hd) 0 then true else false.
  Definition buckets (weight t : R) (ranks : list (R * R)) : option (list nat) :=
    if forallb invalid ranks then Some (seq 0 (length ranks))
    else if existsb invalid ranks then None
    else let ms := map (fun hd => metric weight (fst hd) (snd hd)) ranks in Some (map (bucketOf t ms) ms).
End Buckets.
