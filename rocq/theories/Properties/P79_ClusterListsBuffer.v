(** * C79 - every cluster gets its own neighbour list, after any history

    Model: Cluster/ListsBufferModel.v (NeighborListsBuffer.h, VerletClusterListsRebuilder.h).
    Specification: Cluster/ListsBufferSpec.v. *)

From Coq Require Import List Arith Lia.
From Verif.Cluster Require Import ListsBufferModel ListsBufferSpec ListsBufferProofs.
Import ListNotations.

(** Rebuilding after any history of rebuilds and of writes to the lists: no access beyond the buffer, as many lists as
    clusters need one, all different, all there and empty when the last one has been handed out. *)
Theorem C79_cluster_lists : forall K V (dflt : V) (b : @buffer K V), reached dflt b ->
  forall clusterSize particles needs, towersOk clusterSize particles needs ->
  exists ptrs b', rebuildLists dflt (list_sum particles) clusterSize (length particles) needs b = Some (ptrs, b') /\
    length ptrs = list_sum needs /\ NoDup ptrs /\ forall p, In p ptrs -> deref p b' = Some [].
Proof.
  intros K V dflt b R c ps needs [C [NE H]].
  assert (G : forall n, n <= bGrow b n).
  { clear c ps needs C NE H. induction R as [|b b' R IH W|b c ps needs qs b' R IH T E].
    - intros n. cbn. lia.
    - destruct W as [_ [_ [_ [_ [-> _]]]]]. exact IH.
    - destruct T as [C [NE H]]. destruct (rebuild_lists K V dflt c ps needs b C NE IH H) as [qs' [b'' [E' [_ [_ [_ Q]]]]]].
      rewrite E in E'. injection E' as _ <-. rewrite Q. exact IH. }
  destruct (rebuild_lists K V dflt c ps needs b C NE G H) as [qs [b' [E [L [N [D _]]]]]]. exists qs, b'. auto.
Qed.
Print Assumptions C79_cluster_lists.

(** References to the lists are still valid after writes. *)
Theorem C79_stays : forall K V (b b' : @buffer K V) p, written b b' -> deref p b <> None -> deref p b' <> None.
Proof.
  intros K V b b' p [_ [L [_ [_ [_ G]]]]]. unfold deref. rewrite G. destruct (fst p =? bGen b); [|auto].
  rewrite !nth_error_Some, L. auto.
Qed.
Print Assumptions C79_stays.

(** How many lists a buffer can hand out after [clear]: as many as it has after growing once.  It does not grow again in
    time. *)
Theorem C79_capacity : forall K V (dflt : V) n (b : @buffer K V), bLast b = None ->
  (exists ps b', clusterLists dflt n b = Some (ps, b')) <-> n <= Nat.max 10 (bGrow b (length (bLists b))).
Proof. exact @capacity. Qed.
Print Assumptions C79_capacity.

(** So the eleventh list of a new buffer is beyond its end. *)
Theorem C79_growth_refuted : exists n, forall K V (dflt : V), clusterLists dflt n (@newBuffer K V) = None.
Proof. exists 11. intros. reflexivity. Qed.
Print Assumptions C79_growth_refuted.

(** A list that is made for a key is found under this key, empty, and other keys keep their lists; after clearing no key
    is known. *)
Theorem C79_keys : forall K V (keyEqual : K -> K -> bool) (dflt : V), (forall k l, keyEqual k l = true <-> k = l) ->
  forall (b : @buffer K V) key i b', findKey keyEqual key b = None ->
  getNewNeighborListFor keyEqual dflt key b = Some (i, b') ->
  fst (getNeighborListRefFor keyEqual key b') = Some [] /\ findKey keyEqual key b' = Some i /\
  snd (getNeighborListRefFor keyEqual key b') = b' /\
  (forall k, k <> key -> findKey keyEqual k b' = findKey keyEqual k b) /\
  forall k, findKey keyEqual k (clear b') = None.
Proof.
  intros K V keyEqual dflt H b key i b' F E.
  destruct (key_new K V keyEqual dflt H key b i b' F E) as [P [Q [R T]]]. auto.
Qed.
Print Assumptions C79_keys.

(** A key for which no list was made is silently given the first list, which another key may own. *)
Theorem C79_unknown_key_refuted : exists b b' : @buffer nat nat, getNewNeighborListFor Nat.eqb 0 7 (@newBuffer nat nat) = Some (0, b) /\
  findKey Nat.eqb 8 b = None /\ getNeighborListRefFor Nat.eqb 8 b = (getNeighborListRef 0 b, b') /\
  findKey Nat.eqb 8 b' = findKey Nat.eqb 7 b' /\ findKey Nat.eqb 8 b' = Some 0.
Proof. do 2 eexists. repeat split. Qed.
Print Assumptions C79_unknown_key_refuted.

(** A key that is assigned a second list keeps the first. *)
Theorem C79_key_refuted : exists i b j b', getNewNeighborListFor Nat.eqb 0 7 (@newBuffer nat nat) = Some (i, b) /\
  getNewNeighborListFor Nat.eqb 0 7 b = Some (j, b') /\ findKey Nat.eqb 7 b' = Some i /\ i <> j.
Proof. do 4 eexists. split; [reflexivity|]. split; [reflexivity|]. split; [reflexivity|]. discriminate. Qed.
Print Assumptions C79_key_refuted.

(** Thirty towers with 5 particles each in clusters of 4, then two towers, then thirty again. *)
Example C79_example :
  let many := repeat 5 30 in let needs := repeat 2 30 in
  towersOk 4 many needs /\ towersOk 4 [9; 0] [2; 0] /\
  exists ps b1 qs b2 rs b3,
    rebuildLists 0 (list_sum many) 4 30 needs (@newBuffer nat nat) = Some (ps, b1) /\
    rebuildLists 0 9 4 2 [2; 0] b1 = Some (qs, b2) /\ rebuildLists 0 (list_sum many) 4 30 needs b2 = Some (rs, b3) /\
    reached 0 b3 /\ length rs = 60.
Proof.
  cbv zeta.
  assert (T1 : towersOk 4 (repeat 5 30) (repeat 2 30)).
  { split; [lia|]. split; [discriminate|]. cbn [repeat]. repeat constructor. }
  assert (T2 : towersOk 4 [9; 0] [2; 0]).
  { split; [lia|]. split; [discriminate|]. repeat constructor. }
  split; [exact T1|]. split; [exact T2|].
  destruct (C79_cluster_lists nat nat 0 newBuffer (reachedNew _) 4 _ _ T1) as [ps [b1 [E1 _]]].
  assert (R1 : reached 0 b1) by exact (reachedRebuilt _ _ _ _ _ _ _ (reachedNew _) T1 E1).
  destruct (C79_cluster_lists nat nat 0 b1 R1 4 _ _ T2) as [qs [b2 [E2 _]]].
  assert (R2 : reached 0 b2) by exact (reachedRebuilt _ _ _ _ _ _ _ R1 T2 E2).
  destruct (C79_cluster_lists nat nat 0 b2 R2 4 _ _ T1) as [rs [b3 [E3 [L3 _]]]].
  assert (R3 : reached 0 b3) by exact (reachedRebuilt _ _ _ _ _ _ _ R2 T1 E3).
  exists ps, b1, qs, b2, rs, b3. split; [exact E1|]. split; [exact E2|]. split; [exact E3|]. split; [exact R3|exact L3].
Qed.

(** Keys 3 and 5 in a new buffer. *)
Example C79_keys_example : exists i b j b', getNewNeighborListFor Nat.eqb 0 3 (@newBuffer nat nat) = Some (i, b) /\
  findKey Nat.eqb 5 b = None /\ getNewNeighborListFor Nat.eqb 0 5 b = Some (j, b') /\ i <> j.
Proof. do 4 eexists. split; [reflexivity|]. split; [reflexivity|]. split; [reflexivity|]. discriminate. Qed.
