(** C37-C40, C49: distribution of configurations and grouping of ranks with MPI. *)
From Coq Require Import ZArith List Bool Lia Reals Lra.
From Verif.Tuning Require Import DistributeModel DistributeSpec DistributeProofs DistributeTheorems MpiModel MpiSpec MpiProofs.
From Verif.Grid Require Import CellBlockSpec CellBlockFloat.
Import ListNotations.
Local Open Scope nat_scope.

(** Every rank gets a configuration and every configuration is given to a rank.  If there
    are enough configurations, the ranks get consecutive blocks of the search space, each
    configuration once; otherwise consecutive ranks share a configuration.  The sizes of
    blocks differ by at most one. *)
Theorem C37_distribution : forall o P, usableOptions o -> 0 < P ->
  (forall r, r < P -> exists l off blk, distribute o P r = Some (l, off, blk) /\ l <> []) /\
  (forall x, In x (allConfigs o) -> exists r, r < P /\ In x (assigned o P r)) /\
  (P <= length (allConfigs o) -> concat (map (assigned o P) (seq 0 P)) = allConfigs o /\ balanced (map (fun r => length (assigned o P r)) (seq 0 P))) /\
  (length (allConfigs o) < P -> exists counts, length counts = length (allConfigs o) /\ balanced counts /\ Forall (fun n => 0 < n) counts /\
     concat (map (assigned o P) (seq 0 P)) = expand (allConfigs o) counts /\ forall r, r < P -> length (assigned o P r) = 1).
Proof. intros o P U HP. exact (distribution o U P HP). Qed.
Print Assumptions C37_distribution.

(** The option sets a rank is left with allow all its configurations. *)
Theorem C37_rank_options : forall o P none r x, usableOptions o -> 0 < P -> r < P -> In x (assigned o P r) ->
  In x (allConfigs (rankOptions o none (assigned o P r))).
Proof. intros o P none r x U HP. exact (rank_search_space o U P HP none r x). Qed.
Print Assumptions C37_rank_options.

(** The size the code computes for the search space is that of the set of combinations. *)
Theorem C37_search_space_size : forall o, searchSpaceSize o = length (allConfigs o).
Proof. exact size_all. Qed.
Print Assumptions C37_search_space_size.

(** A container without an applicable traversal makes the distribution dereference an end
    iterator, although the search space is not empty. *)
Theorem C37_useless_container_refuted : exists o, 0 < length (allConfigs o) /\ distribute o 1 0 = None.
Proof. exists xUseless. split; [cbn; lia|reflexivity]. Qed.
Print Assumptions C37_useless_container_refuted.

(** Within a bucket the configurations are dealt out in turn: every rank gets some, and the
    configuration at position [i] is given to rank [i mod n]. *)
Theorem C37_round_robin : forall q n, q <> [] -> 0 < n ->
  (forall r pick, r < n -> exists l, roundRobin q n r pick = Some l /\ l <> [] /\ incl l q /\
     (r < length q -> forall k, nth_error l k = nth_error q (r + k * n))) /\
  (forall i x, nth_error q i = Some x -> exists l, i mod n < n /\ (forall pick, roundRobin q n (i mod n) pick = Some l) /\ nth_error l (i / n) = Some x).
Proof. exact round_robin. Qed.
Print Assumptions C37_round_robin.

(** If the number of ranks is a multiple of the number of configurations, and larger, then
    the intervals of all ranks lie in the allowed interval and the intervals of the ranks
    with one configuration cover it. *)
Theorem C38_intervals_partial : forall o P k lo hi, usableOptions o -> 0 < P -> P = k * length (allConfigs o) -> length (allConfigs o) < P -> (lo <= hi)%R ->
  (forall r l off blk, r < P -> distribute o P r = Some (l, off, blk) -> (lo <= fst (interval lo hi off blk) /\ fst (interval lo hi off blk) <= snd (interval lo hi off blk) <= hi)%R) /\
  (forall x y, In x (allConfigs o) -> (lo <= y <= hi)%R -> exists r l off blk, r < P /\ distribute o P r = Some (l, off, blk) /\ In x l /\
     (fst (interval lo hi off blk) <= y <= snd (interval lo hi off blk))%R).
Proof. intros o P k lo hi U HP. exact (intervals o U P HP k lo hi). Qed.
Print Assumptions C38_intervals_partial.

(** Two configurations on three ranks: the last rank gets an interval above the allowed
    one. *)
Theorem C38_remainder_refuted : exists o l off blk, usableOptions o /\ distribute o 3 2 = Some (l, off, blk) /\ (1 < snd (interval 0 1 off blk))%R.
Proof.
  exists (xPlain 2). do 3 eexists. split; [now apply xPlain_usable; lia|]. split; [vm_compute; reflexivity|]. unfold interval. cbn. lra.
Qed.
Print Assumptions C38_remainder_refuted.

(** As many ranks as configurations: ranks get intervals above the allowed one. *)
Theorem C38_equal_refuted : exists o l off blk, usableOptions o /\ distribute o 4 3 = Some (l, off, blk) /\ (1 < fst (interval 0 1 off blk))%R.
Proof.
  exists (xPlain 4). do 3 eexists. split; [now apply xPlain_usable; lia|]. split; [vm_compute; reflexivity|]. unfold interval. cbn. lra.
Qed.
Print Assumptions C38_equal_refuted.

(** One rank with two configurations loses the upper half of the interval. *)
Theorem C38_cover_refuted : exists o l off blk, usableOptions o /\ distribute o 1 0 = Some (l, off, blk) /\ (snd (interval 0 1 off blk) < 1)%R.
Proof.
  exists (xPlain 2). do 3 eexists. split; [now apply xPlain_usable; lia|]. split; [vm_compute; reflexivity|]. unfold interval. cbn. lra.
Qed.
Print Assumptions C38_cover_refuted.

(** Serialising and deserialising configurations. *)
Theorem C39_roundtrip : forall l, Forall programConf l -> deserializeAll (serializeAll l) = Some l.
Proof. exact roundtrip. Qed.
Print Assumptions C39_roundtrip.

(** Gathering gives the root the configurations of all ranks in order. *)
Theorem C39_gather : forall local root rank, Forall (Forall programConf) local ->
  gatherConfigurations local root rank = Some (if Nat.eqb rank root then concat local else []).
Proof. exact gather. Qed.
Print Assumptions C39_gather.

(** Two ranks are in one bucket exactly if no gap separates their metrics, for every
    rounding that keeps zero and the sign. *)
Theorem C40_buckets : forall rnd weight t ranks, (rnd 0 = 0)%R -> (forall x, 0 <= x -> 0 <= rnd x)%R -> (0 <= t)%R -> (0 <= weight)%R -> ranks <> [] ->
  Forall (fun hd => 0 <= fst hd /\ 0 <= snd hd)%R ranks ->
  let ms := map (fun hd => metric rnd weight (fst hd) (snd hd)) ranks in
  exists colors, buckets rnd weight t ranks = Some colors /\ length colors = length ranks /\
    forall i j mi mj, nth_error ms i = Some mi -> nth_error ms j = Some mj ->
      (nth_error colors i = nth_error colors j <-> ~ separated rnd t ms mi mj).
Proof. exact ranks_buckets. Qed.
Print Assumptions C40_buckets.

(** The same in IEEE double precision, for values without overflow. *)
Theorem C40_buckets_double : forall weight t ranks, (0 <= t)%R -> (0 <= weight)%R -> ranks <> [] ->
  Forall (fun hd => 0 <= fst hd /\ 0 <= snd hd)%R ranks ->
  let ms := map (fun hd => metric rndDouble weight (fst hd) (snd hd)) ranks in
  exists colors, buckets rndDouble weight t ranks = Some colors /\ length colors = length ranks /\
    forall i j mi mj, nth_error ms i = Some mi -> nth_error ms j = Some mj ->
      (nth_error colors i = nth_error colors j <-> ~ separated rndDouble t ms mi mj).
Proof.
  intros weight t ranks. apply ranks_buckets; [exact rndDouble_0|]. intros x H. rewrite <- rndDouble_0. now apply rndDouble_mono.
Qed.
Print Assumptions C40_buckets_double.

(** Equal metrics always share a bucket. *)
Theorem C40_equal : forall rnd weight t ranks colors i j hi hj, buckets rnd weight t ranks = Some colors -> existsb invalid ranks = false ->
  nth_error ranks i = Some hi -> nth_error ranks j = Some hj ->
  metric rnd weight (fst hi) (snd hi) = metric rnd weight (fst hj) (snd hj) -> nth_error colors i = nth_error colors j.
Proof. exact equal_metrics. Qed.
Print Assumptions C40_equal.

(** If some ranks have valid values and others do not, they call different collective
    operations. *)
Theorem C40_mixed_refuted : exists ranks, length ranks = 2 /\ buckets rndExact 1 1 ranks = None.
Proof.
  exists [(-1, 0)%R; (1, 0)%R]. split; [reflexivity|]. unfold buckets, invalid. cbn [forallb existsb fst snd].
  destruct (Rlt_dec (-1) 0); [|lra]. destruct (Rlt_dec 1 0); [lra|]. destruct (Rlt_dec 0 0); [lra|]. reflexivity.
Qed.
Print Assumptions C40_mixed_refuted.

(** All ranks agree on the configuration of a rank with the smallest time. *)
Theorem C49_globally_best : forall confs times, confs <> [] -> length confs = length times -> Forall programConf confs ->
  exists r c t, findGloballyBest confs times = Some c /\ nth_error confs r = Some c /\ nth_error times r = Some t /\ Forall (fun t' => (t <= t')%Z) times.
Proof. exact globally_best. Qed.
Print Assumptions C49_globally_best.

(** * Examples *)

(** Sixteen configurations on five ranks and on twenty. *)
Example C37_example : usableOptions xOptions /\ length (allConfigs xOptions) = 16 /\
  map (fun r => length (assigned xOptions 5 r)) (seq 0 5) = [3; 4; 3; 3; 3] /\
  map (fun r => length (assigned xOptions 20 r)) (seq 0 20) = repeat 1 20.
Proof. split; [exact xOptions_usable|]. repeat split. Qed.
Example C37_round_robin_example : map (fun r => option_map (map cNewton3) (roundRobin (allConfigs (xPlain 5)) 2 r 0)) [0; 1] = [Some [0; 2; 4]%Z; Some [1; 3]%Z].
Proof. reflexivity. Qed.
Example C38_example : usableOptions (xPlain 2) /\ 6 = 3 * length (allConfigs (xPlain 2)) /\
  map (fun r => distribute (xPlain 2) 6 r) [3; 4; 5] = map (fun k => Some ([mkConfig 1 (-1) 1 0 0 1], k, 3)) [0; 1; 2].
Proof. split; [apply xPlain_usable; lia|]. split; reflexivity. Qed.
Definition xConfs : list Conf := [mkConf 1 2 0 1 1 0 4607182418800017408; mkConf 3 10 0 0 1 0 4602678819172646912].
Example C39_example : Forall programConf xConfs /\ gatherConfigurations [xConfs; []; xConfs] 1 1 = Some (xConfs ++ xConfs).
Proof. split; [repeat constructor; vm_compute; congruence|reflexivity]. Qed.
Example C40_example : exists i j, nth_error (map (fun hd => metric rndExact 1 (fst hd) (snd hd)) [(1, 0); (4, 0)]%R) 0 = Some i /\
  nth_error (map (fun hd => metric rndExact 1 (fst hd) (snd hd)) [(1, 0); (4, 0)]%R) 1 = Some j /\
  separated rndExact (1 / 2) (map (fun hd => metric rndExact 1 (fst hd) (snd hd)) [(1, 0); (4, 0)]%R) i j /\
  ~ separated rndExact (7 / 8) (map (fun hd => metric rndExact 1 (fst hd) (snd hd)) [(1, 0); (4, 0)]%R) i j.
Proof.
  do 2 eexists. split; [reflexivity|]. split; [reflexivity|]. unfold metric, rndExact, separated, consecutive, gap. cbn [map fst snd].
  assert (M : forall a, In a [(1 + 1 * 0)%R; (4 + 1 * 0)%R] -> a = 1%R \/ a = 4%R) by (intros a [<-|[<-|[]]]; lra).
  split.
  - exists (1 + 1 * 0)%R, (4 + 1 * 0)%R. split; [split; [now left|split; [right; now left|split; [lra|]]]|].
    + intros z Z. destruct (M z Z); lra.
    + split; [unfold Rmin; destruct (Rle_dec (1 + 1 * 0) (4 + 1 * 0)); lra|]. split; [unfold Rmax; destruct (Rle_dec (1 + 1 * 0) (4 + 1 * 0)); lra|]. lra.
  - intros (x & y & (X & Y & L & _) & _ & _ & G). destruct (M x X), (M y Y); subst; lra.
Qed.
Example C49_example : findGloballyBest xConfs [7; 5]%Z = nth_error xConfs 1.
Proof. reflexivity. Qed.
