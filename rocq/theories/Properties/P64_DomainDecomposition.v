(** C64: md-flexible divides the global box among the ranks. *)
From Coq Require Import Reals Lra List ZArith Lia Bool.
From Verif.Grid Require Import IndexModel.
From Verif.Functor Require Import SortModel.
From Verif.Flex Require Import DomainModel DomainSpec DomainProofs FactorProofs BalanceProofs FlexExample FlexRefuted.
Import ListNotations.

(** For every number of ranks, if some dimension may be subdivided: the grid has as many
    subdomains as there are ranks and divides only the chosen dimensions. *)
Theorem C64_grid : forall n sx sy sz, (1 <= n)%Z -> sx || sy || sz = true ->
  exists d, generateDecomposition n sx sy sz = Some d /\ decomposes n sx sy sz d.
Proof. exact decomposition_some. Qed.
Print Assumptions C64_grid.
Example C64_grid_example : generateDecomposition 60 true false true = Some (mkI3 12 1 5) /\ generateDecomposition 1 false false false = Some (mkI3 1 1 1).
Proof. split; reflexivity. Qed.
(** If no dimension may be subdivided and there is more than one rank, the constructor reads
    the first element of an empty list. *)
Theorem C64_undivided_refuted : forall n, (2 <= n)%Z -> generateDecomposition n false false false = None.
Proof. exact decomposition_none. Qed.
Print Assumptions C64_undivided_refuted.

(** Ranks and positions in the grid correspond; the two neighbours of a rank along a
    dimension are the ranks before and after it, around the periodic grid. *)
Theorem C64_numbers : forall d, (forall a, 1 <= iat a d)%Z ->
  (forall r, isRank d r -> isId d (indexToId r d) /\ idToIndex (indexToId r d) d = r) /\
  (forall id, isId d id -> isRank d (idToIndex id d) /\ indexToId (idToIndex id d) d = id) /\
  (forall r a, isRank d r ->
     isRank d (leftNeighbor d a r) /\ indexToId (leftNeighbor d a r) d = iset a ((iat a (indexToId r d) - 1) mod iat a d) (indexToId r d) /\
     isRank d (rightNeighbor d a r) /\ indexToId (rightNeighbor d a r) d = iset a ((iat a (indexToId r d) + 1) mod iat a d) (indexToId r d))%Z.
Proof.
  intros d Hd. split; [|split].
  - intros r H. split; [now apply id_of_rank|now apply index_id].
  - intros id H. split; [now apply index_rank|now apply id_index].
  - intros r a H. rewrite left_step, right_step by exact Hd. repeat split; (apply step_rank; assumption) || (apply step_id; assumption).
Qed.
Print Assumptions C64_numbers.
Example C64_numbers_example : indexToId 2 exGrid = mkI3 1 0 0 /\ leftNeighbor exGrid AX 0 = 2%Z /\ rightNeighbor exGrid AZ 0 = 1%Z.
Proof. repeat split. Qed.

Local Open Scope R_scope.
(** At any time, after any number of load balancing steps: every position of the global box
    lies in the box of exactly one rank; the boxes lie in the global box and are at least
    [w] wide; and the next load balancing step succeeds and moves no position further than
    to a neighbouring box in any dimension. *)
Theorem C64_boxes : forall gMin gMax d w, suitable gMin gMax d w -> forall bs, reachableBoxes gMin gMax d w bs ->
  (forall x, (forall a, at3 a gMin <= at3 a x < at3 a gMax) -> exists! r, isRank d r /\ inRankBox bs r x) /\
  (forall r a, isRank d r -> at3 a gMin <= at3 a (boxMin bs r) /\ at3 a (boxMin bs r) + w <= at3 a (boxMax bs r) /\ at3 a (boxMax bs r) <= at3 a gMax) /\
  (forall work, (forall r, isRank d r -> 0 < work r) -> exists bs',
     (forall r, isRank d r -> balancedBox gMin gMax d w bs work r = Some (boxMin bs' r, boxMax bs' r)) /\
     forall r x a, isRank d r -> inRankBox bs r x ->
       exists s, isRank d s /\ (Z.abs (iat a (indexToId s d) - iat a (indexToId r d)) <= 1)%Z /\
         at3 a (boxMin bs' s) <= at3 a x < at3 a (boxMax bs' s)).
Proof.
  intros gMin gMax d w Su bs Re. destruct (reachable_grid _ _ _ _ _ Su Re) as [B G]. destruct Su as (Pw & Ds & _). split; [|split].
  - exact (covered _ _ _ _ _ _ G Pw).
  - intros r a H. destruct (box_inside _ _ _ _ _ _ G Pw r a H) as [A1 A2]. pose proof (box_width _ _ _ _ _ _ G r a H). lra.
  - intros work Hw. destruct (balance_grid _ _ _ _ _ _ G Ds Pw work Hw) as (bs' & B' & E & _ & N). exists bs'. split; [exact E|exact N].
Qed.
Print Assumptions C64_boxes.
Example C64_boxes_example : suitable exMin exMax exGrid 3 /\ reachableBoxes exMin exMax exGrid 3 exBoxes /\
  exists bs, reachableBoxes exMin exMax exGrid 3 bs /\ boxMax bs 0 <> boxMax exBoxes 0.
Proof. split; [exact ex_suitable|]. split; [constructor|]. exact ex_balanced. Qed.

(** Without the width: boxes of two ranks that are wider than [w / 2], the sum of cutoff and
    skin, but narrower than [w]; load balancing makes one of them narrower than [w / 2],
    which AutoPas rejects. *)
Theorem C64_narrow_refuted : exists gMin gMax d w, 0 < w /\ distinguishable gMin gMax (w / 2) /\
  (forall r a, isRank d r -> w / 2 <= at3 a (initialMax gMin gMax d r) - at3 a (initialMin gMin gMax d r)) /\
  exists r lo hi, isRank d r /\
    balancedBox gMin gMax d w (mkBoxes (initialMin gMin gMax d) (initialMax gMin gMax d)) (fun _ => 1) r = Some (lo, hi) /\ at3 AX hi - at3 AX lo < w / 2.
Proof. exact narrow_refuted. Qed.
Print Assumptions C64_narrow_refuted.
