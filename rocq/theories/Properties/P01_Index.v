(** C01: flat cell index is a bijection. *)
From Verif.Base Require Import ZRange.
From Verif.Grid Require Import IndexModel IndexSpec IndexProofs.

(** Every cell of the grid has a flat index below the number of cells, and
    converting back yields the cell. *)
Theorem C01_three_one_three : forall dims p, inGrid dims p ->
  0 <= threeToOneD p dims < numCells dims /\ oneToThreeD (threeToOneD p dims) dims = p.
Proof. exact (fun d p H => conj (threeToOneD_range d p H) (oneToThreeD_threeToOneD d p H)). Qed.
Print Assumptions C01_three_one_three.

(** Every flat index below the number of cells is the index of exactly the cell
    it is converted to, which is in the grid. *)
Theorem C01_one_three_one : forall dims i, positive dims -> 0 <= i < numCells dims ->
  inGrid dims (oneToThreeD i dims) /\ threeToOneD (oneToThreeD i dims) dims = i.
Proof. exact (fun d i Hp H => conj (oneToThreeD_inGrid d i Hp H) (threeToOneD_oneToThreeD d i Hp H)). Qed.
Print Assumptions C01_one_three_one.

(** With 64-bit wrap-around arithmetic nothing changes as long as the number of
    cells is below 2^64. *)
Theorem C01_u64_no_wrap : forall dims, positive dims -> numCells dims < 2 ^ 64 ->
  (forall p, inGrid dims p -> threeToOneD_u64 p dims = threeToOneD p dims) /\
  (forall i, 0 <= i < numCells dims -> oneToThreeD_u64 i dims = oneToThreeD i dims).
Proof.
  exact (fun d Hp Hn => conj (fun p H => threeToOneD_u64_eq d p H (Z.lt_le_incl _ _ Hn))
                             (fun i H => oneToThreeD_u64_small d i Hp H Hn)).
Qed.
Print Assumptions C01_u64_no_wrap.

(** Two different cells never share a flat index. *)
Theorem C01_injective : forall dims p q, inGrid dims p -> inGrid dims q ->
  threeToOneD p dims = threeToOneD q dims -> p = q.
Proof. exact threeToOneD_inj. Qed.
Print Assumptions C01_injective.

Example C01_nonvacuous :
  inGrid (mkI3 3 4 5) (mkI3 2 1 4) /\ threeToOneD (mkI3 2 1 4) (mkI3 3 4 5) = 53 /\
  oneToThreeD 53 (mkI3 3 4 5) = mkI3 2 1 4 /\ numCells (mkI3 3 4 5) < 2 ^ 64.
Proof. repeat split; vm_compute; congruence. Qed.
