(** C06, C07: the c08 traversal. *)
From Verif.Base Require Import ZRange Occ.
From Verif.Grid Require Import IndexModel IndexSpec.
From Verif.Traversal Require Import CellSpec C08Model C08Proofs.

(** C06: every two cells (also a cell with itself) within reach of which at least
    one can hold owned particles are processed exactly once... *)
Theorem C06_c08_exactly_once : forall near dims ov h a b,
  gridFits dims ov -> haloCovers h ov -> inGrid dims a -> inGrid dims b ->
  ownedCell dims h a \/ ownedCell dims h b -> withinReach near ov a b ->
  timesProcessed dims (c08Calls near dims ov) a b = 1%nat.
Proof. exact c08_exactly_once. Qed.
Print Assumptions C06_c08_exactly_once.

(** ... and no two cells are ever processed twice, and only cells within reach are. *)
Theorem C06_c08_at_most_once : forall near dims ov a b,
  gridFits dims ov -> inGrid dims a -> inGrid dims b ->
  (timesProcessed dims (c08Calls near dims ov) a b <= 1)%nat /\
  ((1 <= timesProcessed dims (c08Calls near dims ov) a b)%nat -> withinReach near ov a b).
Proof.
  exact (fun n d o a b H Ha Hb => conj (c08_at_most_once n d o a b H Ha Hb) (c08_only_reach n d o a b H Ha Hb)).
Qed.
Print Assumptions C06_c08_at_most_once.

(** C07: tasks of one colour never access a common cell; all accesses are in range. *)
Theorem C07_c08_race_free : forall near dims ov, gridFits dims ov ->
  Forall raceFree (c08Tasks near dims ov) /\ inBounds dims (c08Calls near dims ov).
Proof. exact (fun n d o H => conj (c08_raceFree n d o H) (c08_inBounds n d o H)). Qed.
Print Assumptions C07_c08_race_free.

(** A 5x6x7 grid with overlap 2,2,1: the hypotheses hold, and the traversal has
    18 colours and processes a diagonal pair once. *)
Definition ex_near := nearZ (mkI3 6 6 12) 10.
Example C06_nonvacuous :
  gridFits (mkI3 6 6 7) (mkI3 2 2 1) /\ haloCovers (mkI3 2 2 1) (mkI3 2 2 1) /\
  inGrid (mkI3 6 6 7) (mkI3 2 3 4) /\ inGrid (mkI3 6 6 7) (mkI3 1 5 3) /\
  ownedCell (mkI3 6 6 7) (mkI3 2 2 1) (mkI3 2 3 4) /\
  withinReach ex_near (mkI3 2 2 1) (mkI3 2 3 4) (mkI3 1 5 3) /\
  timesProcessed (mkI3 6 6 7) (c08Calls ex_near (mkI3 6 6 7) (mkI3 2 2 1)) (mkI3 2 3 4) (mkI3 1 5 3) = 1%nat /\
  length (c08Tasks ex_near (mkI3 6 6 7) (mkI3 2 2 1)) = 18%nat.
Proof. repeat split; vm_compute; congruence. Qed.
