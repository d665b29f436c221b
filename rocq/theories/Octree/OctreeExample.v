(** A tree with leaves of two sizes. *)
From Coq Require Import Reals Lra.
From Verif.Base Require Import ZRange.
From Verif.Functor Require Import SortModel SortSpec.
From Verif.Grid Require Import CellBlockModel CellBlockSpec.
From Verif.Container Require Import IteratorModel IteratorContainers.
From Verif.Octree Require Import DirectionModel OctreeModel OctreeSpec OctreeBase OctreeTouch OctreeInsert OctreeDouble OctreeProps.
Local Open Scope R_scope.

Definition exLo : R3 := mkR3 0 0 0.
Definition exHi : R3 := mkR3 4 4 4.
Definition exP (x : R) : R3 := mkR3 x x x.
Definition self (x : R3) : R3 := x.

Ltac decideR := repeat match goal with
  | |- context [Rlt_dec ?a ?b] => destruct (Rlt_dec a b); try (exfalso; lra); cbn [andb orb]
  | |- context [Rle_dec ?a ?b] => destruct (Rle_dec a b); try (exfalso; lra); cbn [andb orb]
  end.

Lemma center_exact a b : center rndExact a b = (a + b) / 2.
Proof. reflexivity. Qed.

Definition exLeaf (v : R3) (w : R) (ps : list R3) : Tree R3 := Leaf v (mkR3 (rx v + w) (ry v + w) (rz v + w)) ps.

Lemma inBoxb_t lo hi x : inBox lo hi x -> inBoxb lo hi x = true.
Proof. intros H. now apply inBoxb_iff. Qed.
Lemma inBoxb_f lo hi x : ~ inBox lo hi x -> inBoxb lo hi x = false.
Proof. intros H. destruct (inBoxb lo hi x) eqn:E; [|reflexivity]. now apply inBoxb_iff in E. Qed.
Lemma tooSmall_f il lo hi : 2 * il <= rx hi - rx lo -> 2 * il <= ry hi - ry lo -> 2 * il <= rz hi - rz lo -> tooSmall rndExact il lo hi = false.
Proof. intros. unfold tooSmall, tooSmall1, rndExact. repeat destruct (Rlt_dec _ _); try lra; reflexivity. Qed.
Lemma tooSmall_t il lo hi : rx hi - rx lo < 2 * il -> tooSmall rndExact il lo hi = true.
Proof. intros. unfold tooSmall, tooSmall1, rndExact. destruct (Rlt_dec _ _); try lra; reflexivity. Qed.

Ltac solveBox := unfold inBox, childMin, childMax, center, rndExact, exLo, exHi, exP, self; cbn [rx ry rz Nat.testbit Nat.odd Nat.even Nat.div2 negb]; lra.
Ltac evalR := repeat (
  lazy beta iota zeta delta [insert insertFirst foldInsert newInner map seq boxMin boxMax length Nat.ltb Nat.leb app andb orb self];
  match goal with
  | |- context [inBoxb ?l ?h ?x] => first [rewrite (inBoxb_f l h x) by solveBox | rewrite (inBoxb_t l h x) by solveBox]
  | |- context [tooSmall rndExact ?i ?l ?h] => first [rewrite (tooSmall_f i l h) by solveBox | rewrite (tooSmall_t i l h) by solveBox]
  end).

(** Three particles, split threshold 1: the octant at the upper end is split again. *)
Lemma example_tree : exists t, builtBy self rndExact 1 1 exLo exHi [exP 1; exP 3; exP (7 / 2)] t /\
  (exists l h, leafAt t [LDB] l h [exP 1]) /\ (exists l h, leafAt t [LDB; RUF] l h []) /\ (exists l h, leafAt t [RUF; RUF] l h [exP (7 / 2); exP 3]).
Proof.
  assert (B1 : builtBy self rndExact 1 1 exLo exHi [exP 1] (Leaf exLo exHi [exP 1])).
  { apply (builtInsert self rndExact 1 1 exLo exHi [] (Leaf exLo exHi []) (exP 1) 1); [constructor| |reflexivity].
    unfold inBox, exLo, exHi, exP, self. cbn. lra. }
  assert (E2 : exists t, insert self rndExact 1 1 5 (Leaf exLo exHi [exP 1]) (exP 3) = Some t /\
    exists t', insert self rndExact 1 1 9 t (exP (7 / 2)) = Some t' /\ (exists l h, leafAt t' [LDB] l h [exP 1]) /\ (exists l h, leafAt t' [LDB; RUF] l h []) /\ (exists l h, leafAt t' [RUF; RUF] l h [exP (7 / 2); exP 3])).
  { eexists. split.
    - evalR. reflexivity.
    - eexists. split.
      + evalR. reflexivity.
      + unfold leafAt. cbn [nodeAt SON nth_error vertexToIndex]. repeat split; eexists _, _; reflexivity. }
  destruct E2 as (t & E & t' & E' & L). exists t'. split; [|exact L].
  apply (builtInsert self rndExact 1 1 exLo exHi [exP 1; exP 3] t (exP (7 / 2)) 9); [|unfold inBox, exLo, exHi, exP, self; cbn; lra|exact E'].
  apply (builtInsert self rndExact 1 1 exLo exHi [exP 1] _ (exP 3) 5 t B1); [unfold inBox, exLo, exHi, exP, self; cbn; lra|exact E].
Qed.

Lemma example_neighbors : exists M t l h, precise rndExact M 0 1 exLo exHi /\
  builtBy self rndExact 1 1 exLo exHi [exP 1; exP 3; exP (7 / 2)] t /\ leafAt t [LDB] l h [exP 1] /\ In [LDB; RUF] (getNeighborLeaves t [LDB]).
Proof.
  destruct (exact_precise 1 exLo exHi) as (M & H); [lra|unfold below, exLo, exHi; cbn; lra|].
  destruct example_tree as (t & B & (l & h & L) & (l' & h' & L') & _). exists M, t, l, h. split; [exact H|]. split; [exact B|]. split; [exact L|].
  apply (built_neighbors self rndExact 1 1 exLo exHi _ t M 0 [LDB] [LDB; RUF] l h _ H B L). split; [discriminate|].
  exists l', h', []. split; [exact L'|].
  destruct (built_good self rndExact 1 1 exLo exHi _ t B) as (W & _ & E1 & E2 & _).
  destruct (node_box rndExact 1 t _ _ W L) as (X & Y & Z). destruct (node_box rndExact 1 t _ _ W L') as (X' & Y' & Z').
  rewrite E1, E2 in *. cbn in X, Y, Z, X', Y', Z'. rewrite !center_exact in *.
  injection X as X1 X2. injection Y as Y1 Y2. injection Z as Z1 Z2. injection X' as X1' X2'. injection Y' as Y1' Y2'. injection Z' as Z1' Z2'.
  exists (exP 2). unfold inClosedBox. rewrite <- X1, <- X2, <- Y1, <- Y2, <- Z1, <- Z2, <- X1', <- X2', <- Y1', <- Y2', <- Z1', <- Z2'. unfold exP. cbn [rx ry rz]. lra.
Qed.
