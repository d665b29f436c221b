(** C13, C14: the c01 traversal. *)
From Verif.Base Require Import ZRange Occ.
From Verif.Grid Require Import IndexModel IndexSpec.
From Verif.Traversal Require Import CellSpec C01Model C01Spec C01Proofs.

(** C13: each base cell [a] outside the outermost [ov] layers is processed against
    each cell within reach (itself included) exactly once; nothing else is
    processed; all accesses are in range. *)
Theorem C13_c01_exactly_once : forall near ov dims, gridFits2x dims ov -> monotoneX near ->
  let calls := concat (concat (c01Tasks near ov dims)) in
  (forall a b, ownedCell dims ov a -> inGrid dims b -> withinReach near ov a b ->
     occ (orderedPair (threeToOneD a dims) (threeToOneD b dims)) calls = 1%nat) /\
  (forall a b, inGrid dims a -> inGrid dims b ->
     (occ (orderedPair (threeToOneD a dims) (threeToOneD b dims)) calls <= 1)%nat /\
     ((1 <= occ (orderedPair (threeToOneD a dims) (threeToOneD b dims)) calls)%nat ->
      ownedCell dims ov a /\ withinReach near ov a b)) /\
  inBounds dims calls.
Proof.
  exact (fun n o d Hf Hm => conj (c01_exactly_once n o d Hf Hm)
           (conj (c01_at_most_once n o d Hf Hm) (c01_inBounds n o d Hf Hm))).
Qed.
Print Assumptions C13_c01_exactly_once.

(** C13: two different tasks never update the same cell (each call updates only
    its first cell). *)
Theorem C13_c01_writes_own_cell : forall near ov dims, gridFits2x dims ov ->
  forall col i j t1 t2 c1 c2, In col (c01Tasks near ov dims) -> i <> j ->
    nth_error col i = Some t1 -> nth_error col j = Some t2 -> In c1 t1 -> In c2 t2 -> fst c1 <> fst c2.
Proof. exact c01_write_own. Qed.
Print Assumptions C13_c01_writes_own_cell.

(** C14: three-body version. Each owned base cell is processed alone once, with
    each other cell within reach once, and with each unordered pair of other
    cells such that all three are mutually within reach once; there are no other
    calls. *)
Theorem C14_c01_triplets : forall near ov dims, gridFits2x dims ov -> near 0 0 0 = true ->
  let calls := c01Calls3B near ov dims in
  (forall a, ownedCell dims ov a -> occ (isCell (threeToOneD a dims)) calls = 1%nat) /\
  (forall a b, ownedCell dims ov a -> inGrid dims b -> a <> b -> withinReach near ov a b ->
     occ (isPair (threeToOneD a dims) (threeToOneD b dims)) calls = 1%nat) /\
  (forall a b d, ownedCell dims ov a -> inGrid dims b -> inGrid dims d -> a <> b -> a <> d -> b <> d ->
     reach3 near ov a b d ->
     occ (isTriple (threeToOneD a dims) (threeToOneD b dims) (threeToOneD d dims)) calls = 1%nat) /\
  (forall c, In c calls -> exists a, ownedCell dims ov a /\
     (c = CCell (threeToOneD a dims) \/
      (exists b, inGrid dims b /\ a <> b /\ withinReach near ov a b /\
                 c = CPair (threeToOneD a dims) (threeToOneD b dims)) \/
      (exists b d, inGrid dims b /\ inGrid dims d /\ a <> b /\ a <> d /\ b <> d /\ reach3 near ov a b d /\
                 c = CTriple (threeToOneD a dims) (threeToOneD b dims) (threeToOneD d dims)))).
Proof.
  exact (fun n o d Hf H0 => conj (c01_cell_once n o d Hf) (conj (c01_pair_once n o d Hf H0)
    (conj (c01_triple_once n o d Hf) (c01_3b_sound n o d Hf)))).
Qed.
Print Assumptions C14_c01_triplets.

Definition ex_near := nearZ (mkI3 6 6 12) 10.
Lemma ex_near_mono : monotoneX ex_near.
Proof.
  unfold monotoneX, ex_near, nearZ. intros x x' y z Hx H. apply Z.leb_le in H. apply Z.leb_le.
  simpl in *. nia.
Qed.
Example C13_nonvacuous :
  gridFits2x (mkI3 6 6 4) (mkI3 2 2 1) /\ monotoneX ex_near /\ ex_near 0 0 0 = true /\
  ownedCell (mkI3 6 6 4) (mkI3 2 2 1) (mkI3 2 3 2) /\
  withinReach ex_near (mkI3 2 2 1) (mkI3 2 3 2) (mkI3 1 5 3) /\
  occ (orderedPair (threeToOneD (mkI3 2 3 2) (mkI3 6 6 4)) (threeToOneD (mkI3 1 5 3) (mkI3 6 6 4)))
      (concat (concat (c01Tasks ex_near (mkI3 2 2 1) (mkI3 6 6 4)))) = 1%nat.
Proof. split; [|split; [exact ex_near_mono|]]; repeat split; vm_compute; congruence. Qed.
Example C14_nonvacuous :
  reach3 ex_near (mkI3 2 2 1) (mkI3 2 3 2) (mkI3 1 5 3) (mkI3 3 3 2) /\
  occ (isTriple (threeToOneD (mkI3 2 3 2) (mkI3 6 6 4)) (threeToOneD (mkI3 1 5 3) (mkI3 6 6 4)) (threeToOneD (mkI3 3 3 2) (mkI3 6 6 4)))
      (c01Calls3B ex_near (mkI3 2 2 1) (mkI3 6 6 4)) = 1%nat.
Proof. repeat split; vm_compute; congruence. Qed.
