(** C10, C11, C12: the c04 and c04HCP traversals.  They are applicable only if
    cells are at least as long as the interaction length, that is for overlap
    (1,1,1). *)
From Verif.Base Require Import ZRange Occ.
From Verif.Grid Require Import IndexModel IndexSpec.
From Verif.Traversal Require Import CellSpec C04Model C08Bases C04Proofs C04HCPProofs.

(** C10: c04 processes every two cells within reach, of which one is owned,
    exactly once, no two cells twice, only cells within reach, no cell out of
    range. *)
Theorem C10_c04_exactly_once : forall near dims h, let ov := mkI3 1 1 1 in
  let calls := concat (concat (c04Tasks near dims ov)) in
  gridFits dims ov -> haloCovers h ov ->
  (forall a b, inGrid dims a -> inGrid dims b -> ownedCell dims h a \/ ownedCell dims h b ->
     withinReach near ov a b -> timesProcessed dims calls a b = 1%nat) /\
  (forall a b, inGrid dims a -> inGrid dims b ->
     (timesProcessed dims calls a b <= 1)%nat /\
     ((1 <= timesProcessed dims calls a b)%nat -> withinReach near ov a b)) /\
  inBounds dims calls.
Proof.
  exact (fun n d h Hv Hh =>
    conj (fun a b => perm_exactly_once n d _ _ (c04_perm n d Hv) Hv h a b Hh)
   (conj (perm_at_most_once n d _ _ (c04_perm n d Hv) Hv)
         (perm_inBounds n d _ _ (c04_perm n d Hv) Hv))).
Qed.
Print Assumptions C10_c04_exactly_once.

(** C11: packs of the same colour never access a common cell. *)
Theorem C11_c04_race_free : forall near dims, gridFits dims (mkI3 1 1 1) ->
  Forall raceFree (c04Tasks near dims (mkI3 1 1 1)).
Proof. exact c04_raceFree. Qed.
Print Assumptions C11_c04_race_free.

(** C12: the same for c04HCP. *)
Theorem C12_hcp_exactly_once : forall near dims h, let ov := mkI3 1 1 1 in
  let calls := concat (concat (hcpTasks near dims ov)) in
  gridFits dims ov -> haloCovers h ov ->
  (forall a b, inGrid dims a -> inGrid dims b -> ownedCell dims h a \/ ownedCell dims h b ->
     withinReach near ov a b -> timesProcessed dims calls a b = 1%nat) /\
  (forall a b, inGrid dims a -> inGrid dims b ->
     (timesProcessed dims calls a b <= 1)%nat /\
     ((1 <= timesProcessed dims calls a b)%nat -> withinReach near ov a b)) /\
  inBounds dims calls.
Proof.
  exact (fun n d h Hv Hh =>
    conj (fun a b => perm_exactly_once n d _ _ (hcp_perm n d Hv) Hv h a b Hh)
   (conj (perm_at_most_once n d _ _ (hcp_perm n d Hv) Hv)
         (perm_inBounds n d _ _ (hcp_perm n d Hv) Hv))).
Qed.
Print Assumptions C12_hcp_exactly_once.

Theorem C12_hcp_race_free : forall near dims, gridFits dims (mkI3 1 1 1) ->
  Forall raceFree (hcpTasks near dims (mkI3 1 1 1)).
Proof. exact hcp_raceFree. Qed.
Print Assumptions C12_hcp_race_free.

(** A 6x5x7 grid with cell length 10 and interaction length 10. *)
Definition ex_near := nearZ (mkI3 10 10 10) 10.
Example C10_nonvacuous : let dims := mkI3 6 5 7 in let ov := mkI3 1 1 1 in
  gridFits dims ov /\ haloCovers ov ov /\ ownedCell dims ov (mkI3 1 3 4) /\ inGrid dims (mkI3 0 4 5) /\
  withinReach ex_near ov (mkI3 1 3 4) (mkI3 0 4 5) /\
  timesProcessed dims (concat (concat (c04Tasks ex_near dims ov))) (mkI3 1 3 4) (mkI3 0 4 5) = 1%nat /\
  timesProcessed dims (concat (concat (hcpTasks ex_near dims ov))) (mkI3 1 3 4) (mkI3 0 4 5) = 1%nat /\
  length (concat (concat (c04Tasks ex_near dims ov))) = length (concat (concat (hcpTasks ex_near dims ov))).
Proof. cbv zeta. repeat split; vm_compute; congruence. Qed.
