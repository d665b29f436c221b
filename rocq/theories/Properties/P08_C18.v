(** C08, C09: the c18 traversal. *)
From Verif.Base Require Import ZRange Occ.
From Verif.Grid Require Import IndexModel IndexSpec.
From Verif.Traversal Require Import CellSpec C18Model C18Proofs.

(** The traversal never looks outside its offset table; every two cells (also a
    cell with itself) within reach of which at least one can hold owned particles
    are processed exactly once, no two cells twice and only cells within reach. *)
Theorem C08_c18_exactly_once : forall near dims ov h,
  gridFits2x dims ov -> haloCovers h ov ->
  exists tasks, c18Tasks near dims ov = Some tasks /\
  forall a b, inGrid dims a -> inGrid dims b ->
    (ownedCell dims h a \/ ownedCell dims h b -> withinReach near ov a b ->
     timesProcessed dims (concat (concat tasks)) a b = 1%nat) /\
    (timesProcessed dims (concat (concat tasks)) a b <= 1)%nat /\
    ((1 <= timesProcessed dims (concat (concat tasks)) a b)%nat -> withinReach near ov a b).
Proof.
  exact (fun n d o h Hv Hh => ex_intro _ _ (conj (c18Tasks_ok n d o Hv) (fun a b Ha Hb =>
    conj (c18_exactly_once n d o h a b Hv Hh Ha Hb)
      (conj (c18_at_most_once n d o a b Hv Ha Hb) (c18_only_reach n d o a b Hv Ha Hb))))).
Qed.
Print Assumptions C08_c18_exactly_once.

(** Tasks of one colour never access a common cell; all accesses are in range. *)
Theorem C09_c18_race_free : forall near dims ov, gridFits2x dims ov ->
  exists tasks, c18Tasks near dims ov = Some tasks /\
    Forall raceFree tasks /\ inBounds dims (concat (concat tasks)).
Proof.
  exact (fun n d o Hv => ex_intro _ _ (conj (c18Tasks_ok n d o Hv)
    (conj (c18_raceFree n d o Hv) (c18_inBounds n d o Hv)))).
Qed.
Print Assumptions C09_c18_race_free.

Definition ex_near := nearZ (mkI3 6 6 12) 10.
Example C08_nonvacuous :
  gridFits2x (mkI3 6 6 7) (mkI3 2 2 1) /\ haloCovers (mkI3 2 2 1) (mkI3 2 2 1) /\
  inGrid (mkI3 6 6 7) (mkI3 2 3 4) /\ inGrid (mkI3 6 6 7) (mkI3 1 5 3) /\
  ownedCell (mkI3 6 6 7) (mkI3 2 2 1) (mkI3 2 3 4) /\
  withinReach ex_near (mkI3 2 2 1) (mkI3 2 3 4) (mkI3 1 5 3) /\
  match c18Tasks ex_near (mkI3 6 6 7) (mkI3 2 2 1) with
  | Some ts => length ts = 50%nat /\
      timesProcessed (mkI3 6 6 7) (concat (concat ts)) (mkI3 2 3 4) (mkI3 1 5 3) = 1%nat
  | None => False
  end.
Proof. repeat split; vm_compute; congruence. Qed.
