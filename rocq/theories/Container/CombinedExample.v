(** Example data for the combined SoA traversals. *)
From Coq Require Import Reals Lra Permutation.
From Flocq Require Import Core.
From Verif.Base Require Import ZRange.
From Verif.Grid Require Import IndexModel CellBlockModel CellBlockSpec CellBlockExact.
From Verif.Functor Require Import SortModel.
From Verif.Container Require Import LinkedCellsModel LinkedCellsSpec LinkedCellsExample CombinedC04Model CombinedC04Spec.
Open Scope R_scope.

Lemma ex_block : let b := rebuild rndExact 1 1 (mkR3 0 0 0) (mkR3 3 3 3) in
  blockDims b = mkI3 5 5 5 /\ blockOverlap rndExact 1 b = mkI3 1 1 1.
Proof.
  cbv zeta.
  assert (E : cellsPerDim rndExact (3 - 0) 1 1 = 3%Z).
  { unfold cellsPerDim, rndExact. replace ((3 - 0) / (1 * 1)) with 3 by field. change 3 with (IZR 3). now rewrite Zfloor_IZR. }
  assert (Eh : cellsPerInteractionLength rndExact 1 = 1%Z).
  { unfold cellsPerInteractionLength. destruct (Rle_dec 1 1); [reflexivity|lra]. }
  assert (Ed : rebuildDim rndExact 1 1 0 3 = mkDim 0 3 3 1 1 1 (-1) 4).
  { rewrite exact_d. rewrite E, Eh. f_equal; lra. }
  assert (Eb : rebuild rndExact 1 1 (mkR3 0 0 0) (mkR3 3 3 3) = mkBlock (mkDim 0 3 3 1 1 1 (-1) 4) (mkDim 0 3 3 1 1 1 (-1) 4) (mkDim 0 3 3 1 1 1 (-1) 4)).
  { unfold rebuild. cbn [rx ry rz]. now rewrite Ed. }
  rewrite Eb. split; [reflexivity|].
  assert (Eo : overlapOf rndExact 1 1 = 1%Z).
  { unfold overlapOf, rndExact. replace (1 / 1) with 1 by field. change 1 with (IZR 1). now rewrite Zceil_IZR. }
  unfold blockOverlap. cbn [bX bY bZ dLen]. now rewrite Eo.
Qed.

Local Open Scope Z_scope.
(** Two threads, each with half of the lines of a colour, take turns. *)
Definition exInterleave (lines : list (Z * Z)) : list (Z * I3) :=
  flat_map (fun '(u, v) => [(0, u); (1, v)])
    (combine (flat_map (c04cLineBases (mkI3 1 1 1) (mkI3 5 5 5)) (firstn 2 lines))
             (flat_map (c04cLineBases (mkI3 1 1 1) (mkI3 5 5 5)) (skipn 2 lines))).

Lemma ex_executes : Forall2 (executes (mkI3 5 5 5)) (c04cColors (mkI3 1 1 1) (mkI3 5 5 5)) (map exInterleave (c04cColors (mkI3 1 1 1) (mkI3 5 5 5))).
Proof.
  match goal with |- Forall2 _ ?l _ => let v := eval vm_compute in l in change l with v end. cbn [map].
  assert (G : forall lines, flat_map (fun t => if t =? 0 then firstn 2 lines else skipn 2 lines) [0; 1] = lines ->
    forallb (fun e => (fst e =? 0) || (fst e =? 1)) (exInterleave lines) = true ->
    map snd (filter (fun e => fst e =? 0) (exInterleave lines)) = flat_map (c04cLineBases (mkI3 1 1 1) (mkI3 5 5 5)) (firstn 2 lines) ->
    map snd (filter (fun e => fst e =? 1) (exInterleave lines)) = flat_map (c04cLineBases (mkI3 1 1 1) (mkI3 5 5 5)) (skipn 2 lines) ->
    executes (mkI3 5 5 5) lines (exInterleave lines)).
  { intros lines H1 H2 H3 H4. exists [0; 1], (fun t => if t =? 0 then firstn 2 lines else skipn 2 lines).
    split; [repeat constructor; cbn; intuition congruence|]. split; [now rewrite H1|]. split.
    - intros e He. rewrite forallb_forall in H2. specialize (H2 e He). apply orb_true_iff in H2. rewrite !Z.eqb_eq in H2. cbn. intuition.
    - intros t [<-|[<-|[]]]; [exact H3|exact H4]. }
  repeat (constructor; [apply G; vm_compute; reflexivity|]). constructor.
Qed.
