(** C19, C20: the pairwise cell functor. *)
From Coq Require Import Reals Lra Sorted.
From Verif.Base Require Import ZRange Occ.
From Verif.Grid Require Import IndexModel.
From Verif.Functor Require Import CellFunctorModel FunctorSpec CellFunctorProofs SortModel SortSpec SortProofs.
From Verif.Traversal Require Import C08Model C18Model C01Model.
Open Scope Z_scope.

(** C19, one cell that may hold owned particles, no sorting: every particle
    receives the contribution of every other particle of the cell exactly once.
    The only exception are halo particles in an AoS cell without newton3: they
    receive nothing.  All calls are between two different particles of the cell. *)
Theorem C19_cell : forall (P : Type) (pid : P -> Z) (isHalo : P -> bool) view far cf (c : Cell P) a b,
  Permutation (parts c) (view (parts c)) -> distinctIds pid (parts c) -> mayOwn c = true ->
  layout cf = SoA \/ (length (parts c) <= sortingThreshold cf)%nat ->
  In a (parts c) -> In b (parts c) -> a <> b ->
  received pid (processCell isHalo view far cf c) a b =
    match layout cf with SoA => 1%nat | AoS => if useNewton3 cf || negb (isHalo a) then 1%nat else 0%nat end.
Proof.
  exact (fun P pid isHalo view far cf c a b Hp Hd Ho Hs Ha Hb Hne =>
    proj2 (processCell_received pid far isHalo view cf c a b Hp Hd Ho Ha Hb Hne)
      (match Hs with or_introl H => or_introl H | or_intror H => or_intror (or_introl H) end)).
Qed.
Print Assumptions C19_cell.

Theorem C19_cell_only_own_pairs : forall (P : Type) (pid : P -> Z) (isHalo : P -> bool) view far cf (c : Cell P) call,
  (forall x, In x (view (parts c)) -> In x (parts c)) -> distinctIds pid (view (parts c)) -> distinctIds pid (parts c) ->
  In call (processCell isHalo view far cf c) ->
  In (fstP call) (parts c) /\ In (sndP call) (parts c) /\ fstP call <> sndP call.
Proof. exact (fun P pid isHalo view far => processCell_sub pid far isHalo view). Qed.
Print Assumptions C19_cell_only_own_pairs.

(** C19, two cells, no sorting: every particle of the first cell receives the
    contribution of every particle of the second cell exactly once; the other way
    round exactly once with newton3 or a bidirectional cell functor, never otherwise. *)
Theorem C19_pair : forall (P : Type) (pid : P -> Z) view far cf hasDir (c1 c2 : Cell P) a b,
  (forall c, c = c1 \/ c = c2 -> Permutation (parts c) (view (parts c))) ->
  distinctIds pid (parts c1 ++ parts c2) ->
  mayOwn c1 = true \/ (mayOwn c2 = true /\ (useNewton3 cf = true \/ bidirectional cf = true)) ->
  layout cf = SoA \/ (length (parts c1) + length (parts c2) <= sortingThreshold cf)%nat \/ hasDir = false ->
  In a (parts c1) -> In b (parts c2) ->
  received pid (processCellPair view far cf hasDir c1 c2) a b = 1%nat /\
  received pid (processCellPair view far cf hasDir c1 c2) b a =
    if useNewton3 cf || bidirectional cf then 1%nat else 0%nat.
Proof.
  exact (fun P pid view far cf hd c1 c2 a b Hp Hd Hr Hs Ha Hb =>
    proj2 (proj2 (processCellPair_received pid far view cf hd c1 c2 a b Hp Hd Hr Ha Hb))
      (match Hs with or_introl H => or_introl H | or_intror (or_introl H) => or_intror (or_introl H)
       | or_intror (or_intror H) => or_intror (or_intror (or_introl H)) end)).
Qed.
Print Assumptions C19_pair.

Theorem C19_pair_only_own_pairs : forall (P : Type) view far cf hasDir (c1 c2 : Cell P) call,
  (forall c x, c = c1 \/ c = c2 -> In x (view (parts c)) -> In x (parts c)) ->
  In call (processCellPair view far cf hasDir c1 c2) ->
  (In (fstP call) (parts c1) /\ In (sndP call) (parts c2)) \/
  ((useNewton3 cf = true \/ bidirectional cf = true) /\ In (fstP call) (parts c2) /\ In (sndP call) (parts c1)).
Proof. exact (fun P view far => processCellPair_sub (fun _ : P => 0%Z) far (fun _ => true) view). Qed.
Print Assumptions C19_pair_only_own_pairs.

(** C20, one cell, with or without sorting along the (normalised) cell diagonal:
    particles within the sorting cutoff still interact exactly once, and no two
    particles interact twice. *)
Theorem C20_sorted_cell : forall (P : Type) (pid : P -> Z) (isHalo : P -> bool) (pos : P -> R3) cf cutoff cellLength view
    (c : Cell P) a b,
  isSortedView pos (normalize cellLength) (parts c) (view (parts c)) ->
  distinctIds pid (parts c) -> mayOwn c = true -> In a (parts c) -> In b (parts c) -> a <> b ->
  let calls := processCell isHalo view (farAlong pos cutoff (normalize cellLength)) cf c in
  let expected := match layout cf with SoA => 1%nat | AoS => if useNewton3 cf || negb (isHalo a) then 1%nat else 0%nat end in
  (received pid calls a b <= expected)%nat /\
  ((dist3 (pos a) (pos b) <= cutoff)%R -> (dist3 (pos b) (pos a) <= cutoff)%R -> received pid calls a b = expected).
Proof.
  exact (fun P pid isHalo pos cf sc len view c a b Hv Hd Ho Ha Hb Hne =>
    conj (proj1 (processCell_received pid _ isHalo view cf c a b (proj1 Hv) Hd Ho Ha Hb Hne))
         (sorted_cell_complete pid isHalo pos cf sc _ view c a b (normalize_le_1 len) Hv Hd Ho Ha Hb Hne)).
Qed.
Print Assumptions C20_sorted_cell.

(** C20, two cells of a regular grid sorted along the direction from the first to
    the second: particles were in their cells at the last rebuild and have moved
    by at most half the skin since; the skin is at most the sorting cutoff.  Then
    particles within the sorting cutoff interact exactly once. *)
Theorem C20_sorted_pair : forall (P : Type) (pid : P -> Z) (pos old : P -> R3) cf cutoff skin origin cellLength view
    k1 k2 (c1 c2 : Cell P) a b,
  positiveR cellLength -> (skin <= cutoff)%R ->
  let dir := sortingDirection cellLength (i3sub k2 k1) in
  (forall c, c = c1 \/ c = c2 -> isSortedView pos dir (parts c) (view (parts c))) ->
  distinctIds pid (parts c1 ++ parts c2) ->
  mayOwn c1 = true \/ (mayOwn c2 = true /\ (useNewton3 cf = true \/ bidirectional cf = true)) ->
  Forall (fun p => inClosedBox (cellLo origin cellLength k1) (cellHi origin cellLength k1) (old p)) (parts c1) ->
  Forall (fun p => inClosedBox (cellLo origin cellLength k2) (cellHi origin cellLength k2) (old p)) (parts c2) ->
  Forall (fun p => (dist3 (pos p) (old p) <= skin / 2)%R) (parts c1 ++ parts c2) ->
  In a (parts c1) -> In b (parts c2) -> (dist3 (pos a) (pos b) <= cutoff)%R ->
  let calls := processCellPair view (farAlong pos cutoff dir) cf true c1 c2 in
  received pid calls a b = 1%nat /\
  received pid calls b a = if useNewton3 cf || bidirectional cf then 1%nat else 0%nat.
Proof.
  exact (fun P pid pos old cf sc skin origin len view k1 k2 c1 c2 a b Hl Hsk Hv Hid Hrel H1 H2 Hdr Ha Hb Hn =>
    sorted_pair_complete pid pos cf sc _ view old skin _ _ _ _ c1 c2 a b
      (normalize_le_1 _) Hsk Hv Hid Hrel (sortingDirection_points origin len k1 k2 Hl) H1 H2 Hdr Ha Hb Hn).
Qed.
Print Assumptions C20_sorted_pair.

(** C20: the directions that the traversals pass are those of C20_sorted_pair: the
    difference of the cell coordinates of the second and the first cell. *)
Theorem C20_directions : forall near ov dims,
  (map fst (c08OffsetsDir near ov dims) = computePairwiseCellOffsetsC08 near ov dims /\
   forall o1 o2 dir, In (o1, o2, dir) (c08OffsetsDir near ov dims) ->
   exists v1 v2, o1 = threeToOneD v1 dims /\ o2 = threeToOneD v2 dims /\ (v1 <> v2 -> dir = i3sub v2 v1) /\
    (0 <= ix v1 <= Z.max 0 (ix ov) /\ 0 <= iy v1 <= Z.max 0 (iy ov) /\ 0 <= iz v1 <= Z.max 0 (iz ov)) /\
    (0 <= ix v2 <= Z.max 0 (ix ov) /\ 0 <= iy v2 <= Z.max 0 (iy ov) /\ 0 <= iz v2 <= Z.max 0 (iz ov))) /\
  (forall yi xi,
   (forall offs, c18Offsets near ov dims yi xi = Some offs -> map fst (c18OffsetsDir near ov dims yi xi) = offs) /\
   forall o dir, In (o, dir) (c18OffsetsDir near ov dims yi xi) ->
   exists v, o = threeToOneD v dims /\ (v <> mkI3 0 0 0 -> dir = v) /\
     Z.abs (ix v) <= ix ov /\ Z.abs (iy v) <= iy ov /\ Z.abs (iz v) <= iz ov) /\
  (map fst (c01AllOffsetsDir near ov dims) = c01AllOffsets near ov dims /\
   forall o dir, In (o, dir) (c01AllOffsetsDir near ov dims) ->
   exists v, o = threeToOneD v dims /\ (v <> mkI3 0 0 0 -> dir = v) /\
     Z.abs (ix v) <= ix ov /\ Z.abs (iy v) <= iy ov /\ Z.abs (iz v) <= iz ov).
Proof.
  exact (fun n o d => conj (conj (c08Dir_offsets n o d) (c08Dir_points n o d))
    (conj (fun yi xi => conj (c18Dir_offsets n o d yi xi) (c18Dir_points n o d yi xi))
          (conj (c01Dir_offsets n o d) (c01Dir_points n o d)))).
Qed.
Print Assumptions C20_directions.

(** The condition skin <= sorting cutoff of C20_sorted_pair cannot be dropped: for
    two boxes that touch at x = 0, skin 3 and sorting cutoff 1 two particles at the
    same place do not interact.  (The direct sum traversal passes the cutoff, the
    linked cells traversals the interaction length, as sorting cutoff.) *)
Theorem C20_large_skin_refuted : exists (old pos : Z -> R3) (view : list Z -> list Z) (c1 c2 : Cell Z),
  let dir := mkR3 1 0 0 in
  let cf := mkCF AoS true true 1 in
  (forall c, c = c1 \/ c = c2 -> isSortedView pos dir (parts c) (view (parts c))) /\
  distinctIds (fun p => p) (parts c1 ++ parts c2) /\ mayOwn c1 = true /\
  Forall (fun p => inClosedBox (mkR3 (-9) 0 0) (mkR3 0 9 9) (old p)) (parts c1) /\
  Forall (fun p => inClosedBox (mkR3 0 0 0) (mkR3 9 9 9) (old p)) (parts c2) /\
  pointsFromTo (mkR3 (-9) 0 0) (mkR3 0 9 9) (mkR3 0 0 0) (mkR3 9 9 9) dir /\
  Forall (fun p => (dist3 (pos p) (old p) <= 3 / 2)%R) (parts c1 ++ parts c2) /\
  In 1 (parts c1) /\ In 3 (parts c2) /\ pos 1 = pos 3 /\
  received (fun p => p) (processCellPair view (farAlong pos 1 dir) cf true c1 c2) 1 3 = 0%nat.
Proof. exact large_skin_counterexample. Qed.
Print Assumptions C20_large_skin_refuted.

(** Concrete cases: particles are (id, isHalo); two owned and one halo particle. *)
Definition exHalo (p : Z * bool) : bool := snd p.
Example C19_nonvacuous :
  let c := mkCell [(1, false); (2, true); (3, false)] true in
  let c2 := mkCell [(4, true); (5, true)] false in
  let cf := mkCF AoS false true 8 in
  distinctIds fst (parts c ++ parts c2) /\
  received fst (processCell exHalo (fun l => l) (fun _ _ => true) cf c) (1, false) (2, true) = 1%nat /\
  received fst (processCell exHalo (fun l => l) (fun _ _ => true) cf c) (2, true) (1, false) = 0%nat /\
  received fst (processCellPair (fun l => l) (fun _ _ => true) cf true c c2) (3, false) (5, true) = 1%nat /\
  length (processCellPair (fun l => l) (fun _ _ => true) cf true c c2) = 12%nat.
Proof.
  cbv zeta. split; [|vm_compute; auto].
  unfold distinctIds. cbn. repeat constructor; cbn; intuition lia.
Qed.

(** Sorted branch: nine particles on a line with distance 1, sorting threshold 8,
    sorting cutoff 1; the cell is sorted, neighbours interact. *)
Definition exLine (p : Z) : R3 := mkR3 (IZR p) 0 0.
Example C20_nonvacuous :
  let c := mkCell [0; 1; 2; 3; 4; 5; 6; 7; 8] true in
  isSortedView exLine (normalize (mkR3 1 1 1)) (parts c) (parts c) /\
  distinctIds (fun p => p) (parts c) /\ (dist3 (exLine 3) (exLine 4) <= 1)%R /\
  received (fun p => p) (processCell (fun _ => false) (fun l => l) (farAlong exLine 1 (normalize (mkR3 1 1 1)))
              (mkCF AoS true true 8) c) 3 4 = 1%nat.
Proof.
  cbv zeta. cbn [parts].
  assert (Hs : isSortedView exLine (normalize (mkR3 1 1 1)) [0; 1; 2; 3; 4; 5; 6; 7; 8] [0; 1; 2; 3; 4; 5; 6; 7; 8]).
  { split; [apply Permutation_refl|].
    assert (Hm : forall p q, (IZR p <= IZR q)%R ->
              (projection exLine (normalize (mkR3 1 1 1)) p <= projection exLine (normalize (mkR3 1 1 1)) q)%R).
    { intros p q H. unfold projection, exLine, dot.
      destruct (normalize_sign (mkR3 1 1 1) 0) as (k & Hk & E & _). rewrite E. cbn. nra. }
    repeat (apply SSorted_cons; [|repeat (apply Forall_cons; [apply Hm; apply IZR_le; lia|]); apply Forall_nil]).
    apply SSorted_nil. }
  assert (Hd : distinctIds (fun p : Z => p) [0; 1; 2; 3; 4; 5; 6; 7; 8]).
  { unfold distinctIds. cbn. repeat constructor; cbn; intuition lia. }
  assert (Hn : forall p q, p - q = 1 \/ q - p = 1 -> (dist3 (exLine p) (exLine q) <= 1)%R).
  { intros p q H. unfold dist3, dot, rsub, exLine. cbn. rewrite <- minus_IZR.
    replace (_ + _ + _)%R with 1%R; [rewrite sqrt_1; lra|].
    destruct H as [H|H]; [rewrite H; ring|]. replace (p - q) with (-1) by lia. ring. }
  split; [exact Hs|split; [exact Hd|split; [apply Hn; lia|]]].
  apply (proj2 (C20_sorted_cell Z (fun p => p) (fun _ => false) exLine (mkCF AoS true true 8) 1 (mkR3 1 1 1) (fun l => l)
    (mkCell [0; 1; 2; 3; 4; 5; 6; 7; 8] true) 3 4 Hs Hd eq_refl ltac:(cbn; tauto) ltac:(cbn; tauto) ltac:(lia))).
  - apply Hn. lia.
  - apply Hn. lia.
Qed.
