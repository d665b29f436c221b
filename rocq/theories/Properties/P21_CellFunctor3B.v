(** C21: the three-body cell functor. *)
From Coq Require Import Reals Lra Sorted.
From Verif.Base Require Import ZRange Occ.
From Verif.Grid Require Import IndexModel.
From Verif.Functor Require Import CellFunctorModel FunctorSpec SortModel SortSpec SortProofs
  CellFunctor3BModel Functor3BSpec CellFunctor3BProofs CellFunctor3BCounts.
Open Scope Z_scope.

(** One cell that may hold owned particles, without sorting: every particle gets
    the contribution of every pair of other particles of the cell exactly once
    (halo particles in an AoS cell without newton3: never). *)
Theorem C21_cell : forall (P : Type) (pid : P -> Z) (isHalo : P -> bool) view far cf (c : Cell P) a b d,
  Permutation (parts c) (view (parts c)) -> distinctIds pid (parts c) -> mayOwn c = true ->
  layout cf = SoA \/ (length (parts c) <= sortingThreshold cf)%nat ->
  In a (parts c) -> In b (parts c) -> In d (parts c) -> a <> b -> a <> d -> b <> d ->
  received3 pid (processCell3 isHalo view far cf c) a b d =
    match layout cf with SoA => 1%nat | AoS => if useNewton3 cf || negb (isHalo a) then 1%nat else 0%nat end.
Proof.
  exact (fun P pid isHalo view far cf c a b d Hp Hl Ho Hs Ha Hb Hd N1 N2 N3 =>
    proj2 (processCell3_received pid isHalo view far cf c a b d Hp Hl Ho Ha Hb Hd N1 N2 N3)
      (match Hs with or_introl H => or_introl H | or_intror H => or_intror (or_introl H) end)).
Qed.
Print Assumptions C21_cell.

(** Two cells, without sorting; two particles of the first and one of the second
    cell: both particles of the first cell get the triplet's contribution exactly
    once; the particle of the second cell exactly once with newton3 or a
    bidirectional cell functor, never otherwise. *)
Theorem C21_pair_two_one : forall (P : Type) (pid : P -> Z) view far cf hasDir (c1 c2 : Cell P) a b d,
  (forall c, c = c1 \/ c = c2 -> Permutation (parts c) (view (parts c))) ->
  distinctIds pid (parts c1 ++ parts c2) ->
  mayOwn c1 = true \/ (mayOwn c2 = true /\ (useNewton3 cf = true \/ bidirectional cf = true)) ->
  layout cf = SoA \/ (length (parts c1) + length (parts c2) <= sortingThreshold cf)%nat \/ hasDir = false ->
  In a (parts c1) -> In b (parts c1) -> a <> b -> In d (parts c2) ->
  let calls := processCellPair3 view far cf hasDir c1 c2 in
  received3 pid calls a b d = 1%nat /\ received3 pid calls b a d = 1%nat /\
  received3 pid calls d a b = if useNewton3 cf || bidirectional cf then 1%nat else 0%nat.
Proof.
  exact (fun P pid view far cf hd c1 c2 a b d Hp Hl Hr Hs Ha Hb Hne Hd =>
    proj2 (processCellPair3_AB pid (fun _ => true) view far cf hd c1 c2 a b d Hp Hl Hr Ha Hb Hne Hd)
      (match Hs with or_introl H => or_introl H | or_intror (or_introl H) => or_intror (or_introl H)
       | or_intror (or_intror H) => or_intror (or_intror (or_introl H)) end)).
Qed.
Print Assumptions C21_pair_two_one.

(** Two cells, one particle of the first and two of the second. *)
Theorem C21_pair_one_two : forall (P : Type) (pid : P -> Z) view far cf hasDir (c1 c2 : Cell P) a b d,
  (forall c, c = c1 \/ c = c2 -> Permutation (parts c) (view (parts c))) ->
  distinctIds pid (parts c1 ++ parts c2) ->
  mayOwn c1 = true \/ (mayOwn c2 = true /\ (useNewton3 cf = true \/ bidirectional cf = true)) ->
  layout cf = SoA \/ (length (parts c1) + length (parts c2) <= sortingThreshold cf)%nat \/ hasDir = false ->
  In a (parts c1) -> In b (parts c2) -> b <> d -> In d (parts c2) ->
  let calls := processCellPair3 view far cf hasDir c1 c2 in
  let other := if useNewton3 cf || bidirectional cf then 1%nat else 0%nat in
  received3 pid calls a b d = 1%nat /\ received3 pid calls b a d = other /\ received3 pid calls d a b = other.
Proof.
  exact (fun P pid view far cf hd c1 c2 a b d Hp Hl Hr Hs Ha Hb Hne Hd =>
    proj2 (processCellPair3_BD pid (fun _ => true) view far cf hd c1 c2 a b d Hp Hl Hr Ha Hb Hne Hd)
      (match Hs with or_introl H => or_introl H | or_intror (or_introl H) => or_intror (or_introl H)
       | or_intror (or_intror H) => or_intror (or_intror (or_introl H)) end)).
Qed.
Print Assumptions C21_pair_one_two.

(** Three cells, without sorting. *)
Theorem C21_triple : forall (P : Type) (pid : P -> Z) view far cf hasDir (c1 c2 c3 : Cell P) a b d,
  (forall c, c = c1 \/ c = c2 -> Permutation (parts c) (view (parts c))) ->
  distinctIds pid (parts c1 ++ parts c2 ++ parts c3) ->
  mayOwn c1 = true \/ ((mayOwn c2 = true \/ mayOwn c3 = true) /\ (useNewton3 cf = true \/ bidirectional cf = true)) ->
  layout cf = SoA \/ (length (parts c1) + length (parts c2) + length (parts c3) <= sortingThreshold cf)%nat \/ hasDir = false ->
  In a (parts c1) -> In b (parts c2) -> In d (parts c3) ->
  let calls := processCellTriple3 view far cf hasDir c1 c2 c3 in
  let other := if useNewton3 cf || bidirectional cf then 1%nat else 0%nat in
  received3 pid calls a b d = 1%nat /\ received3 pid calls b a d = other /\ received3 pid calls d a b = other.
Proof.
  exact (fun P pid view far cf hd c1 c2 c3 a b d Hp Hl Hr Hs Ha Hb Hd =>
    proj2 (processCellTriple3_received pid (fun _ => true) view far cf hd c1 c2 c3 a b d Hp Hl Hr Ha Hb Hd)
      (match Hs with or_introl H => or_introl H | or_intror (or_introl H) => or_intror (or_introl H)
       | or_intror (or_intror H) => or_intror (or_intror (or_introl H)) end)).
Qed.
Print Assumptions C21_triple.

(** No other calls: one cell - three particles of the cell; two cells - particles
    of both cells, not all from the same one; three cells - one of each. *)
Theorem C21_only_own_triplets : forall (P : Type) (pid : P -> Z) (isHalo : P -> bool) view far cf hasDir (c1 c2 c3 : Cell P) call,
  (forall c x, c = c1 \/ c = c2 -> In x (view (parts c)) -> In x (parts c)) ->
  (In call (processCell3 isHalo view far cf c1) ->
   In (p3a call) (parts c1) /\ In (p3b call) (parts c1) /\ In (p3c call) (parts c1)) /\
  (In call (processCellPair3 view far cf hasDir c1 c2) ->
   callWithin call (parts c1 ++ parts c2) /\
   (useNewton3 cf || bidirectional cf = false -> In (p3a call) (parts c1) /\ p3n call = false) /\
   ~ (In (p3a call) (parts c1) /\ In (p3b call) (parts c1) /\ In (p3c call) (parts c1) /\
      distinctIds pid (parts c1 ++ parts c2)) /\
   ~ (In (p3a call) (parts c2) /\ In (p3b call) (parts c2) /\ In (p3c call) (parts c2) /\
      distinctIds pid (parts c1 ++ parts c2))) /\
  (In call (processCellTriple3 view far cf hasDir c1 c2 c3) ->
   exists p q s, In p (parts c1) /\ In q (parts c2) /\ In s (parts c3) /\
      ((p3a call = p /\ p3b call = q /\ p3c call = s) \/
       (bidirectional cf = true /\ useNewton3 cf = false /\ p3n call = false /\
        ((p3a call = q /\ p3b call = p /\ p3c call = s) \/ (p3a call = s /\ p3b call = p /\ p3c call = q))))).
Proof.
  exact (fun P pid isHalo view far cf hd c1 c2 c3 call Hv =>
    conj (processCell3_sub pid isHalo view far cf c1 call (fun x => Hv c1 x (or_introl eq_refl)))
    (conj (processCellPair3_sub pid isHalo view far cf hd c1 c2 call Hv)
          (processCellTriple3_sub pid isHalo view far cf hd c1 c2 c3 call Hv))).
Qed.
Print Assumptions C21_only_own_triplets.

(** With sorting: particles that are pairwise within the sorting cutoff (along the
    normalised cell diagonal for one cell; along the direction between the cells,
    which held the particles at the last rebuild, at most half a skin ago, for
    several cells) still interact exactly once. *)
Theorem C21_sorted_cell : forall (P : Type) (pid : P -> Z) (isHalo : P -> bool) (pos : P -> R3) cf cutoff cellLength view
    (c : Cell P) a b d,
  isSortedView pos (normalize cellLength) (parts c) (view (parts c)) ->
  distinctIds pid (parts c) -> mayOwn c = true ->
  In a (parts c) -> In b (parts c) -> In d (parts c) -> a <> b -> a <> d -> b <> d ->
  within pos cutoff a b -> within pos cutoff a d -> within pos cutoff b d ->
  received3 pid (processCell3 isHalo view (farAlong pos cutoff (normalize cellLength)) cf c) a b d =
    match layout cf with SoA => 1%nat | AoS => if useNewton3 cf || negb (isHalo a) then 1%nat else 0%nat end.
Proof.
  exact (fun P pid isHalo pos cf sc len view c a b d =>
    sorted3_cell pid isHalo pos cf sc (normalize len) view c a b d (normalize_le_1 len)).
Qed.
Print Assumptions C21_sorted_cell.

Theorem C21_sorted_cells : forall (P : Type) (pid : P -> Z) (pos old : P -> R3) cf cutoff skin origin cellLength view
    k1 k2 (c1 c2 : Cell P),
  positiveR cellLength -> (skin <= cutoff)%R ->
  let dir := sortingDirection cellLength (i3sub k2 k1) in
  (forall c, c = c1 \/ c = c2 -> isSortedView pos dir (parts c) (view (parts c))) ->
  Forall (fun p => inClosedBox (cellLo origin cellLength k1) (cellHi origin cellLength k1) (old p)) (parts c1) ->
  Forall (fun p => inClosedBox (cellLo origin cellLength k2) (cellHi origin cellLength k2) (old p)) (parts c2) ->
  Forall (fun p => (dist3 (pos p) (old p) <= skin / 2)%R) (parts c1 ++ parts c2) ->
  let other := if useNewton3 cf || bidirectional cf then 1%nat else 0%nat in
  let calls2 := processCellPair3 view (farAlong pos cutoff dir) cf true c1 c2 in
  (forall a b d, distinctIds pid (parts c1 ++ parts c2) ->
     mayOwn c1 = true \/ (mayOwn c2 = true /\ (useNewton3 cf = true \/ bidirectional cf = true)) ->
     In a (parts c1) -> In b (parts c1) -> a <> b -> In d (parts c2) ->
     within pos cutoff a b -> within pos cutoff a d -> within pos cutoff b d ->
     received3 pid calls2 a b d = 1%nat /\ received3 pid calls2 b a d = 1%nat /\ received3 pid calls2 d a b = other) /\
  (forall a b d, distinctIds pid (parts c1 ++ parts c2) ->
     mayOwn c1 = true \/ (mayOwn c2 = true /\ (useNewton3 cf = true \/ bidirectional cf = true)) ->
     In a (parts c1) -> In b (parts c2) -> b <> d -> In d (parts c2) ->
     within pos cutoff a b -> within pos cutoff a d -> within pos cutoff b d ->
     received3 pid calls2 a b d = 1%nat /\ received3 pid calls2 b a d = other /\ received3 pid calls2 d a b = other) /\
  (forall c3 a b d, distinctIds pid (parts c1 ++ parts c2 ++ parts c3) ->
     mayOwn c1 = true \/ ((mayOwn c2 = true \/ mayOwn c3 = true) /\ (useNewton3 cf = true \/ bidirectional cf = true)) ->
     In a (parts c1) -> In b (parts c2) -> In d (parts c3) -> within pos cutoff a b ->
     let calls3 := processCellTriple3 view (farAlong pos cutoff dir) cf true c1 c2 c3 in
     received3 pid calls3 a b d = 1%nat /\ received3 pid calls3 b a d = other /\ received3 pid calls3 d a b = other).
Proof.
  exact (fun P pid pos old cf sc skin origin len view k1 k2 c1 c2 Hl Hsk Hv B1 B2 Hdr =>
    let pt := sortingDirection_points origin len k1 k2 Hl in
    conj (sorted3_pair_AB pid (fun _ => true) pos cf sc skin _ view old _ _ _ _ c1 c2 (normalize_le_1 _) Hsk Hv pt B1 B2 Hdr)
    (conj (sorted3_pair_BD pid (fun _ => true) pos cf sc skin _ view old _ _ _ _ c1 c2 (normalize_le_1 _) Hsk Hv pt B1 B2 Hdr)
          (sorted3_triple pid (fun _ => true) pos cf sc skin _ view old _ _ _ _ c1 c2 (normalize_le_1 _) Hsk Hv pt B1 B2 Hdr))).
Qed.
Print Assumptions C21_sorted_cells.

(** Concrete cases: particles (id, isHalo); three cells with 3, 2 and 1 particles. *)
Example C21_nonvacuous :
  let c1 := mkCell [(1, false); (2, true); (3, false)] true in
  let c2 := mkCell [(4, true); (5, true)] false in
  let c3 := mkCell [(6, true)] false in
  let cf := mkCF AoS false true 8 in
  let same (l : list (Z * bool)) := l in
  let far (_ _ : Z * bool) := true in
  distinctIds fst (parts c1 ++ parts c2 ++ parts c3) /\
  received3 fst (processCell3 snd same far cf c1) (1, false) (2, true) (3, false) = 1%nat /\
  received3 fst (processCell3 snd same far cf c1) (2, true) (1, false) (3, false) = 0%nat /\
  received3 fst (processCellPair3 same far cf true c1 c2) (1, false) (3, false) (4, true) = 1%nat /\
  length (processCellPair3 same far cf true c1 c2) = 27%nat /\
  length (processCellTriple3 same far cf true c1 c2 c3) = 18%nat.
Proof.
  cbv zeta. split; [|vm_compute; auto].
  unfold distinctIds. cbn. repeat constructor; cbn; intuition lia.
Qed.

Definition exLine3 (p : Z) : R3 := mkR3 (IZR p) 0 0.
Example C21_sorted_nonvacuous :
  let dir := sortingDirection (mkR3 4 4 4) (i3sub (mkI3 1 0 0) (mkI3 0 0 0)) in
  let c1 := mkCell [1; 2; 3] true in let c2 := mkCell [5; 6] false in
  (forall c, c = c1 \/ c = c2 -> isSortedView exLine3 dir (parts c) (parts c)) /\
  Forall (fun p => inClosedBox (cellLo (mkR3 0 0 0) (mkR3 4 4 4) (mkI3 0 0 0)) (cellHi (mkR3 0 0 0) (mkR3 4 4 4) (mkI3 0 0 0)) (exLine3 p)) (parts c1) /\
  Forall (fun p => inClosedBox (cellLo (mkR3 0 0 0) (mkR3 4 4 4) (mkI3 1 0 0)) (cellHi (mkR3 0 0 0) (mkR3 4 4 4) (mkI3 1 0 0)) (exLine3 p)) (parts c2) /\
  received3 (fun p => p) (processCellPair3 (fun l => l) (farAlong exLine3 3 dir) (mkCF AoS true true 3) true c1 c2) 2 3 5 = 1%nat.
Proof.
  cbv zeta.
  set (dir := sortingDirection _ _).
  assert (Hv : forall c, c = mkCell [1; 2; 3] true \/ c = mkCell [5; 6] false -> isSortedView exLine3 dir (parts c) (parts c)).
  { assert (Hm : forall p q, (IZR p <= IZR q)%R -> (projection exLine3 dir p <= projection exLine3 dir q)%R).
    { intros p q H. unfold projection, exLine3, dot, dir, sortingDirection.
      set (v := rmul _ _).
      destruct (normalize_sign v 0) as (k & Hk & E & _). rewrite E.
      assert (Ev : v = mkR3 4 0 0) by (unfold v, rmul, i3R, i3sub; cbn [ix iy iz rx ry rz];
        change (1 - 0) with 1; change (0 - 0) with 0; f_equal; lra).
      rewrite Ev. unfold rscale. cbn [rx ry rz].
      assert (0 <= k * (IZR q - IZR p))%R by (apply Rmult_le_pos; lra). lra. }
    intros c [-> | ->]; cbn [parts]; (split; [apply Permutation_refl|]);
    repeat (apply SSorted_cons; [|repeat (apply Forall_cons; [apply Hm; apply IZR_le; lia|]); apply Forall_nil]);
    apply SSorted_nil. }
  assert (Hself : forall p, (dist3 (exLine3 p) (exLine3 p) <= 0 / 2)%R).
  { intros p. unfold dist3, dot, rsub. cbn. replace (_ + _ + _)%R with 0%R by ring. rewrite sqrt_0. lra. }
  assert (Hn : forall p q, p - q = 1 \/ p - q = 2 \/ p - q = 3 \/ q - p = 1 \/ q - p = 2 \/ q - p = 3 -> (dist3 (exLine3 p) (exLine3 q) <= 3)%R).
  { intros p q H. unfold dist3, dot, rsub, exLine3. cbn [rx ry rz]. rewrite <- minus_IZR.
    rewrite <- (sqrt_square 3) by lra. apply sqrt_le_1_alt.
    assert (Hz : (IZR ((p - q) * (p - q)) <= IZR 9)%R) by (apply IZR_le; assert (-3 <= p - q <= 3) by lia; clear H; nia). rewrite mult_IZR in Hz. lra. }
  assert (B1 : Forall (fun p => inClosedBox (cellLo (mkR3 0 0 0) (mkR3 4 4 4) (mkI3 0 0 0)) (cellHi (mkR3 0 0 0) (mkR3 4 4 4) (mkI3 0 0 0)) (exLine3 p)) [1; 2; 3]).
  { repeat apply Forall_cons; try apply Forall_nil; unfold inClosedBox, cellLo, cellHi, exLine3, cellLo, i3add; cbn [rx ry rz ix iy iz]; rewrite ?plus_IZR; lra. }
  assert (B2 : Forall (fun p => inClosedBox (cellLo (mkR3 0 0 0) (mkR3 4 4 4) (mkI3 1 0 0)) (cellHi (mkR3 0 0 0) (mkR3 4 4 4) (mkI3 1 0 0)) (exLine3 p)) [5; 6]).
  { repeat apply Forall_cons; try apply Forall_nil; unfold inClosedBox, cellLo, cellHi, exLine3, cellLo, i3add; cbn [rx ry rz ix iy iz]; rewrite ?plus_IZR; lra. }
  split; [exact Hv|split; [exact B1|split; [exact B2|]]].
  refine (proj1 (proj1 (C21_sorted_cells Z (fun p => p) exLine3 exLine3 (mkCF AoS true true 3) 3 0 (mkR3 0 0 0) (mkR3 4 4 4)
    (fun l => l) (mkI3 0 0 0) (mkI3 1 0 0) (mkCell [1; 2; 3] true) (mkCell [5; 6] false) _ _ Hv B1 B2 _) 2 3 5 _ _ _ _ _ _ _ _ _)).
  - unfold positiveR. cbn. lra.
  - lra.
  - apply Forall_forall. intros p _. apply Hself.
  - unfold distinctIds. cbn. repeat constructor; cbn; intuition lia.
  - now left.
  - cbn. tauto.
  - cbn. tauto.
  - lia.
  - cbn. tauto.
  - split; apply Hn; lia.
  - split; apply Hn; lia.
  - split; apply Hn; lia.
Qed.
