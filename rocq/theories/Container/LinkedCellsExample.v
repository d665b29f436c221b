(** A concrete case of the linked cells theorems. *)
From Coq Require Import Reals Lra Sorted.
From Flocq Require Import Core.
From Verif.Base Require Import ZRange.
From Verif.Grid Require Import IndexModel CellBlockModel CellBlockSpec CellBlockExact.
From Verif.Functor Require Import CellFunctorModel FunctorSpec SortModel SortSpec.
From Verif.Container Require Import LinkedCellsModel LinkedCellsSpec.
Open Scope R_scope.

(** Insertion sort along a direction: sorted views exist for all particles. *)
Section Sort.
  Context {P : Type}.
  Variable pos : P -> R3.
  Fixpoint insertBy (d : R3) (p : P) (l : list P) : list P :=
    match l with
    | [] => [p]
    | q :: r => if Rle_dec (projection pos d p) (projection pos d q) then p :: q :: r else q :: insertBy d p r
    end.
  Definition sortBy (d : R3) (l : list P) : list P := fold_right (insertBy d) [] l.

  Lemma insertBy_perm d p l : Permutation (p :: l) (insertBy d p l).
  Proof.
    induction l as [|q r IH]; [reflexivity|]. cbn [insertBy]. destruct (Rle_dec _ _); [reflexivity|].
    rewrite perm_swap. now constructor.
  Qed.
  Lemma insertBy_sorted d p l : StronglySorted (fun p q => projection pos d p <= projection pos d q) l ->
    StronglySorted (fun p q => projection pos d p <= projection pos d q) (insertBy d p l).
  Proof.
    induction l as [|q r IH]; intros H; cbn [insertBy]; [repeat constructor|].
    inversion H as [|? ? H1 H2]; subst. destruct (Rle_dec _ _) as [Hle|Hgt].
    - constructor; [assumption|]. constructor; [assumption|]. eapply Forall_impl; [|exact H2]. intros; cbn in *; lra.
    - constructor; [now apply IH|]. eapply Permutation_Forall; [apply insertBy_perm|]. constructor; [lra|assumption].
  Qed.
  Lemma sortBy_sorted d l : isSortedView pos d l (sortBy d l).
  Proof.
    induction l as [|p l [IH1 IH2]]; [split; [reflexivity|constructor]|]. cbn [sortBy fold_right]. split.
    - rewrite IH1 at 1. apply insertBy_perm.
    - now apply insertBy_sorted.
  Qed.
End Sort.

(** Four particles in the box [0,3)^3 with interaction length 1: two close owned
    ones in different cells, a halo particle close to the first, and one far away. *)
Definition exOld (p : Z) : R3 :=
  match p with 0%Z => mkR3 (9 / 10) (1 / 2) 0 | 1%Z => mkR3 (11 / 10) (1 / 2) 0
             | 2%Z => mkR3 (9 / 10) (-(1 / 10)) 0 | _ => mkR3 (5 / 2) (5 / 2) (29 / 10) end.
Definition exPos (p : Z) : R3 :=
  match p with 0%Z => mkR3 (1) (1 / 2) 0 | _ => exOld p end.
Definition exHalo (p : Z) : bool := (p =? 2)%Z.
Definition exPs : list Z := [0; 1; 2; 3]%Z.

Lemma lc_example :
  let bMin := mkR3 0 0 0 in let bMax := mkR3 3 3 3 in
  let b := rebuild rndExact 1 1 bMin bMax in
  validGrid 1 1 bMin bMax /\ (forall dir l, isSortedView exPos dir l (sortBy exPos dir l)) /\
  distinctIds (fun p => p) exPs /\ validParticles exHalo exOld b bMin bMax exPs /\
  movedAtMost exOld exPos (1 / 5) exPs /\
  dist3 (exPos 0) (exPos 1) <= 1 - 1 / 5 /\ dist3 (exPos 0) (exPos 2) <= 1 - 1 / 5 /\ exHalo 0 = false /\
  get3DIndexOfPosition rndExact b (exOld 0) <> get3DIndexOfPosition rndExact b (exOld 1).
Proof.
  cbv zeta.
  assert (E : cellsPerDim rndExact (3 - 0) 1 1 = 3%Z).
  { unfold cellsPerDim, rndExact. replace ((3 - 0) / (1 * 1)) with 3 by field. change 3 with (IZR 3). now rewrite Zfloor_IZR. }
  assert (Eh : cellsPerInteractionLength rndExact 1 = 1%Z).
  { unfold cellsPerInteractionLength. destruct (Rle_dec 1 1); [reflexivity|lra]. }
  assert (Ed : rebuildDim rndExact 1 1 0 3 = mkDim 0 3 3 1 1 1 (-1) 4).
  { rewrite exact_d. rewrite E, Eh. f_equal; lra. }
  assert (Eb : rebuild rndExact 1 1 (mkR3 0 0 0) (mkR3 3 3 3) = mkBlock (mkDim 0 3 3 1 1 1 (-1) 4) (mkDim 0 3 3 1 1 1 (-1) 4) (mkDim 0 3 3 1 1 1 (-1) 4)).
  { unfold rebuild. cbn [rx ry rz]. now rewrite Ed. }
  assert (Hd : forall x y z u v w r, 0 <= r -> (x - u) * (x - u) + (y - v) * (y - v) + (z - w) * (z - w) <= r * r ->
             dist3 (mkR3 x y z) (mkR3 u v w) <= r).
  { intros x y z u v w r Hr H. unfold dist3, dot, rsub. cbn [rx ry rz]. rewrite <- (sqrt_Rsqr r Hr). apply sqrt_le_1_alt. exact H. }
  split; [|split; [|split; [|split; [|split; [|split; [|split; [|split]]]]]]].
  - unfold validGrid, below, longEnough. rewrite Eb. cbn [rx ry rz bX bY bZ]. unfold rndExact, dWithHalo. cbn [dCells dHalo].
    repeat split; try lra; reflexivity.
  - apply sortBy_sorted.
  - unfold distinctIds, exPs. cbn [map]. repeat constructor; cbn; intuition lia.
  - rewrite Eb. unfold validParticles, exPs, exHalo, inBox, getHaloBoxMin, getHaloBoxMax, exOld. cbn [bX bY bZ dHaloMin dHaloMax rx ry rz].
    repeat (apply Forall_cons || apply Forall_nil); cbn [Z.eqb Pos.eqb rx ry rz]; (split; [lra|]); split; intros; first [reflexivity | discriminate | lra | exfalso; lra].
  - unfold movedAtMost, exPs, exPos, exOld. repeat (apply Forall_cons || apply Forall_nil); apply Hd; lra.
  - unfold exPos, exOld. apply Hd; lra.
  - unfold exPos, exOld. apply Hd; lra.
  - reflexivity.
  - rewrite Eb. unfold get3DIndexOfPosition, exOld. cbn [bX bY bZ rx ry rz].
    assert (F0 : cellIndexOf rndExact (mkDim 0 3 3 1 1 1 (-1) 4) (9 / 10) = Some 1%Z).
    { unfold cellIndexOf, rndExact. cbn [dMin dMax dRecip dHalo]. rewrite (Zfloor_imp 0) by (rewrite plus_IZR; lra). cbn.
      destruct (Rle_dec 3 (9 / 10)); [lra|]. destruct (Rlt_dec (9 / 10) 0); [lra|]. reflexivity. }
    assert (F1 : cellIndexOf rndExact (mkDim 0 3 3 1 1 1 (-1) 4) (11 / 10) = Some 2%Z).
    { unfold cellIndexOf, rndExact. cbn [dMin dMax dRecip dHalo]. rewrite (Zfloor_imp 1) by (rewrite plus_IZR; lra). cbn.
      destruct (Rle_dec 3 (11 / 10)); [lra|]. destruct (Rlt_dec (11 / 10) 0); [lra|]. reflexivity. }
    rewrite F0, F1. destruct (cellIndexOf _ _ (1 / 2)) eqn:E1.
    + destruct (cellIndexOf _ _ 0) eqn:E2; [intros H; injection H; discriminate|].
      unfold cellIndexOf, rndExact in E2. cbn [dMin dRecip] in E2. rewrite (Zfloor_imp 0) in E2 by (rewrite plus_IZR; lra). discriminate.
    + unfold cellIndexOf, rndExact in E1. cbn [dMin dRecip] in E1. rewrite (Zfloor_imp 0) in E1 by (rewrite plus_IZR; lra). discriminate.
Qed.
