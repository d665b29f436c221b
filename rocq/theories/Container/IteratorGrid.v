(** Iteration over a linked cells container with an IEEE grid to which particles
    were added. *)
From Coq Require Import Reals.
From Verif.Base Require Import ZRange Lists.
From Verif.Grid Require Import IndexModel IndexSpec CellBlockModel CellBlockSpec CellBlockProofs CellBlockFloat.
From Verif.Functor Require Import CellFunctorModel SortModel.
From Verif.Container Require Import LinkedCellsModel LinkedCellsBuild IteratorModel IteratorContainers IteratorSpec IteratorLemmas IteratorParallel IteratorInstances.
Open Scope Z_scope.

Lemma double_dims il csf bMin bMax : (0 < csf)%R ->
  let b := rebuild rndDouble il csf bMin bMax in 0 <= dHalo (bX b) /\ positive (blockDims b).
Proof.
  intros Hc b.
  assert (Hh : 1 <= cellsPerInteractionLength rndDouble csf).
  { apply cellsPerIL_pos; [apply rndDouble_mono|apply rndDouble_id; now apply (isDouble_IZR 1)|exact Hc]. }
  assert (HN : forall L, 1 <= cellsPerDim rndDouble L il csf) by (intros; unfold cellsPerDim; lia).
  unfold b, rebuild, rebuildDim, blockDims, positive, dWithHalo. cbn [bX bY bZ dHalo dCells ix iy iz].
  split; [lia|]. split; [|split]; match goal with |- context [cellsPerDim rndDouble ?L il csf] => pose proof (HN L) end; lia.
Qed.

Lemma placed_nonempty {P} (ownership : P -> Z) b (cs : list (list P)) : positive (blockDims b) -> lcPlaced ownership b cs -> cs <> [].
Proof.
  intros (H1 & H2 & H3) (L & _) ->. unfold size, numCells in L. cbn [length] in L.
  assert (0 < ix (blockDims b) * iy (blockDims b)) by (apply Z.mul_pos_pos; assumption).
  assert (0 < ix (blockDims b) * iy (blockDims b) * iz (blockDims b)) by (apply Z.mul_pos_pos; assumption). lia.
Qed.

Lemma sorted_perm {P} (f : Z -> P -> bool) L : NoDup L -> forall ps,
  (forall p, In p ps -> exists i, In i L /\ forall j, f j p = (j =? i)) ->
  Permutation (flat_map (fun i => filter (f i) ps) L) ps.
Proof.
  intros Nd. induction ps as [|p ps IH]; intros H.
  - induction L as [|a L IHL]; [reflexivity|]. cbn [flat_map filter app]. apply IHL; [now inversion Nd|intros p []].
  - destruct (H p) as (i & Hi & Ef); [now left|].
    rewrite (perm_flat_map_update (fun i => filter (f i) ps) (fun i => filter (f i) (p :: ps)) L i [p] Nd Hi).
    + rewrite (IH (fun q Hq => H q (or_intror Hq))). symmetry. apply Permutation_cons_append.
    + intros j Hj Hn. cbn [filter]. rewrite Ef. destruct (Z.eqb_spec j i); [congruence|reflexivity].
    + cbn [filter]. rewrite Ef, Z.eqb_refl. apply Permutation_cons_append.
Qed.

Section Added.
  Context {P : Type}.
  Variable ownership : P -> Z.
  Variable pos : P -> R3.
  Variables (il csf : R) (bMin bMax : R3).
  Hypothesis G : floatGrid il csf bMin bMax.
  Let b := rebuild rndDouble il csf bMin bMax.
  Let isHalo (p : P) := ownership p =? 2.
  Variable ps : list P.
  Hypothesis Hps : forall p, In p ps -> (ownership p = 1 /\ inBox bMin bMax (pos p)) \/
    (ownership p = 2 /\ ~ inBox bMin bMax (pos p) /\ get1DIndexOfPosition rndDouble b (pos p) <> None).
  Hypothesis Hsmall : numCells (blockDims b) < sizeMax.
  Hypothesis Hfew : size ps < sizeMax.

  Lemma dims_pos : positive (blockDims b).
  Proof. now apply double_dims with (il := il) (csf := csf) (bMin := bMin) (bMax := bMax); destruct G as (_ & _ & _ & H & _). Qed.

  Lemma index_of p : In p ps -> exists i, get1DIndexOfPosition rndDouble b (pos p) = Some i /\ 0 <= i < numCells (blockDims b) /\
    (ownership p = 1 /\ cellCanContainOwnedParticles b i = true \/ ownership p = 2 /\ cellCanContainHaloParticles b i = true /\ cellCanContainOwnedParticles b i = false).
  Proof.
    intros H. destruct (Hps p H) as [[Ho Hi]|(Ho & Hi & He)].
    - destruct (float_inside il csf bMin bMax G (pos p) Hi) as (i & E & R & C & _). exists i. auto.
    - fold b in He. destruct (get1DIndexOfPosition rndDouble b (pos p)) as [i|] eqn:E; [|congruence].
      destruct (float_outside il csf bMin bMax G (pos p) i Hi E) as (R & C & D). exists i. auto 8.
  Qed.

  Lemma added_cells : exists cs, lcAddAll isHalo rndDouble b pos (lcEmpty b) ps = Some cs /\
    lcPlaced ownership b (map (@parts P) cs) /\ Permutation (concat (map (@parts P) cs)) ps.
  Proof.
    destruct (lcBuild isHalo rndDouble b pos ps) as (cs & E & B).
    { apply Forall_forall. intros p Hp. destruct (index_of p Hp) as (i & E & R & C). exists i. split; [exact E|]. split; [exact R|].
      unfold isHalo. destruct C as [(-> & ->)|(-> & _ & ->)]; reflexivity. }
    exists cs. split; [exact E|]. rewrite B, map_map. cbn [cellWith parts]. split.
    - split; [|split].
      + unfold size. rewrite map_length, length_zrange. pose proof (numCells_nonneg b dims_pos). lia.
      + unfold size. rewrite map_length, length_zrange. pose proof (numCells_nonneg b dims_pos). lia.
      + intros c l Hl. apply at_some in Hl. destruct Hl as [Hr Hl]. unfold size in Hr. rewrite map_length, length_zrange in Hr.
        rewrite nth_error_map in Hl.
        assert (Hz : nth_error (zrange 0 (numCells (blockDims b))) (Z.to_nat c) = Some c).
        { pose proof (numCells_nonneg b dims_pos). rewrite <- (Z2Nat.id (numCells (blockDims b))) by lia. rewrite nth_error_zrange by lia. f_equal. lia. }
        rewrite Hz in Hl. cbn [option_map] in Hl. injection Hl as <-. split.
        * pose proof (filter_length_le (inCell rndDouble b pos c) ps). unfold size in *. lia.
        * intros x Hx. apply filter_In in Hx. destruct Hx as [Hx Hc]. unfold inCell in Hc.
          destruct (index_of x Hx) as (i & Ei & _ & Ho). rewrite Ei in Hc. apply Z.eqb_eq in Hc. subst i.
          destruct Ho as [(-> & C)|(-> & C & _)]; (split; [unfold validState; auto|]); split; intros; try lia; assumption.
    - rewrite <- flat_map_concat_map. apply sorted_perm; [apply NoDup_zrange|]. intros p Hp.
      destruct (index_of p Hp) as (i & Ei & R & _). exists i. split; [apply in_zrange; lia|]. intros j. unfold inCell. rewrite Ei.
      apply Z.eqb_sym.
  Qed.
End Added.
