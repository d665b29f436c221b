From Coq Require Import Reals Lra.
From Verif.Base Require Import ZRange Lists.
From Verif.Grid Require Import IndexModel IndexSpec IndexProofs CellBlockModel CellBlockSpec CellBlockProofs CellBlockExact.
From Verif.Functor Require Import SortModel.
From Verif.Container Require Import IteratorModel IteratorContainers IteratorSpec IteratorLemmas IteratorInstances IteratorRegion
  ParticleModel CollectModel CollectSpec.
Import ListNotations.

Section Volumes.
  Variable rnd : R -> R.
  Variables (il skin : R) (bMin bMax : R3).
  Local Open Scope R_scope.
  Notation lh := (lowerHaloCorner rnd il skin bMin).
  Notation uh := (upperHaloCorner rnd il skin bMax).
  Notation li := (lowerInnerCorner rnd skin bMin).
  Notation ui := (upperInnerCorner rnd skin bMax).

  Lemma volumes_disjoint i j v w x : rx li <= rx ui -> ry li <= ry ui -> rz li <= rz ui ->
    nth_error (haloVolumes rnd il skin bMin bMax) i = Some v -> nth_error (haloVolumes rnd il skin bMin bMax) j = Some w ->
    inBox (fst v) (snd v) x -> inBox (fst w) (snd w) x -> i = j.
  Proof.
    intros H1 H2 H3 Hv Hw Iv Iw. unfold haloVolumes in Hv, Hw. cbv zeta in Hv, Hw. revert H1 H2 H3 Hv Hw. generalize lh uh li ui. intros lh uh li ui H1 H2 H3 Hv Hw.
    destruct i as [|[|[|[|[|[|i]]]]]]; cbn [nth_error] in Hv; [..|destruct i; discriminate Hv]; injection Hv as <-;
    (destruct j as [|[|[|[|[|[|j]]]]]]; cbn [nth_error] in Hw; [..|destruct j; discriminate Hw]); injection Hw as <-; try reflexivity;
    exfalso; destruct Iv as (V1 & V2 & V3); destruct Iw as (W1 & W2 & W3);
    cbn [fst snd rx ry rz] in *; lra.
  Qed.

  Lemma volumes_cover x : rx lh <= rx li -> ry lh <= ry li -> rz lh <= rz li ->
    rx ui <= rx uh -> ry ui <= ry uh -> rz ui <= rz uh -> rx li <= rx ui -> ry li <= ry ui -> rz li <= rz ui ->
    (exists v, In v (haloVolumes rnd il skin bMin bMax) /\ inBox (fst v) (snd v) x) <-> inBox lh uh x /\ ~ inBox li ui x.
  Proof.
    unfold haloVolumes. cbv zeta. generalize lh uh li ui. intros lh uh li ui A1 A2 A3 B1 B2 B3 C1 C2 C3. split.
    - intros (v & Hv & Iv). cbn [In] in Hv.
      destruct Hv as [<- | [<- | [<- | [<- | [<- | [<- | []]]]]]]; destruct Iv as (V1 & V2 & V3); cbn [fst snd rx ry rz] in *;
      (split; [unfold inBox; lra|intros (W1 & W2 & W3); lra]).
    - intros ((X1 & X2 & X3) & Hn).
      assert (D : rx x < rx li \/ rx ui <= rx x \/ (rx li <= rx x < rx ui)) by lra.
      assert (E : ry x < ry li \/ ry ui <= ry x \/ (ry li <= ry x < ry ui)) by lra.
      assert (F : rz x < rz li \/ rz ui <= rz x \/ (rz li <= rz x < rz ui)) by lra.
      destruct E as [E | [E | E]].
      + exists (lh, mkR3 (rx uh) (ry li) (rz uh)). split; [cbn [In]; tauto|]. unfold inBox. cbn [fst snd rx ry rz]. lra.
      + exists (mkR3 (rx lh) (ry ui) (rz lh), uh). split; [cbn [In]; tauto|]. unfold inBox. cbn [fst snd rx ry rz]. lra.
      + destruct D as [D | [D | D]]; destruct F as [F | [F | F]];
          try (exists (mkR3 (rx lh) (ry li) (rz lh), mkR3 (rx li) (ry ui) (rz ui)); split; [cbn [In]; tauto|unfold inBox; cbn [fst snd rx ry rz]; lra]);
          try (exists (mkR3 (rx ui) (ry li) (rz li), mkR3 (rx uh) (ry ui) (rz uh)); split; [cbn [In]; tauto|unfold inBox; cbn [fst snd rx ry rz]; lra]);
          try (exists (mkR3 (rx lh) (ry li) (rz ui), mkR3 (rx ui) (ry ui) (rz uh)); split; [cbn [In]; tauto|unfold inBox; cbn [fst snd rx ry rz]; lra]);
          try (exists (mkR3 (rx li) (ry li) (rz lh), mkR3 (rx uh) (ry ui) (rz li)); split; [cbn [In]; tauto|unfold inBox; cbn [fst snd rx ry rz]; lra]).
        exfalso. apply Hn. unfold inBox. lra.
  Qed.
End Volumes.

(** The corners in order, for every monotone rounding. *)
Lemma inner_order rnd skin b c : (forall x y, x <= y -> rnd x <= rnd y)%R ->
  (b + 2 * rnd (skin / 2) <= c -> rnd (b + rnd (skin / 2)) <= rnd (c - rnd (skin / 2)))%R.
Proof. intros M H. apply M. lra. Qed.
