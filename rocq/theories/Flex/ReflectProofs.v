(** Proofs about reflective boundaries. *)
From Coq Require Import Reals List Bool Lra Lia.
From Coquelicot Require Import Coquelicot.
From Verif.Functor Require Import SortModel.
From Verif.MD Require Import LJModel.
From Verif.Flex Require Import IntegrateProofs QuatModel ReflectModel ReflectSpec.
Import ListNotations.
Local Open Scope R_scope.

Lemma root_pos : 0 < Rpower 2 (1 / 6).
Proof. unfold Rpower. apply exp_pos. Qed.

Lemma root_pow : Rpower 2 (1 / 6) ^ 6 = 2.
Proof.
  rewrite <- Rpower_pow by apply root_pos.
  rewrite Rpower_mult. replace (1 / 6 * INR 6) with 1 by (simpl; field).
  apply Rpower_1. lra.
Qed.

(** ** The wall *)
Lemma wallForce_far s e x : reach s <= x -> wallForce s e x = 0.
Proof. intros H. unfold wallForce. destruct (Rlt_dec x (reach s)); [lra|reflexivity]. Qed.

Lemma ratio_near s x : 0 < s -> 0 < x -> x < reach s -> 1 / 2 < (s / (2 * x)) ^ 6.
Proof.
  intros Hs Hx Hr. unfold reach in Hr.
  pose proof root_pos as Hp. pose proof root_pow as Hw.
  set (r := Rpower 2 (1 / 6)) in *.
  assert (H1 : / r < s / (2 * x)).
  { apply (Rmult_lt_reg_r (r * (2 * x))); [apply Rmult_lt_0_compat; lra|].
    replace (/ r * (r * (2 * x))) with (2 * x) by (field; lra).
    replace (s / (2 * x) * (r * (2 * x))) with (r * s) by (field; lra). lra. }
  assert (H0 : 0 < / r) by (apply Rinv_0_lt_compat; exact Hp).
  assert (H2 : (/ r) ^ 6 < (s / (2 * x)) ^ 6).
  { assert (G : forall a b, 0 < a -> a < b -> a ^ 6 < b ^ 6).
    { intros a b Ha Hab.
      assert (A2 : a * a < b * b) by (apply Rmult_le_0_lt_compat; lra).
      assert (P2 : 0 < a * a) by (apply Rmult_lt_0_compat; lra).
      assert (A3 : a * a * a < b * b * b) by (apply Rmult_le_0_lt_compat; lra).
      assert (P3 : 0 < a * a * a) by (apply Rmult_lt_0_compat; lra).
      assert (A6 : (a * a * a) * (a * a * a) < (b * b * b) * (b * b * b)) by (apply Rmult_le_0_lt_compat; lra).
      replace (a ^ 6) with ((a * a * a) * (a * a * a)) by ring.
      replace (b ^ 6) with ((b * b * b) * (b * b * b)) by ring. exact A6. }
    apply G; assumption. }
  replace ((/ r) ^ 6) with (/ (r ^ 6)) in H2 by (field; lra).
  rewrite Hw in H2. lra.
Qed.

Lemma wallForce_near s e x : 0 < s -> 0 < e -> 0 < x -> x < reach s -> 0 < wallForce s e x.
Proof.
  intros Hs He Hx Hr. pose proof (ratio_near s x Hs Hx Hr) as H.
  unfold wallForce. destruct (Rlt_dec x (reach s)) as [_|N]; [|lra].
  replace ((s / (2 * x)) ^ 12) with ((s / (2 * x)) ^ 6 * (s / (2 * x)) ^ 6) by ring.
  set (a := (s / (2 * x)) ^ 6) in *.
  apply Rmult_lt_0_compat.
  - apply Rdiv_lt_0_compat; lra.
  - replace (2 * (a * a) - a) with (a * (2 * a - 1)) by ring. apply Rmult_lt_0_compat; lra.
Qed.

(** ** One wall, single-site molecules *)
Lemma mol_eq p q f t k o f' t' : f = f' -> t = t' -> mkM p q f t k o = mkM p q f' t' k o.
Proof. intros -> ->. reflexivity. Qed.

Definition along (d : dim) (x : R) : R3 := setCo d rzero x.

Lemma kernel_mirror d b p s e :
  0 <= e -> co d p <> b ->
  LJKernel p (mirrorPosition d b p) (let x := (s + s) / 2 in x * x) (24 * sqrt (e * e)) =
  along d (24 * e / (2 * (co d p - b)) * (2 * (s / (2 * (co d p - b))) ^ 12 - (s / (2 * (co d p - b))) ^ 6)).
Proof.
  intros He Hne. rewrite (sqrt_square e He). cbv zeta.
  assert (D : rsub p (mirrorPosition d b p) = along d (2 * (co d p - b))).
  { destruct p as [px py pz]; destruct d; unfold mirrorPosition, along, setCo, co, rsub, rzero; cbn [rx ry rz]; f_equal; ring. }
  unfold LJKernel. rewrite D. assert (Hx : co d p - b <> 0) by lra. set (x := co d p - b) in *. clearbody x.
  destruct d; unfold along, setCo, rscale, dot, rzero in *;
    cbn [rx ry rz] in *; f_equal; field; exact Hx.
Qed.

Lemma wallForce_even s e x : x <> 0 ->
  24 * e / (2 * - x) * (2 * (s / (2 * - x)) ^ 12 - (s / (2 * - x)) ^ 6) =
  - (24 * e / (2 * x) * (2 * (s / (2 * x)) ^ 12 - (s / (2 * x)) ^ 6)).
Proof.
  intros H. replace (s / (2 * - x)) with (- (s / (2 * x))) by (field; exact H).
  replace (24 * e / (2 * - x)) with (- (24 * e / (2 * x))) by (field; exact H). ring.
Qed.

Section Walls.
  Variable l : library.
  Hypothesis eps_pos : forall i, 0 <= nth i (epsilons l) 0.

  Lemma single_lower d b m :
    b < co d (pPos m) ->
    reflectSingle l d false b m =
    setFT m (radd (pForce m) (along d (wallForce (getSigma l (pType m)) (nth (pType m) (epsilons l) 0) (co d (pPos m) - b)))) (pTorque m).
  Proof.
    intros Hb. unfold reflectSingle, wallForce, reach, sixthRootOfTwo.
    rewrite Rabs_right by lra.
    destruct (Rlt_dec _ _) as [H|H]; destruct (Rlt_dec _ (_ / 2)) as [G|G]; try lra.
    - unfold getMixingSigmaSquared, getMixing24Epsilon. rewrite kernel_mirror; [reflexivity|apply eps_pos|lra].
    - destruct m as [p q [f1 f2 f3] t k o]. unfold setFT, along. apply mol_eq; [|reflexivity].
      destruct d; unfold radd, setCo, rzero; cbn; f_equal; ring.
  Qed.

  Lemma single_upper d b m :
    co d (pPos m) < b ->
    reflectSingle l d true b m =
    setFT m (radd (pForce m) (along d (- wallForce (getSigma l (pType m)) (nth (pType m) (epsilons l) 0) (b - co d (pPos m))))) (pTorque m).
  Proof.
    intros Hb. unfold reflectSingle, wallForce, reach, sixthRootOfTwo.
    rewrite Rabs_left by lra.
    destruct (Rlt_dec _ _) as [H|H]; destruct (Rlt_dec _ (_ / 2)) as [G|G]; try lra.
    - unfold getMixingSigmaSquared, getMixing24Epsilon. rewrite kernel_mirror; [|apply eps_pos|lra].
      replace (co d (pPos m) - b) with (- (b - co d (pPos m))) by ring.
      rewrite wallForce_even by lra. reflexivity.
    - destruct m as [p q [f1 f2 f3] t k o]. unfold setFT, along. apply mol_eq; [|reflexivity].
      destruct d; unfold radd, setCo, rzero; cbn; f_equal; ring.
  Qed.
End Walls.

(** ** The largest reach *)
Lemma fold_Rmax_ge l a : a <= fold_left Rmax l a /\ forall x, In x l -> x <= fold_left Rmax l a.
Proof.
  revert a. induction l as [|y l IH]; intros a; cbn [fold_left].
  - split; [lra|intros x []].
  - destruct (IH (Rmax a y)) as [H1 H2]. split.
    + pose proof (Rmax_l a y). lra.
    + intros x [<- |Hx]; [pose proof (Rmax_r a y); lra|exact (H2 x Hx)].
Qed.

Lemma sigma_le l i : getSigma l i <= fold_left Rmax (sigmas l) 0.
Proof.
  unfold getSigma. destruct (fold_Rmax_ge (sigmas l) 0) as [H0 H1].
  destruct (Nat.lt_ge_cases i (length (sigmas l))) as [H|H].
  - apply H1. apply nth_In. exact H.
  - rewrite nth_overflow by exact H. exact H0.
Qed.

Lemma largest_le l t : getMoleculesLargestSigma l t <= fold_left Rmax (sigmas l) 0.
Proof.
  unfold getMoleculesLargestSigma.
  assert (G : forall ss a, a <= fold_left Rmax (sigmas l) 0 ->
    fold_left (fun m (s : R3 * nat) => Rmax m (getSigma l (snd s))) ss a <= fold_left Rmax (sigmas l) 0).
  { induction ss as [|s ss IH]; intros a Ha; [exact Ha|]. cbn [fold_left]. apply IH.
    apply Rmax_lub; [exact Ha|apply sigma_le]. }
  apply G. exact (proj1 (fold_Rmax_ge (sigmas l) 0)).
Qed.

Lemma scaled_le a x : a <= x -> sixthRootOfTwo * / 2 * a <= sixthRootOfTwo * x / 2.
Proof.
  intros H. replace (sixthRootOfTwo * x / 2) with (sixthRootOfTwo * / 2 * x) by (field).
  apply Rmult_le_compat_l; [|exact H]. pose proof root_pos. unfold sixthRootOfTwo. lra.
Qed.

(** ** What a kernel leaves alone *)
Definition keeps (k : library -> dim -> bool -> R -> mol -> mol) (l : library) : Prop :=
  (forall d u b m, pPos (k l d u b m) = pPos m /\ pOwned (k l d u b m) = pOwned m) /\
  (forall d u b m, maxReflectiveSkin l <= Rabs (co d (pPos m) - b) -> k l d u b m = m).

Lemma keeps_single l : keeps reflectSingle l.
Proof.
  split.
  - intros d u b m. unfold reflectSingle. destruct (Rlt_dec _ _); split; reflexivity.
  - intros d u b m H. unfold reflectSingle. destruct (Rlt_dec _ _) as [G|_]; [|reflexivity].
    unfold maxReflectiveSkin in H. pose proof (scaled_le _ _ (sigma_le l (pType m))). lra.
Qed.

Lemma fold_inv {A B} (P : B -> Prop) (f : B -> A -> B) (l : list A) b :
  P b -> (forall b a, P b -> P (f b a)) -> P (fold_left f l b).
Proof. revert b. induction l as [|a l IH]; intros b Hb Hf; [exact Hb|]. cbn. apply IH; [apply Hf; exact Hb|exact Hf]. Qed.

Lemma keeps_multi l : keeps reflectMulti l.
Proof.
  split.
  - intros d u b m. unfold reflectMulti. destruct (Rlt_dec _ _) as [G|_]; [|split; reflexivity].
    cbv zeta.
    match goal with |- pPos (if _ then setFT ?x _ _ else _) = _ /\ _ => set (m' := x) end.
    assert (K : pPos m' = pPos m /\ pOwned m' = pOwned m).
    { unfold m'. apply (fold_inv (fun x => pPos x = pPos m /\ pOwned x = pOwned m)); [split; reflexivity|].
      intros x a Hx. apply (fold_inv (fun x => pPos x = pPos m /\ pOwned x = pOwned m)); [exact Hx|].
      intros y c Hy. exact Hy. }
    clearbody m'. match goal with |- context [if ?c then setFT _ _ _ else _] => destruct c end; exact K.
  - intros d u b m H. unfold reflectMulti. destruct (Rlt_dec _ _) as [G|_]; [|reflexivity].
    unfold maxReflectiveSkin in H. pose proof (scaled_le _ _ (largest_le l (pType m))). lra.
Qed.

(** ** The loop *)
Lemma nearRel_refl a : isNearRel a a = true.
Proof.
  unfold isNearRel. destruct (Rle_dec _ _) as [_|N]; [reflexivity|]. exfalso. apply N.
  replace (a - a) with 0 by ring. rewrite Rabs_R0. pose proof (Rabs_pos a). pose proof (Rmax_l (Rabs a) (Rabs a)).
  apply Rmult_le_pos; lra.
Qed.

Definition within (p lo hi : R3) : Prop := forall d, co d lo <= co d p < co d hi.

Lemma inBox_true p lo hi : inBox p lo hi = true <-> within p lo hi.
Proof.
  unfold inBox, within. split.
  - intros H. repeat (apply andb_prop in H; destruct H as [H ?]).
    repeat match goal with H : _ && _ = true |- _ => apply andb_prop in H; destruct H end.
    intros d. destruct d; repeat match goal with H : (if ?c then _ else _) = true |- _ => destruct c; [clear H|discriminate H] end; lra.
  - intros H. pose proof (H DX). pose proof (H DY). pose proof (H DZ).
    repeat (destruct (Rle_dec _ _); [|lra]). repeat (destruct (Rlt_dec _ _); [|lra]). reflexivity.
Qed.

Lemma co_set_same d v x : co d (setCo d v x) = x.
Proof. destruct d; reflexivity. Qed.
Lemma co_set_other d e v x : d <> e -> co e (setCo d v x) = co e v.
Proof. destruct d, e; intros H; try reflexivity; destruct (H eq_refl). Qed.
Definition dim_dec : forall a b : dim, {a = b} + {a <> b}.
Proof. decide equality. Defined.

Section Loop.
  Variables (l : library) (k : library -> dim -> bool -> R -> mol -> mol).
  Variables (gmin gmax lmin lmax : R3) (bnd : dim -> boundaryType).
  Hypothesis K : keeps k l.
  Hypothesis lower : forall d, co d lmin = co d gmin \/ co d gmin + maxReflectiveSkin l <= co d lmin.
  Hypothesis upper : forall d, co d lmax = co d gmax \/ co d lmax + maxReflectiveSkin l <= co d gmax.
  Hypothesis inside : forall d, co d gmin <= co d lmin /\ co d lmax <= co d gmax.

  Definition wallsOf (d : dim) (m : mol) : mol :=
    match bnd d with
    | reflective => k l d true (co d gmax) (k l d false (co d gmin) m)
    | _ => m
    end.

  Lemma wallsOf_keeps d m : pPos (wallsOf d m) = pPos m /\ pOwned (wallsOf d m) = pOwned m.
  Proof.
    unfold wallsOf. destruct K as [K1 _]. destruct (bnd d); try (split; reflexivity).
    destruct (K1 d true (co d gmax) (k l d false (co d gmin) m)) as [-> ->]. apply K1.
  Qed.

  Lemma lower_step d m : within (pPos m) lmin lmax ->
    (if isNearRel (co d lmin) (co d gmin)
     then if inBox (pPos m) gmin (setCo d gmax (co d gmin + maxReflectiveSkin l)) then k l d false (co d gmin) m else m
     else m) = k l d false (co d gmin) m.
  Proof.
    intros Hin. destruct K as [_ K2].
    assert (Far : co d gmin + maxReflectiveSkin l <= co d (pPos m) -> m = k l d false (co d gmin) m).
    { intros H. symmetry. apply K2. pose proof (Rle_abs (co d (pPos m) - co d gmin)). lra. }
    destruct (isNearRel _ _) eqn:E.
    - destruct (inBox _ _ _) eqn:B; [reflexivity|]. apply Far.
      destruct (Rle_lt_dec (co d gmin + maxReflectiveSkin l) (co d (pPos m))) as [H|H]; [exact H|]. exfalso.
      assert (T : inBox (pPos m) gmin (setCo d gmax (co d gmin + maxReflectiveSkin l)) = true); [|rewrite T in B; discriminate B].
      apply inBox_true. intros e. pose proof (Hin e). pose proof (inside e).
      destruct (dim_dec d e) as [<- |N]; [rewrite co_set_same|rewrite (co_set_other d e) by exact N]; lra.
    - apply Far. destruct (lower d) as [H|H].
      + rewrite H, nearRel_refl in E. discriminate E.
      + pose proof (Hin d). lra.
  Qed.

  Lemma upper_step d m : within (pPos m) lmin lmax ->
    (if isNearRel (co d lmax) (co d gmax)
     then if inBox (pPos m) (setCo d gmin (co d gmax - maxReflectiveSkin l)) gmax then k l d true (co d gmax) m else m
     else m) = k l d true (co d gmax) m.
  Proof.
    intros Hin. destruct K as [_ K2].
    assert (Far : co d (pPos m) <= co d gmax - maxReflectiveSkin l -> m = k l d true (co d gmax) m).
    { intros H. symmetry. apply K2. rewrite Rabs_minus_sym. pose proof (Rle_abs (co d gmax - co d (pPos m))). lra. }
    destruct (isNearRel _ _) eqn:E.
    - destruct (inBox _ _ _) eqn:B; [reflexivity|]. apply Far.
      destruct (Rle_lt_dec (co d (pPos m)) (co d gmax - maxReflectiveSkin l)) as [H|H]; [exact H|]. exfalso.
      assert (T : inBox (pPos m) (setCo d gmin (co d gmax - maxReflectiveSkin l)) gmax = true); [|rewrite T in B; discriminate B].
      apply inBox_true. intros e. pose proof (Hin e). pose proof (inside e).
      destruct (dim_dec d e) as [<- |N]; [rewrite co_set_same|rewrite (co_set_other d e) by exact N]; lra.
    - apply Far. destruct (upper d) as [H|H].
      + rewrite H, nearRel_refl in E. discriminate E.
      + pose proof (Hin d). lra.
  Qed.

  Definition placed (ms : list mol) : Prop := forall m, In m ms -> pOwned m = true -> within (pPos m) lmin lmax.
  Definition onOwned (f : mol -> mol) (m : mol) : mol := if pOwned m then f m else m.

  Lemma reflectDim_spec d ms : placed ms ->
    reflectDim l k gmin gmax lmin lmax bnd ms d = map (onOwned (wallsOf d)) ms.
  Proof.
    intros Hp. unfold reflectDim, wallsOf.
    destruct (bnd d); try (symmetry; rewrite <- map_id; apply map_ext; intros m; unfold onOwned; destruct (pOwned m); reflexivity).
    assert (L : (if isNearRel (co d lmin) (co d gmin)
                 then reflect l k d false gmin (setCo d gmax (co d gmin + maxReflectiveSkin l)) ms else ms)
                = map (onOwned (k l d false (co d gmin))) ms).
    { transitivity (map (fun m => onOwned (fun m => if isNearRel (co d lmin) (co d gmin)
        then if inBox (pPos m) gmin (setCo d gmax (co d gmin + maxReflectiveSkin l)) then k l d false (co d gmin) m else m
        else m) m) ms).
      - unfold reflect, onOwned. destruct (isNearRel _ _).
        + apply map_ext. intros m. destruct (pOwned m); reflexivity.
        + rewrite <- (map_id ms) at 1. apply map_ext. intros m. destruct (pOwned m); reflexivity.
      - apply map_ext_in. intros m Hm. unfold onOwned. destruct (pOwned m) eqn:O; [|reflexivity].
        apply lower_step. exact (Hp m Hm O). }
    cbv zeta. rewrite L.
    transitivity (map (onOwned (k l d true (co d gmax))) (map (onOwned (k l d false (co d gmin))) ms)).
    - transitivity (map (fun m => onOwned (fun m => if isNearRel (co d lmax) (co d gmax)
        then if inBox (pPos m) (setCo d gmin (co d gmax - maxReflectiveSkin l)) gmax then k l d true (co d gmax) m else m
        else m) m) (map (onOwned (k l d false (co d gmin))) ms)).
      + unfold reflect, onOwned. destruct (isNearRel (co d lmax) _).
        * apply map_ext. intros m. destruct (pOwned m); reflexivity.
        * rewrite <- (map_id (map _ ms)) at 1. apply map_ext. intros m. destruct (pOwned m); reflexivity.
      + apply map_ext_in. intros m Hm. unfold onOwned at 1 2. destruct (pOwned m) eqn:O; [|reflexivity].
        apply upper_step. apply in_map_iff in Hm. destruct Hm as [m0 [<- Hm0]]. unfold onOwned in *.
        destruct K as [K1 _]. destruct (pOwned m0) eqn:O0; [|rewrite O0 in O; discriminate O].
        destruct (K1 d false (co d gmin) m0) as [-> _]. exact (Hp m0 Hm0 O0).
    - rewrite map_map. apply map_ext. intros m. unfold onOwned. destruct (pOwned m) eqn:O; [|rewrite O; reflexivity].
      destruct K as [K1 _]. destruct (K1 d false (co d gmin) m) as [_ ->]. rewrite O. reflexivity.
  Qed.

  Lemma placed_step d ms : placed ms -> placed (map (onOwned (wallsOf d)) ms).
  Proof.
    intros Hp m Hm O. apply in_map_iff in Hm. destruct Hm as [m0 [<- Hm0]]. unfold onOwned in *.
    destruct (pOwned m0) eqn:O0; [|rewrite O0 in O; discriminate O].
    destruct (wallsOf_keeps d m0) as [-> _]. exact (Hp m0 Hm0 O0).
  Qed.

  Theorem reflect_all ms : placed ms ->
    reflectParticlesAtBoundaries l k gmin gmax lmin lmax bnd ms
    = map (onOwned (fun m => wallsOf DZ (wallsOf DY (wallsOf DX m)))) ms.
  Proof.
    intros Hp. unfold reflectParticlesAtBoundaries. cbn [fold_left].
    rewrite (reflectDim_spec DX) by exact Hp. pose proof (placed_step DX _ Hp) as P1.
    rewrite (reflectDim_spec DY) by exact P1. pose proof (placed_step DY _ P1) as P2.
    rewrite (reflectDim_spec DZ) by exact P2.
    rewrite !map_map. apply map_ext. intros m. unfold onOwned.
    destruct (pOwned m) eqn:O; [|rewrite !O; reflexivity].
    destruct (wallsOf_keeps DX m) as [_ ->]. rewrite O.
    destruct (wallsOf_keeps DY (wallsOf DX m)) as [_ ->].
    destruct (wallsOf_keeps DX m) as [_ ->]. rewrite O. reflexivity.
  Qed.
End Loop.

(** ** The parts of the ranks *)
Lemma cuts_sorted w (cuts : list R) :
  0 <= w -> (forall j a b, nth_error cuts j = Some a -> nth_error cuts (S j) = Some b -> a + w <= b) ->
  forall n i a b, nth_error cuts i = Some a -> nth_error cuts (i + n) = Some b -> (n = 0%nat /\ a = b) \/ a + w <= b.
Proof.
  intros Hw H. induction n as [|n IH]; intros i a b Ha Hb.
  - rewrite Nat.add_0_r in Hb. left. split; [reflexivity|]. rewrite Ha in Hb. injection Hb as ->. reflexivity.
  - right. rewrite Nat.add_succ_r in Hb.
    destruct (nth_error cuts (i + n)) as [c|] eqn:Hc.
    + pose proof (H _ _ _ Hc Hb). destruct (IH i a c Ha Hc) as [[_ ->]|?]; lra.
    + apply nth_error_None in Hc. assert (nth_error cuts (S (i + n)) <> None) by (rewrite Hb; discriminate).
      apply nth_error_Some in H0. lia.
Qed.

Lemma rank_ends w mn mx lo hi : 0 <= w -> rankInterval w mn mx lo hi ->
  (lo = mn \/ mn + w <= lo) /\ (hi = mx \/ hi + w <= mx) /\ mn <= lo /\ hi <= mx.
Proof.
  intros Hw [cuts [i [H0 [H1 [Hi [Hs H]]]]]].
  assert (Ls : (S i < length cuts)%nat) by (apply nth_error_Some; rewrite Hs; discriminate).
  pose proof (cuts_sorted w cuts Hw H i 0 mn lo H0 Hi) as A.
  pose proof (cuts_sorted w cuts Hw H (length cuts - 1 - S i) (S i) hi mx Hs) as B.
  replace (S i + (length cuts - 1 - S i))%nat with (length cuts - 1)%nat in B by lia. specialize (B H1).
  destruct A as [[_ A]|A]; destruct B as [[_ B]|B]; subst; repeat split; try lra; try (left; lra); right; lra.
Qed.

Lemma skin_nonneg l : 0 <= maxReflectiveSkin l.
Proof.
  unfold maxReflectiveSkin. pose proof root_pos. pose proof (proj1 (fold_Rmax_ge (sigmas l) 0)).
  unfold Rdiv. apply Rmult_le_pos; [apply Rmult_le_pos; [unfold sixthRootOfTwo; lra|lra]|lra].
Qed.

(** ** Single-site molecules *)
Theorem reflect_single l gmin gmax lmin lmax bnd ms :
  (forall i, 0 <= nth i (epsilons l) 0) ->
  (forall d, rankInterval (maxReflectiveSkin l) (co d gmin) (co d gmax) (co d lmin) (co d lmax)) ->
  (forall m, In m ms -> pOwned m = true -> forall d, co d lmin <= co d (pPos m) < co d lmax /\ co d gmin < co d (pPos m)) ->
  reflectParticlesAtBoundaries l reflectSingle gmin gmax lmin lmax bnd ms =
  map (fun m => if pOwned m
                then setFT m (radd (pForce m) (wallsForce gmin gmax bnd (getSigma l (pType m)) (nth (pType m) (epsilons l) 0) (pPos m))) (pTorque m)
                else m) ms.
Proof.
  intros He Hr Hin.
  assert (E : forall d, (co d lmin = co d gmin \/ co d gmin + maxReflectiveSkin l <= co d lmin) /\
                        (co d lmax = co d gmax \/ co d lmax + maxReflectiveSkin l <= co d gmax) /\
                        co d gmin <= co d lmin /\ co d lmax <= co d gmax)
    by (intros d; apply rank_ends; [apply skin_nonneg|apply Hr]).
  rewrite reflect_all; [|apply keeps_single|intros d; apply E|intros d; apply E|intros d; apply E|intros m Hm O d; apply (Hin m Hm O d)].
  apply map_ext_in. intros m Hm. unfold onOwned. destruct (pOwned m) eqn:O; [|reflexivity].
  assert (W : forall d f t, wallsOf l reflectSingle gmin gmax bnd d (setFT m f t) =
    setFT m (radd f (along d match bnd d with
      | reflective => wallForce (getSigma l (pType m)) (nth (pType m) (epsilons l) 0) (co d (pPos m) - co d gmin)
                      - wallForce (getSigma l (pType m)) (nth (pType m) (epsilons l) 0) (co d gmax - co d (pPos m))
      | _ => 0 end)) t).
  { intros d f t. pose proof (Hin m Hm O d) as [I1 I2]. pose proof (E d) as [_ [_ [_ I3]]].
    unfold wallsOf. destruct (bnd d).
    - unfold setFT. apply mol_eq; [|reflexivity]. destruct f as [f1 f2 f3], d; unfold along, radd, setCo, rzero; cbn; f_equal; ring.
    - rewrite (single_lower l He) by (cbn; lra). rewrite (single_upper l He) by (cbn; lra).
      unfold setFT; cbn [pPos pQuat pForce pTorque pType pOwned]. apply mol_eq; [|reflexivity].
      destruct f as [f1 f2 f3], d; unfold along, radd, setCo, rzero; cbn [rx ry rz]; f_equal; ring.
    - unfold setFT. apply mol_eq; [|reflexivity]. destruct f as [f1 f2 f3], d; unfold along, radd, setCo, rzero; cbn; f_equal; ring. }
  replace (wallsOf l reflectSingle gmin gmax bnd DX m) with (wallsOf l reflectSingle gmin gmax bnd DX (setFT m (pForce m) (pTorque m)))
    by (destruct m; reflexivity).
  rewrite !W. unfold setFT. apply mol_eq; [|reflexivity].
  unfold wallsForce, along, radd, setCo, rzero, co; destruct (pForce m) as [f1 f2 f3]; cbn [rx ry rz]; f_equal; ring.
Qed.
