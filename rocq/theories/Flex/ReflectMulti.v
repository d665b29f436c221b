(** Proofs: the potential of the walls, and molecules of several sites. *)
From Coq Require Import Reals List Bool Lra Lia.
From Coquelicot Require Import Coquelicot.
From Verif.Functor Require Import SortModel.
From Verif.MD Require Import LJModel.
From Verif.Flex Require Import IntegrateProofs QuatModel ReflectModel ReflectSpec ReflectProofs.
Import ListNotations.
Local Open Scope R_scope.

(** ** The potential of a wall *)
Definition rawPotential (s e x : R) : R := / 2 * (4 * e * ((s / (2 * x)) ^ 12 - (s / (2 * x)) ^ 6) + e).
Definition rawForce (s e x : R) : R := 24 * e / (2 * x) * (2 * (s / (2 * x)) ^ 12 - (s / (2 * x)) ^ 6).

Lemma raw_derive s e x : 0 < x -> derivable_pt_lim (rawPotential s e) x (- rawForce s e x).
Proof.
  intros Hx. apply is_derive_Reals. unfold rawPotential, rawForce.
  auto_derive; [lra|]. simpl. field. lra.
Qed.

Lemma ratio_reach s : 0 < s -> (s / (2 * reach s)) ^ 6 = 1 / 2.
Proof.
  intros Hs. pose proof root_pos. pose proof root_pow as Hw. unfold reach. set (r := Rpower 2 (1 / 6)) in *.
  replace (s / (2 * (r * s / 2))) with (/ r) by (field; lra).
  replace ((/ r) ^ 6) with (/ (r ^ 6)) by (field; lra). rewrite Hw. lra.
Qed.

Lemma reach_pos s : 0 < s -> 0 < reach s.
Proof. intros Hs. unfold reach. pose proof root_pos. apply Rdiv_lt_0_compat; [apply Rmult_lt_0_compat; lra|lra]. Qed.

Lemma raw_reach s e : 0 < s -> rawPotential s e (reach s) = 0 /\ rawForce s e (reach s) = 0.
Proof.
  intros Hs. pose proof (ratio_reach s Hs) as H. unfold rawPotential, rawForce.
  replace ((s / (2 * reach s)) ^ 12) with ((s / (2 * reach s)) ^ 6 * (s / (2 * reach s)) ^ 6) by ring.
  rewrite H. split; field. apply Rgt_not_eq. apply reach_pos. exact Hs.
Qed.

Theorem wall_derive s e x : 0 < s -> 0 < x -> derivable_pt_lim (wallPotential s e) x (- wallForce s e x).
Proof.
  intros Hs Hx. destruct (Rtotal_order x (reach s)) as [H|[H|H]].
  - intros ep Hep. destruct (raw_derive s e x Hx ep Hep) as [del Hd].
    assert (P : 0 < Rmin del (reach s - x)) by (apply Rmin_glb_lt; [apply cond_pos|lra]).
    exists (mkposreal _ P). intros h Hh Hl. cbn in Hl.
    pose proof (Rmin_l del (reach s - x)). pose proof (Rmin_r del (reach s - x)).
    pose proof (Rle_abs h).
    unfold wallPotential, wallForce.
    destruct (Rlt_dec (x + h) (reach s)); [|lra]. destruct (Rlt_dec x (reach s)); [|lra].
    apply Hd; [exact Hh|lra].
  - intros ep Hep. destruct (raw_derive s e x Hx ep Hep) as [del Hd]. exists del. intros h Hh Hl.
    specialize (Hd h Hh Hl). destruct (raw_reach s e Hs) as [R1 R2]. subst x. rewrite R1, R2 in Hd.
    unfold wallPotential, wallForce. destruct (Rlt_dec (reach s) (reach s)); [lra|].
    destruct (Rlt_dec (reach s + h) (reach s)) as [L|L].
    + exact Hd.
    + replace ((0 - 0) / h - - 0) with 0 by (field; exact Hh). rewrite Rabs_R0. exact Hep.
  - intros ep Hep. assert (P : 0 < x - reach s) by lra. exists (mkposreal _ P). intros h Hh Hl. cbn in Hl.
    pose proof (Rle_abs (- h)) as A. rewrite Rabs_Ropp in A.
    unfold wallPotential, wallForce.
    destruct (Rlt_dec (x + h) (reach s)); [lra|]. destruct (Rlt_dec x (reach s)); [lra|].
    replace ((0 - 0) / h - - 0) with 0 by (field; exact Hh). rewrite Rabs_R0. exact Hep.
Qed.

(** ** Sums *)
Lemma radd_assoc a b c : radd (radd a b) c = radd a (radd b c).
Proof. r3. Qed.
Lemma radd_zero a : radd a rzero = a.
Proof. r3. Qed.

Lemma radd_zero_l a : radd rzero a = a.
Proof. r3. Qed.

Lemma sum_app a b : sumR3 (a ++ b) = radd (sumR3 a) (sumR3 b).
Proof.
  induction a as [|x xs IH].
  - symmetry. apply radd_zero_l.
  - change (radd x (sumR3 (xs ++ b)) = radd (radd x (sumR3 xs)) (sumR3 b)). rewrite IH. symmetry. apply radd_assoc.
Qed.

Lemma fold_sum {T} (f g : R3 -> T -> R3) (ts : list T) m :
  fold_left (fun m t => setFT m (radd (pForce m) (f (pPos m) t)) (radd (pTorque m) (g (pPos m) t))) ts m =
  setFT m (radd (pForce m) (sumR3 (map (f (pPos m)) ts))) (radd (pTorque m) (sumR3 (map (g (pPos m)) ts))).
Proof.
  revert m. induction ts as [|t ts IH]; intros m; cbn [fold_left map].
  - unfold sumR3; cbn [fold_right]. rewrite !radd_zero. destruct m; reflexivity.
  - rewrite IH. unfold setFT; cbn [pPos pQuat pForce pTorque pType pOwned]. apply mol_eq; apply radd_assoc.
Qed.

Lemma sum_flat {S T} (f : S -> T -> R3) ss ts :
  sumR3 (map (fun s => sumR3 (map (f s) ts)) ss) = sumR3 (flat_map (fun s => map (f s) ts) ss).
Proof.
  induction ss as [|s ss IH]; [reflexivity|]. cbn [map flat_map]. rewrite sum_app, <- IH. reflexivity.
Qed.

Lemma fold_ext_in {A B} (f g : A -> B -> A) (l : list B) a :
  (forall a b, f a b = g a b) -> fold_left f l a = fold_left g l a.
Proof. intros H. revert a. induction l as [|b l IH]; intros a; [reflexivity|]. cbn. rewrite H. apply IH. Qed.

(** The forces the code computes. *)
Definition codeForce (l : library) (d : dim) (b : R) (p : R3) (s t : R3 * nat) : R3 :=
  LJKernel (radd (fst s) p) (mirrorPosition d b (radd (fst t) p))
    (getMixingSigmaSquared l (snd s) (snd s)) (getMixing24Epsilon l (snd s) (snd s)).
Definition codeSites (l : library) (m : mol) : list (R3 * nat) :=
  map (fun s => (rotatePosition (pQuat m) (fst s), snd s)) (getSites l (pType m)).
Definition codeSum l d b (m : mol) : R3 :=
  sumR3 (flat_map (fun s => map (codeForce l d b (pPos m) s) (codeSites l m)) (codeSites l m)).
Definition codeTorque l d b (m : mol) : R3 :=
  sumR3 (flat_map (fun s => map (fun t => cross (fst s) (codeForce l d b (pPos m) s t)) (codeSites l m)) (codeSites l m)).

Lemma co_radd d a b : co d (radd a b) = co d a + co d b.
Proof. destruct d; reflexivity. Qed.

Lemma multi_sum l d u b m :
  reflectMulti l d u b m =
  if Rlt_dec (Rabs (co d (pPos m) - b)) (sixthRootOfTwo * / 2 * getMoleculesLargestSigma l (pType m))
  then if Rlt_dec (if u then - co d (codeSum l d b m) else co d (codeSum l d b m)) 0
       then m
       else setFT m (radd (pForce m) (codeSum l d b m)) (radd (pTorque m) (codeTorque l d b m))
  else m.
Proof.
  unfold reflectMulti. destruct (Rlt_dec _ _) as [G|_]; [|reflexivity]. cbv zeta.
  fold (codeSites l m).
  match goal with |- context [setFT ?x (pForce m) (pTorque m)] =>
    replace x with (setFT m (radd (pForce m) (codeSum l d b m)) (radd (pTorque m) (codeTorque l d b m))) end.
  - cbn [setFT pForce]. rewrite co_radd.
    replace (co d (pForce m) + co d (codeSum l d b m) - co d (pForce m)) with (co d (codeSum l d b m)) by ring.
    destruct u.
    + destruct (Rlt_dec 0 _) as [H|H]; destruct (Rlt_dec (- _) 0) as [H'|H']; try lra; [destruct m; reflexivity|reflexivity].
    + destruct (Rlt_dec _ 0) as [H|H]; [destruct m; reflexivity|reflexivity].
  - symmetry.
    transitivity (fold_left (fun m0 s =>
      setFT m0 (radd (pForce m0) (sumR3 (map (codeForce l d b (pPos m0) s) (codeSites l m))))
        (radd (pTorque m0) (sumR3 (map (fun t => cross (fst s) (codeForce l d b (pPos m0) s t)) (codeSites l m)))))
      (codeSites l m) m).
    + apply fold_ext_in. intros m0 s.
      exact (fold_sum (fun p t => codeForce l d b p s t) (fun p t => cross (fst s) (codeForce l d b p s t)) (codeSites l m) m0).
    + rewrite (fold_sum (fun p s => sumR3 (map (codeForce l d b p s) (codeSites l m)))
        (fun p s => sumR3 (map (fun t => cross (fst s) (codeForce l d b p s t)) (codeSites l m)))).
      unfold codeSum, codeTorque.
      rewrite (sum_flat (codeForce l d b (pPos m)) (codeSites l m) (codeSites l m)).
      rewrite (sum_flat (fun s t => cross (fst s) (codeForce l d b (pPos m) s t)) (codeSites l m) (codeSites l m)).
      reflexivity.
Qed.

(** ** Never a pull *)
Theorem multi_inward l d u b m :
  pPos (reflectMulti l d u b m) = pPos m /\
  if u then co d (pForce (reflectMulti l d u b m)) <= co d (pForce m)
  else co d (pForce m) <= co d (pForce (reflectMulti l d u b m)).
Proof.
  rewrite multi_sum. destruct (Rlt_dec _ _) as [_|_]; [|split; [reflexivity|destruct u; lra]].
  destruct (Rlt_dec _ 0) as [H|H]; [split; [reflexivity|destruct u; lra]|].
  split; [reflexivity|]. unfold setFT; cbn [pForce]. rewrite co_radd. destruct u; lra.
Qed.

(** ** Sites that are alike *)
Lemma kernel_lj d b p q s e :
  LJKernel p (mirrorPosition d b q) (s * s) (24 * e) = ljForce s e p (image d b q).
Proof.
  unfold LJKernel, ljForce.
  replace (mirrorPosition d b q) with (image d b q)
    by (unfold image, mirrorPosition; f_equal; ring).
  f_equal. unfold Rdiv. ring.
Qed.

Lemma largest_spec l m : getMoleculesLargestSigma l (pType m) = largestSigma (turnedSites l m).
Proof.
  unfold getMoleculesLargestSigma, largestSigma, turnedSites, getSites. rewrite map_map. cbn [fst snd].
  assert (G : forall ss a, fold_left (fun m (s : R3 * nat) => Rmax m (getSigma l (snd s))) ss a =
    Rmax a (fold_right Rmax 0 (map (fun s : R3 * nat => nth (snd s) (sigmas l) 0) ss)) \/ a < 0).
  { induction ss as [|s ss IH]; intros a; cbn [fold_left map fold_right].
    - destruct (Rle_lt_dec 0 a); [left; rewrite Rmax_left; lra|right; lra].
    - destruct (IH (Rmax a (getSigma l (snd s)))) as [-> |H].
      + left. unfold getSigma. symmetry. apply Rmax_assoc.
      + right. pose proof (Rmax_l a (getSigma l (snd s))). lra. }
  destruct (G (nth (pType m) (molSites l) []) 0) as [-> |H]; [|lra].
  apply Rmax_right. induction (nth (pType m) (molSites l) []) as [|s ss IH]; cbn; [lra|].
  pose proof (Rmax_r (nth (snd s) (sigmas l) 0) (fold_right Rmax 0 (map (fun s : R3 * nat => nth (snd s) (sigmas l) 0) ss))). lra.
Qed.

Lemma flat_map_ext' {A B} (f g : A -> list B) l : (forall a, In a l -> f a = g a) -> flat_map f l = flat_map g l.
Proof. induction l as [|a l IH]; intros H; [reflexivity|]. cbn. rewrite (H a (or_introl eq_refl)), IH; [reflexivity|]. intros x Hx. apply H. right. exact Hx. Qed.

Lemma flat_map_map {A B C} (f : B -> list C) (g : A -> B) l : flat_map f (map g l) = flat_map (fun a => f (g a)) l.
Proof. induction l as [|a l IH]; [reflexivity|]. cbn. rewrite IH. reflexivity. Qed.

Lemma map_flat_map {A B C} (f : B -> C) (g : A -> list B) l : map f (flat_map g l) = flat_map (fun a => map f (g a)) l.
Proof. induction l as [|a l IH]; [reflexivity|]. cbn. rewrite map_app, IH. reflexivity. Qed.

Section Alike.
  Variables (l : library) (m : mol).
  Hypothesis A : alike l (pType m).

  Lemma code_spec d b s t :
    In s (nth (pType m) (molSites l) []) -> In t (nth (pType m) (molSites l) []) ->
    codeForce l d b (pPos m) (rotatePosition (pQuat m) (fst s), snd s) (rotatePosition (pQuat m) (fst t), snd t) =
    ljForce ((nth (snd s) (sigmas l) 0 + nth (snd t) (sigmas l) 0) / 2) (sqrt (nth (snd s) (epsilons l) 0 * nth (snd t) (epsilons l) 0))
      (radd (rotatePosition (pQuat m) (fst s)) (pPos m)) (image d b (radd (rotatePosition (pQuat m) (fst t)) (pPos m))).
  Proof.
    intros Hs Ht. destruct (A s t Hs Ht) as [<- <-]. unfold codeForce. cbn [fst snd].
    unfold getMixingSigmaSquared, getMixing24Epsilon, getSigma. cbv zeta. apply kernel_lj.
  Qed.

  Lemma code_sum d b : codeSum l d b m = imageForce d b (pPos m) (turnedSites l m).
  Proof.
    unfold codeSum, imageForce, imageForces, codeSites, turnedSites, getSites. f_equal.
    rewrite map_flat_map, !flat_map_map. apply flat_map_ext'. intros s Hs.
    rewrite !map_map. apply map_ext_in. intros t Ht. cbn [fst snd]. apply code_spec; assumption.
  Qed.

  Lemma code_torque d b : codeTorque l d b m = imageTorque d b (pPos m) (turnedSites l m).
  Proof.
    unfold codeTorque, imageTorque, imageForces, codeSites, turnedSites, getSites. f_equal.
    rewrite map_flat_map, !flat_map_map. apply flat_map_ext'. intros s Hs.
    rewrite !map_map. apply map_ext_in. intros t Ht. cbn [fst snd]. rewrite code_spec by assumption. reflexivity.
  Qed.

  Lemma multi_bounce d u b : reflectMulti l d u b m = bounce l d u b m.
  Proof.
    rewrite multi_sum. unfold bounce. rewrite code_sum, code_torque, largest_spec. unfold reach, sixthRootOfTwo.
    destruct (Rlt_dec _ _) as [H|H]; destruct (Rlt_dec _ (_ / 2)) as [H'|H']; try lra; reflexivity.
  Qed.
End Alike.

Lemma multi_type l d u b m : pType (reflectMulti l d u b m) = pType m.
Proof.
  rewrite multi_sum. destruct (Rlt_dec _ _); [|reflexivity]. destruct (Rlt_dec _ 0); reflexivity.
Qed.

Theorem reflect_multi l gmin gmax lmin lmax bnd ms :
  (forall m, In m ms -> alike l (pType m)) ->
  (forall d, rankInterval (maxReflectiveSkin l) (co d gmin) (co d gmax) (co d lmin) (co d lmax)) ->
  (forall m, In m ms -> pOwned m = true -> forall d, co d lmin <= co d (pPos m) < co d lmax) ->
  reflectParticlesAtBoundaries l reflectMulti gmin gmax lmin lmax bnd ms =
  map (fun m => if pOwned m then bounceOff l gmin gmax bnd m else m) ms.
Proof.
  intros Ha Hr Hin.
  assert (E : forall d, (co d lmin = co d gmin \/ co d gmin + maxReflectiveSkin l <= co d lmin) /\
                        (co d lmax = co d gmax \/ co d lmax + maxReflectiveSkin l <= co d gmax) /\
                        co d gmin <= co d lmin /\ co d lmax <= co d gmax)
    by (intros d; apply rank_ends; [apply skin_nonneg|apply Hr]).
  rewrite reflect_all; [|apply keeps_multi|intros d; apply E|intros d; apply E|intros d; apply E|intros m Hm O d; apply (Hin m Hm O d)].
  apply map_ext_in. intros m Hm. unfold onOwned. destruct (pOwned m) eqn:O; [|reflexivity].
  pose proof (Ha m Hm) as A. clear Hm O Ha Hin.
  assert (W : forall d x, pType x = pType m ->
    wallsOf l reflectMulti gmin gmax bnd d x =
    fold_left (fun m w => bounce l (fst w) (snd w) (wallAt gmin gmax w) m)
      (match bnd d with reflective => [(d, false); (d, true)] | _ => [] end) x /\
    pType (wallsOf l reflectMulti gmin gmax bnd d x) = pType m).
  { intros d x Hx. unfold wallsOf. destruct (bnd d); [split; [reflexivity|exact Hx]| |split; [reflexivity|exact Hx]].
    cbn [fold_left fst snd]. unfold wallAt; cbn [fst snd]. split.
    - assert (A' : alike l (pType x)) by (rewrite Hx; exact A).
      rewrite <- (multi_bounce l x A'). apply multi_bounce. rewrite multi_type, Hx. exact A.
    - rewrite !multi_type. exact Hx. }
  unfold bounceOff, walls. cbn [flat_map]. rewrite !fold_left_app.
  destruct (W DX m eq_refl) as [WX TX]. destruct (W DY _ TX) as [WY TY]. destruct (W DZ _ TY) as [WZ _].
  rewrite WZ, WY, WX. reflexivity.
Qed.
