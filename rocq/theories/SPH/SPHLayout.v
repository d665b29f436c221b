(** Proofs: the loops over arrays do what the calls for pairs do. *)
From Coq Require Import Reals List ZArith Bool Lra FunctionalExtensionality.
From Verif.Functor Require Import SortModel.
From Verif.Container Require Import IteratorModel ParticleModel.
From Verif.MD Require Import LJModel LJSpec.
From Verif.Flex Require Import IntegrateProofs.
From Verif.SPH Require Import SPHModel SPHSpec.
Import ListNotations.
Local Open Scope R_scope.

(** ** Accumulation in any commuting way *)
Section Accumulate.
  Context {A S E : Type}.
  Variable bump : A -> E -> S -> S.
  Variable op : E -> E -> E.
  Variable zero : E.
  Hypothesis bump_comm : forall a e b f s, bump a e (bump b f s) = bump b f (bump a e s).
  Hypothesis bump_op : forall a l e s, bump a (op l e) s = bump a e (bump a l s).
  Variable contrib : A -> A -> option (E * E).
  Variable good : S -> Prop.
  Hypothesis good_zero : forall a s, good s -> bump a zero s = s.
  Hypothesis good_bump : forall a e s, good s -> good (bump a e s).

  Definition aos (n3 : bool) (i j : A) (s : S) : S :=
    match contrib i j with
    | None => s
    | Some (e, f) => if n3 then bump j f (bump i e s) else bump i e s
    end.
  Definition step (n3 : bool) (i : A) (st : S * E) (j : A) : S * E :=
    match contrib i j with
    | None => st
    | Some (e, f) => (if n3 then bump j f (fst st) else fst st, op (snd st) e)
    end.

  Lemma row_fold n3 i js : forall s l,
    bump i (snd (fold_left (step n3 i) js (s, l))) (fst (fold_left (step n3 i) js (s, l)))
    = fold_left (fun s j => aos n3 i j s) js (bump i l s).
  Proof.
    induction js as [|j js IH]; intros s l; [reflexivity|]. cbn [fold_left]. unfold step at 2 4, aos at 2.
    destruct (contrib i j) as [[e f]|]; [|apply IH]. cbn [fst snd]. rewrite IH. f_equal.
    rewrite bump_op. destruct n3; [|reflexivity]. rewrite (bump_comm i l j f), (bump_comm i e j f). reflexivity.
  Qed.

  Lemma aos_good n3 i j s : good s -> good (aos n3 i j s).
  Proof. intros G. unfold aos. destruct (contrib i j) as [[e f]|]; [|exact G]. destruct n3; auto. Qed.
  Lemma aos_row_good n3 i js : forall s, good s -> good (fold_left (fun s j => aos n3 i j s) js s).
  Proof. induction js as [|j js IH]; intros s G; [exact G|]. cbn [fold_left]. apply IH, aos_good, G. Qed.
End Accumulate.

Lemma forEach_row {A S} (call : A -> A -> S -> S) i js s :
  forEach call (map (pair i) js) s = fold_left (fun s j => call i j s) js s.
Proof. unfold forEach. revert s. induction js as [|j js IH]; intros s; [reflexivity|]. cbn. apply IH. Qed.
Lemma forEach_app {A S} (call : A -> A -> S -> S) l k s : forEach call (l ++ k) s = forEach call k (forEach call l s).
Proof. unfold forEach. apply fold_left_app. Qed.

(** Rows that do the calls for their pairs give loops that do the calls for all pairs. *)
Section Loops.
  Context {A S : Type}.
  Variable call : A -> A -> S -> S.
  Variable row : A -> list A -> S -> S.
  Variable good : S -> Prop.
  Hypothesis row_ok : forall i js s, good s -> row i js s = fold_left (fun s j => call i j s) js s.
  Hypothesis call_good : forall i j s, good s -> good (call i j s).
  Lemma forEach_good ps : forall s, good s -> good (forEach call ps s).
  Proof. unfold forEach. induction ps as [|p ps IH]; intros s G; [exact G|]. cbn. apply IH, call_good, G. Qed.
  Lemma single_loop (single : list A -> S -> S) : (forall s, single [] s = s) ->
    (forall i rest s, single (i :: rest) s = single rest (row i rest s)) ->
    forall l s, good s -> single l s = forEach call (pairsOf l) s.
  Proof.
    intros H0 H1. induction l as [|i l IH]; intros s G; [apply H0|].
    cbn [pairsOf]. rewrite H1, forEach_app, forEach_row, <- row_ok by exact G. apply IH.
    rewrite row_ok by exact G. rewrite <- forEach_row. apply forEach_good, G.
  Qed.
  Lemma pair_loop l2 : forall l1 s, good s ->
    fold_left (fun s i => row i l2 s) l1 s = forEach call (list_prod l1 l2) s.
  Proof.
    induction l1 as [|i l1 IH]; intros s G; [reflexivity|]. cbn [fold_left list_prod].
    rewrite forEach_app, forEach_row, <- row_ok by exact G. apply IH.
    rewrite row_ok by exact G. rewrite <- forEach_row. apply forEach_good, G.
  Qed.
End Loops.

Section SPH.
  Context {A : Type}.
  Variable same : A -> A -> bool.
  Variable part : A -> Particle.
  Variable vel : A -> R3.
  Variables mass smth dens pres snds : A -> R.

  (** ** Density *)
  Lemma incr_comm a e b f m : incr same a e (incr same b f m) = incr same b f (incr same a e m).
  Proof. apply functional_extensionality. intros x. unfold incr. destruct (same x a), (same x b); ring. Qed.
  Lemma incr_plus a l e m : incr same a (l + e) m = incr same a e (incr same a l m).
  Proof. apply functional_extensionality. intros x. unfold incr. destruct (same x a); ring. Qed.
  Lemma incr_zero a m : incr same a 0 m = m.
  Proof. apply functional_extensionality. intros x. unfold incr. destruct (same x a); ring. Qed.

  Definition dContrib (i j : A) : option (R * R) :=
    if isDummy (part i) || isDummy (part j) then None
    else let dr2 := dot (rsub (ppos (part j)) (ppos (part i))) (rsub (ppos (part j)) (ppos (part i))) in
      Some (mass j * kernelW dr2 (smth i), mass i * kernelW dr2 (smth j)).

  Lemma densityAoS_aos n3 i j m : densityAoS same part mass smth n3 i j m = aos (incr same) dContrib n3 i j m.
  Proof. unfold densityAoS, aos, dContrib. destruct (isDummy (part i) || isDummy (part j)); [reflexivity|]. destruct n3; reflexivity. Qed.

  Lemma dr2_eq p q : (rx p - rx q) * (rx p - rx q) + (ry p - ry q) * (ry p - ry q) + (rz p - rz q) * (rz p - rz q) = dot (rsub q p) (rsub q p).
  Proof. unfold dot, rsub. cbn. ring. Qed.

  Lemma densityStep_step n3 i st j : isDummy (part i) = false ->
    densityStep same part mass smth n3 i st j = step (incr same) Rplus dContrib n3 i st j.
  Proof.
    intros Hi. destruct st as [m l]. unfold densityStep, step, dContrib. rewrite Hi, !dr2_eq. cbn [orb fst snd].
    destruct (isDummy (part j)); cbn [negb]; [|reflexivity]. rewrite Rplus_0_r, incr_zero. destruct n3; reflexivity.
  Qed.

  Lemma densityRow_ok n3 i js m :
    densityRow same part mass smth n3 i js m = fold_left (fun m j => densityAoS same part mass smth n3 i j m) js m.
  Proof.
    unfold densityRow. destruct (isDummy (part i)) eqn:Hi.
    - induction js as [|j js IH]; [reflexivity|]. cbn [fold_left]. unfold densityAoS at 2. rewrite Hi. exact IH.
    - assert (E : forall st, fold_left (densityStep same part mass smth n3 i) js st = fold_left (step (incr same) Rplus dContrib n3 i) js st).
      { clear -Hi. induction js as [|j js IH]; intros st; [reflexivity|]. cbn [fold_left]. rewrite densityStep_step by exact Hi. apply IH. }
      rewrite E. pose proof (row_fold (incr same) Rplus incr_comm incr_plus dContrib n3 i js m 0) as F.
      destruct (fold_left (step (incr same) Rplus dContrib n3 i) js (m, 0)) as [m' l]. cbn [fst snd] in F. rewrite F, incr_zero.
      clear. revert m. induction js as [|j js IH]; intros m; [reflexivity|]. cbn [fold_left]. rewrite densityAoS_aos. apply IH.
  Qed.

  Lemma density_newton3 i j m : densityAoS same part mass smth false j i (densityAoS same part mass smth false i j m)
    = densityAoS same part mass smth true i j m.
  Proof.
    unfold densityAoS. destruct (isDummy (part i)), (isDummy (part j)); try reflexivity. cbn [orb].
    unfold kernelWVec. replace (dot (rsub (ppos (part i)) (ppos (part j))) (rsub (ppos (part i)) (ppos (part j))))
      with (dot (rsub (ppos (part j)) (ppos (part i))) (rsub (ppos (part j)) (ppos (part i)))); [reflexivity|].
    unfold dot, rsub. cbn. ring.
  Qed.

  (** ** Hydrodynamic force *)
  Definition bumpH (a : A) (e : Local) (s : Hydro) : Hydro :=
    mkHydro (incr3 same a (lAcc e) (hAcc s)) (incr same a (lEng e) (hEng s)) (checkMax same a (lVsig e) (hVsig s)).
  Definition opH (l e : Local) : Local := mkLocal (radd (lAcc l) (lAcc e)) (lEng l + lEng e) (Rmax (lVsig l) (lVsig e)).
  Definition zeroH : Local := mkLocal rzero 0 0.
  Definition goodH (s : @Hydro A) : Prop := forall a, 0 <= hVsig s a.

  Lemma hydro_eq (s t : @Hydro A) : (forall x, hAcc s x = hAcc t x) -> (forall x, hEng s x = hEng t x) -> (forall x, hVsig s x = hVsig t x) -> s = t.
  Proof.
    destruct s as [a b c], t as [a' b' c']. cbn. intros H1 H2 H3.
    rewrite (functional_extensionality _ _ H1), (functional_extensionality _ _ H2), (functional_extensionality _ _ H3). reflexivity.
  Qed.
  Lemma bumpH_comm a e b f s : bumpH a e (bumpH b f s) = bumpH b f (bumpH a e s).
  Proof.
    apply hydro_eq; intros x; cbn; unfold incr3, incr, checkMax; destruct (same x a), (same x b); try reflexivity; try r3; try ring.
    rewrite !Rmax_assoc, (Rmax_comm (lVsig e)). reflexivity.
  Qed.
  Lemma bumpH_op a l e s : bumpH a (opH l e) s = bumpH a e (bumpH a l s).
  Proof.
    apply hydro_eq; intros x; cbn; unfold incr3, incr, checkMax; destruct (same x a); try reflexivity; try r3; try ring.
    rewrite Rmax_assoc, (Rmax_comm (lVsig e)). reflexivity.
  Qed.
  Lemma bumpH_zero a s : goodH s -> bumpH a zeroH s = s.
  Proof.
    intros G. apply hydro_eq; intros x; cbn; unfold incr3, incr, checkMax; destruct (same x a); try reflexivity; try r3; try ring.
    apply Rmax_right, G.
  Qed.
  Lemma bumpH_good a e s : goodH s -> goodH (bumpH a e s).
  Proof. intros G x. cbn. unfold checkMax. destruct (same x a); [|apply G]. eapply Rle_trans; [apply (G x)|apply Rmax_r]. Qed.

  Definition hContrib (i j : A) : option (Local * Local) :=
    let dr := rsub (ppos (part i)) (ppos (part j)) in
    let cutoff := smth i * kernelSupportRadius in
    if isDummy (part i) || isDummy (part j) then None
    else if Rle_dec (cutoff * cutoff) (dot dr dr) then None
    else
      let dv := rsub (vel i) (vel j) in
      let w_ij := if Rlt_dec (dot dv dr) 0 then dot dv dr / l2Norm dr else 0 in
      let v_sig := snds i + snds j - 3 * w_ij in
      let AV := - (1 / 2) * v_sig * w_ij / (1 / 2 * (dens i + dens j)) in
      let g := rscale (radd (kernelGradW dr (smth i)) (kernelGradW dr (smth j))) (1 / 2) in
      let scale := pres i / (dens i * dens i) + pres j / (dens j * dens j) + AV in
      Some (mkLocal (rsub rzero (rscale g (scale * mass j))) (dot g dv * (mass j * (pres i / (dens i * dens i) + 1 / 2 * AV))) v_sig,
            mkLocal (rscale g (scale * mass i)) (dot g dv * (mass i * (pres j / (dens j * dens j) + 1 / 2 * AV))) v_sig).

  Notation hAoS := (hydroAoS same part vel mass smth dens pres snds).
  Lemma hydroAoS_aos n3 i j s : hAoS n3 i j s = aos bumpH hContrib n3 i j s.
  Proof.
    unfold hydroAoS, aos, hContrib. destruct (isDummy (part i) || isDummy (part j)); [reflexivity|].
    destruct (Rle_dec _ _) as [L|L]; [destruct s; reflexivity|].
    cbv zeta. set (g := rscale (radd _ _) (1 / 2)). clearbody g.
    set (w := if Rlt_dec _ _ then _ else _). clearbody w. set (AV := _ / (1 / 2 * (dens i + dens j))). clearbody AV.
    apply hydro_eq; intros x; destruct n3; cbn; unfold incr3, decr3, incr, checkMax;
      destruct (same x i); try (destruct (same x j)); try reflexivity; try r3; try ring.
  Qed.

  Lemma hydroStep_step n3 i st j : isDummy (part i) = false ->
    hydroStep same part vel mass smth dens pres snds n3 i st j = step bumpH opH hContrib n3 i st j.
  Proof.
    intros Hi. destruct st as [s l]. unfold hydroStep, step, hContrib. rewrite Hi. cbn [orb fst snd].
    set (dr := rsub (ppos (part i)) (ppos (part j))).
    change (mkR3 (rx (ppos (part i)) - rx (ppos (part j))) (ry (ppos (part i)) - ry (ppos (part j))) (rz (ppos (part i)) - rz (ppos (part j)))) with dr.
    set (dv := rsub (vel i) (vel j)).
    change ((rx (ppos (part i)) - rx (ppos (part j))) * (rx (ppos (part i)) - rx (ppos (part j))) + (ry (ppos (part i)) - ry (ppos (part j))) * (ry (ppos (part i)) - ry (ppos (part j))) + (rz (ppos (part i)) - rz (ppos (part j))) * (rz (ppos (part i)) - rz (ppos (part j)))) with (dot dr dr).
    change ((rx (vel i) - rx (vel j)) * (rx (ppos (part i)) - rx (ppos (part j))) + (ry (vel i) - ry (vel j)) * (ry (ppos (part i)) - ry (ppos (part j))) + (rz (vel i) - rz (vel j)) * (rz (ppos (part i)) - rz (ppos (part j)))) with (dot dv dr).
    change (sqrt (dot dr dr)) with (l2Norm dr).
    destruct (isDummy (part j)); [destruct (Rle_dec _ _); reflexivity|].
    destruct (Rle_dec _ _) as [L|L]; [reflexivity|]. cbv zeta.
    set (g := rscale (radd _ _) (1 / 2)). clearbody g.
    set (w := if Rlt_dec _ _ then _ else _). clearbody w. set (AV := _ / (1 / 2 * (dens i + dens j))). clearbody AV.
    change (rx g * (rx (vel i) - rx (vel j)) + ry g * (ry (vel i) - ry (vel j)) + rz g * (rz (vel i) - rz (vel j))) with (dot g dv).
    f_equal.
    - destruct n3; [|destruct s; reflexivity].
      apply hydro_eq; intros x; cbn; unfold incr3, incr, checkMax; destruct (same x j); try reflexivity.
      unfold Rmax. destruct (Rlt_dec _ _), (Rle_dec _ _); lra.
    - unfold opH. cbn. f_equal. r3.
  Qed.

  Lemma hydroRow_ok n3 i js s : goodH s ->
    hydroRow same part vel mass smth dens pres snds n3 i js s = fold_left (fun s j => hAoS n3 i j s) js s.
  Proof.
    intros G. unfold hydroRow. destruct (isDummy (part i)) eqn:Hi.
    - clear G. induction js as [|j js IH]; [reflexivity|]. cbn [fold_left]. unfold hydroAoS at 2. rewrite Hi. exact IH.
    - assert (E : forall st, fold_left (hydroStep same part vel mass smth dens pres snds n3 i) js st = fold_left (step bumpH opH hContrib n3 i) js st).
      { clear -Hi. induction js as [|j js IH]; intros st; [reflexivity|]. cbn [fold_left]. rewrite hydroStep_step by exact Hi. apply IH. }
      rewrite E. pose proof (row_fold bumpH opH bumpH_comm bumpH_op hContrib n3 i js s zeroH) as F. unfold zeroH in F at 1 2.
      destruct (fold_left (step bumpH opH hContrib n3 i) js (s, mkLocal rzero 0 0)) as [s' l]. cbn [fst snd] in F.
      change (mkHydro _ _ _) with (bumpH i l s'). rewrite F, (bumpH_zero _ _ G).
      clear. revert s. induction js as [|j js IH]; intros s; [reflexivity|]. cbn [fold_left]. rewrite hydroAoS_aos. apply IH.
  Qed.
  Lemma hydroAoS_good n3 i j s : goodH s -> goodH (hAoS n3 i j s).
  Proof. intros G. rewrite hydroAoS_aos. apply aos_good; [exact bumpH_good|exact G]. Qed.
End SPH.
