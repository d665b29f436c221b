(** Proofs about the multi-site functor: every loop adds up the effects of pairs of sites. *)
From Coq Require Import Reals List ZArith Bool Arith Lia Lra FunctionalExtensionality.
From Verif.Functor Require Import SortModel.
From Verif.Container Require Import IteratorModel ParticleModel.
From Verif.MD Require Import MixingModel LJModel MultisiteModel.
From Verif.Flex Require Import IntegrateProofs QuatModel.
Import ListNotations.
Local Open Scope R_scope.

Section Sums.
  Context {A : Type}.
  Variable same : A -> A -> bool.
  Variable part : A -> Particle.
  Variable quatOf : A -> quat.
  Variable typeOf : A -> nat.
  Variables (mixing shifted globals : bool) (cutoff2 : R).
  Variable librarySites : nat -> list (R3 * nat).
  Variable libraryProps : nat -> nat -> LJProps.
  Variables (constSites : list R3) (constProps : LJProps).

  Let St := @MState A.
  Let rot := rotatedSites quatOf typeOf mixing librarySites constSites.
  Let prop := siteProps mixing shifted libraryProps constProps.

  (** ** Effects *)
  Definition addS (a b : St) : St :=
    mkMS (fun x => radd (mForce a x) (mForce b x)) (fun x => radd (mTorque a x) (mTorque b x))
      (radd (mVirial a) (mVirial b)) (mPot a + mPot b).
  Definition zeroS : St := mkMS (fun _ => rzero) (fun _ => rzero) rzero 0.

  Lemma ms_eq (a b : St) : (forall x, mForce a x = mForce b x) -> (forall x, mTorque a x = mTorque b x) ->
    mVirial a = mVirial b -> mPot a = mPot b -> a = b.
  Proof.
    destruct a as [a1 a2 a3 a4], b as [b1 b2 b3 b4]. cbn. intros H1 H2 -> ->.
    rewrite (functional_extensionality _ _ H1), (functional_extensionality _ _ H2). reflexivity.
  Qed.

  Lemma addS_zero a : addS a zeroS = a.
  Proof. apply ms_eq; cbn; intros; try r3; lra. Qed.
  Lemma addS_comm a b : addS a b = addS b a.
  Proof. apply ms_eq; cbn; intros; try r3; lra. Qed.
  Lemma addS_assoc a b c : addS (addS a b) c = addS a (addS b c).
  Proof. apply ms_eq; cbn; intros; try r3; lra. Qed.
  Lemma addS_swap a b c : addS (addS a b) c = addS (addS a c) b.
  Proof. rewrite !addS_assoc, (addS_comm b c). reflexivity. Qed.

  Fixpoint sumS (l : list St) : St := match l with [] => zeroS | a :: l' => addS a (sumS l') end.
  Lemma sumS_app l k : sumS (l ++ k) = addS (sumS l) (sumS k).
  Proof.
    induction l as [|a l IH]; cbn [app sumS].
    - rewrite addS_comm. symmetry. apply addS_zero.
    - rewrite IH. symmetry. apply addS_assoc.
  Qed.
  Lemma sumS_zero {T} (f : T -> St) l : (forall t, In t l -> f t = zeroS) -> sumS (map f l) = zeroS.
  Proof.
    induction l as [|t l IH]; intros H; [reflexivity|]. cbn. rewrite (H t (or_introl eq_refl)), IH; [apply addS_zero|].
    intros u Hu. apply H. right. exact Hu.
  Qed.
  Lemma sumS_add {T} (f g : T -> St) l : sumS (map (fun t => addS (f t) (g t)) l) = addS (sumS (map f l)) (sumS (map g l)).
  Proof.
    induction l as [|t l IH]; cbn [map sumS]; [symmetry; apply addS_zero|].
    rewrite IH, !addS_assoc. f_equal. rewrite <- !addS_assoc. f_equal. apply addS_comm.
  Qed.
  (** Sums may be swapped. *)
  Lemma sumS_swap {T U} (f : T -> U -> St) ts us :
    sumS (map (fun t => sumS (map (f t) us)) ts) = sumS (map (fun u => sumS (map (fun t => f t u) ts)) us).
  Proof.
    induction ts as [|t ts IH]; cbn [map sumS].
    - symmetry. apply sumS_zero. reflexivity.
    - rewrite IH, sumS_add. reflexivity.
  Qed.
  Lemma sumS_flat {T U} (f : U -> St) (g : T -> list U) ts :
    sumS (map f (flat_map g ts)) = sumS (map (fun t => sumS (map f (g t))) ts).
  Proof. induction ts as [|t ts IH]; [reflexivity|]. cbn [flat_map map sumS]. rewrite map_app, sumS_app, IH. reflexivity. Qed.
  Lemma sumS_ext {T} (f g : T -> St) l : (forall t, In t l -> f t = g t) -> sumS (map f l) = sumS (map g l).
  Proof. intros H. f_equal. apply map_ext_in. exact H. Qed.

  Lemma fold_addS {T} (h : St -> T -> St) (f : T -> St) l s : (forall s t, h s t = addS s (f t)) ->
    fold_left h l s = addS s (sumS (map f l)).
  Proof.
    intros H. revert s. induction l as [|t l IH]; intros s; cbn [fold_left map sumS].
    - symmetry. apply addS_zero.
    - rewrite IH, H. apply addS_assoc.
  Qed.

  (** The effect of a force on a site of a molecule. *)
  Definition onSite (a : A) (site : R3) (f : R3) : St :=
    mkMS (fun x => if same x a then f else rzero) (fun x => if same x a then cross site f else rzero) rzero 0.
  Definition neg (v : R3) : R3 := rsub rzero v.
  Definition sums (v : R3) (e : R) : St := mkMS (fun _ => rzero) (fun _ => rzero) v e.

  Lemma onSite_add a site f g : onSite a site (radd f g) = addS (onSite a site f) (onSite a site g).
  Proof. apply ms_eq; cbn; intros; try (destruct (same x a)); try r3; lra. Qed.
  Lemma onSite_zero a site : onSite a site rzero = zeroS.
  Proof. apply ms_eq; cbn; intros; try (destruct (same x a)); try r3; lra. Qed.

  (** The displacement of two sites, and the effect of their pair. *)
  Definition disp (a : A) (sa : R3 * nat) (b : A) (sb : R3 * nat) : R3 :=
    rsub (radd (fst sa) (ppos (part a))) (radd (fst sb) (ppos (part b))).
  Definition kern (mask : bool) a sa b sb : R3 * R := siteKernel mask (prop (snd sa) (snd sb)) (disp a sa b sb).
  Definition effect (newton3 mask : bool) (a : A) (sa : R3 * nat) (b : A) (sb : R3 * nat) : St :=
    let k := kern mask a sa b sb in
    let w := if globals then ownershipFactor newton3 (isOwned (part a)) (isOwned (part b)) else 0 in
    addS (addS (onSite a (fst sa) (fst k)) (if newton3 then onSite b (fst sb) (neg (fst k)) else zeroS))
      (sums (rscale (rmul (disp a sa b sb) (fst k)) w) (snd k * w)).

  Lemma effect_off n3 a sa b sb : effect n3 false a sa b sb = zeroS.
  Proof.
    unfold effect, kern, siteKernel. cbn [fst snd].
    apply ms_eq; cbn; intros; destruct n3; cbn; try (destruct (same x a)); try (destruct (same x b)); try r3; lra.
  Qed.

  Definition close (a b : A) : bool := negb (isDummy (part a)) && molMask part cutoff2 a b.
  Definition pairEffect (n3 : bool) (a b : A) : St :=
    sumS (map (fun sa => sumS (map (fun sb => effect n3 (close a b) a sa b sb) (rot b))) (rot a)).

  (** ** AoS *)
  Lemma aosSites_effect n3 a b sa sb s :
    aosSites same part mixing shifted globals libraryProps constProps n3 a b (rsub (ppos (part a)) (ppos (part b))) sa sb s
    = addS s (effect n3 true a sa b sb).
  Proof.
    unfold aosSites, effect, kern.
    replace (radd (rsub (rsub (ppos (part a)) (ppos (part b))) (fst sb)) (fst sa)) with (disp a sa b sb) by (unfold disp; r3).
    fold prop. destruct (siteKernel true (prop (snd sa) (snd sb)) (disp a sa b sb)) as [f e]. cbn [fst snd].
    unfold addGlobals, addAt, subAt, onSite, sums, ownershipFactor.
    destruct s as [s1 s2 s3 s4].
    apply ms_eq; cbn; intros; destruct n3, globals, (isOwned (part a)), (isOwned (part b)); cbn;
      try (destruct (same x a)); try (destruct (same x b)); try r3; lra.
  Qed.

  Theorem aos_effect n3 a b s :
    aosFunctor same part quatOf typeOf mixing shifted globals cutoff2 librarySites libraryProps constSites constProps n3 a b s
    = addS s (pairEffect n3 a b).
  Proof.
    unfold aosFunctor, pairEffect, close, molMask.
    assert (Z : sumS (map (fun sa => sumS (map (fun sb => effect n3 false a sa b sb) (rot b))) (rot a)) = zeroS).
    { apply sumS_zero. intros sa _. apply sumS_zero. intros sb _. apply effect_off. }
    destruct (isDummy (part a)); cbn [orb negb andb]; [rewrite Z; symmetry; apply addS_zero|].
    destruct (isDummy (part b)); cbn [negb]; [rewrite andb_false_r, Z; symmetry; apply addS_zero|].
    rewrite andb_true_r.
    destruct (Rlt_dec _ _) as [H|H]; destruct (Rle_dec _ _) as [G|G]; try lra; [rewrite Z; symmetry; apply addS_zero|].
    apply fold_addS. intros s' sa. apply fold_addS. intros s'' sb. apply aosSites_effect.
  Qed.

  (** ** The arrays of sites *)
  Definition flat (view : list A) : list (A * (R3 * nat)) := flat_map (fun a => map (pair a) (rot a)) view.
  Definition entry (e : A * (R3 * nat)) : R3 * nat * bool :=
    (radd (fst (snd e)) (ppos (part (fst e))), snd (snd e), isOwned (part (fst e))).

  Lemma fill_flat view : fillSites part quatOf typeOf mixing librarySites constSites view = map entry (flat view).
  Proof.
    unfold fillSites, flat. induction view as [|a view IH]; [reflexivity|]. cbn [flat_map].
    rewrite map_app, IH, map_map. reflexivity.
  Qed.

  Lemma rot_length a : length (rot a) = length (sitesOf typeOf mixing librarySites constSites a).
  Proof. unfold rot, rotatedSites. apply map_length. Qed.

  Lemma mask_flat a bs mask : siteMask part typeOf mixing cutoff2 librarySites a bs = Some mask ->
    mask = map (fun e => molMask part cutoff2 a (fst e)) (flat bs).
  Proof.
    assert (B : forall m : bool, m = true \/ m = false) by (intros []; auto).
    unfold siteMask. destruct (B mixing) as [M|M]; rewrite M.
    - intros H. injection H as <-. unfold flat. induction bs as [|b bs IH]; [reflexivity|]. cbn [flat_map].
      rewrite map_app, IH, map_map. cbn [fst]. f_equal.
      unfold rot, rotatedSites, sitesOf. rewrite ?M. rewrite map_map.
      induction (librarySites (typeOf b)) as [|x l IHl]; [reflexivity|]. cbn. rewrite IHl. reflexivity.
    - destruct bs; [|discriminate]. intros H. injection H as <-. reflexivity.
  Qed.

  (** What the site forces amount to. *)
  Fixpoint reduced (F : nat -> R3) (i : nat) (es : list (A * (R3 * nat))) : St :=
    match es with [] => zeroS | e :: es' => addS (onSite (fst e) (fst (snd e)) (F i)) (reduced F (S i) es') end.

  Lemma reduced_app F i es es' : reduced F i (es ++ es') = addS (reduced F i es) (reduced F (i + length es) es').
  Proof using same. clear prop rot librarySites libraryProps typeOf.
    revert i. induction es as [|e es IH]; intros i; cbn [app reduced length].
    - rewrite Nat.add_0_r, addS_comm. symmetry. apply addS_zero.
    - rewrite IH, addS_assoc, Nat.add_succ_r. reflexivity.
  Qed.

  Lemma reduceSites_reduced F i a sites s :
    reduceSites same F i a sites s = addS s (reduced F i (map (pair a) sites)).
  Proof.
    revert i s. induction sites as [|t sites IH]; intros i s; cbn [reduceSites map reduced].
    - symmetry. apply addS_zero.
    - rewrite IH, <- addS_assoc. f_equal. unfold addAt, onSite. destruct s.
      apply ms_eq; cbn; intros; try (destruct (same x a)); try r3; lra.
  Qed.

  Lemma reduceMols_reduced F i view s :
    reduceMols same quatOf typeOf mixing librarySites constSites F i view s = addS s (reduced F i (flat view)).
  Proof.
    revert i s. induction view as [|a view IH]; intros i s; cbn [reduceMols flat flat_map].
    - symmetry. apply addS_zero.
    - fold (flat view). rewrite IH, reduceSites_reduced, reduced_app, map_length, addS_assoc.
      fold rot. rewrite rot_length. reflexivity.
  Qed.

  Lemma reduced_zero i es : reduced (fun _ => rzero) i es = zeroS.
  Proof. revert i. induction es as [|e es IH]; intros i; [reflexivity|]. cbn. rewrite IH, onSite_zero. apply addS_zero. Qed.

  Lemma reduced_ext F G i es : (forall k, (i <= k < i + length es)%nat -> F k = G k) -> reduced F i es = reduced G i es.
  Proof using same. clear prop rot librarySites libraryProps typeOf.
    revert i. induction es as [|e es IH]; intros i H; [reflexivity|]. cbn [length] in H. cbn [reduced].
    rewrite (H i) by lia. f_equal. apply IH. intros k Hk. apply H. lia.
  Qed.

  (** Adding a force to site [k] adds its effect. *)
  Lemma reduced_add F es k e f : nth_error es k = Some e ->
    reduced (addSite k f F) 0 es = addS (reduced F 0 es) (onSite (fst e) (fst (snd e)) f).
  Proof using same. clear prop rot librarySites libraryProps typeOf.
    intros H. destruct (nth_error_split es k H) as [l1 [l2 [-> Hl]]].
    rewrite !reduced_app. cbn [reduced plus]. rewrite Hl.
    assert (E1 : reduced (addSite k f F) 0 l1 = reduced F 0 l1).
    { apply reduced_ext. intros j Hj. unfold addSite. destruct (Nat.eqb_spec j k); [lia|reflexivity]. }
    assert (E2 : reduced (addSite k f F) (S k) l2 = reduced F (S k) l2).
    { apply reduced_ext. intros j Hj. unfold addSite. destruct (Nat.eqb_spec j k); [lia|reflexivity]. }
    rewrite E1, E2. unfold addSite at 1. rewrite Nat.eqb_refl, onSite_add.
    rewrite (addS_assoc (reduced F 0 l1)). f_equal. rewrite (addS_swap _ (reduced F (S k) l2)). reflexivity.
  Qed.

  Lemma subSite_add k f F : subSite k f F = addSite k (neg f) F.
  Proof. apply functional_extensionality. intros i. unfold subSite, addSite, neg. destruct (i =? k)%nat; [r3|reflexivity]. Qed.
End Sums.
