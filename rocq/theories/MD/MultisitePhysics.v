(** Proofs about the multi-site functor: an AoS call adds the interaction of two molecules. *)
From Coq Require Import Reals List ZArith Bool Arith Lia Lra.
From Verif.Functor Require Import SortModel.
From Verif.Container Require Import IteratorModel ParticleModel.
From Verif.MD Require Import MixingModel LJModel LJSpec LJPhysics MultisiteModel MultisiteSpec MultisiteSums.
From Verif.Flex Require Import IntegrateProofs QuatModel QuatSpec.
Import ListNotations.
Local Open Scope R_scope.

(** ** Sums over pairs *)
Lemma vsum_cons x l : vsum (x :: l) = radd x (vsum l).
Proof. reflexivity. Qed.
Lemma rsum_cons x l : rsum (x :: l) = x + rsum l.
Proof. reflexivity. Qed.
Lemma vadd {T} (f g : T -> R3) l : vsum (map (fun t => radd (f t) (g t)) l) = radd (vsum (map f l)) (vsum (map g l)).
Proof.
  induction l as [|t l IH]; cbn [map]; [r3|]. rewrite !vsum_cons, IH.
  generalize (f t) (g t) (vsum (map f l)) (vsum (map g l)). intros. r3.
Qed.
Lemma vzero {T} (l : list T) : vsum (map (fun _ => rzero) l) = rzero.
Proof. induction l as [|t l IH]; [reflexivity|]. cbn [map]. rewrite vsum_cons, IH. r3. Qed.
Lemma vscale {T} (f : T -> R3) w l : vsum (map (fun t => rscale (f t) w) l) = rscale (vsum (map f l)) w.
Proof.
  induction l as [|t l IH]; cbn [map]; [r3|]. rewrite !vsum_cons, IH. generalize (f t) (vsum (map f l)). intros. r3.
Qed.
Lemma vext {T} (f g : T -> R3) l : (forall t, In t l -> f t = g t) -> vsum (map f l) = vsum (map g l).
Proof. intros H. f_equal. apply map_ext_in. exact H. Qed.
Lemma rscaleSum {T} (f : T -> R) w l : rsum (map (fun t => f t * w) l) = rsum (map f l) * w.
Proof. induction l as [|t l IH]; cbn [map]; [cbn; lra|]. rewrite !rsum_cons, IH. lra. Qed.
Lemma rext {T} (f g : T -> R) l : (forall t, In t l -> f t = g t) -> rsum (map f l) = rsum (map g l).
Proof. intros H. f_equal. apply map_ext_in. exact H. Qed.

Definition both {T U} (f : T -> U -> R3) ts us : R3 := vsum (map (fun t => vsum (map (f t) us)) ts).
Lemma both_add {T U} (f g : T -> U -> R3) ts us : both (fun t u => radd (f t u) (g t u)) ts us = radd (both f ts us) (both g ts us).
Proof. unfold both. rewrite <- vadd. apply vext. intros t _. apply vadd. Qed.
Lemma both_zero {T U} (ts : list T) (us : list U) : both (fun _ _ => rzero) ts us = rzero.
Proof. unfold both. transitivity (vsum (map (fun _ : T => rzero) ts)); [apply vext; intros t _; apply vzero|apply vzero]. Qed.
Lemma both_scale {T U} (f : T -> U -> R3) w ts us : both (fun t u => rscale (f t u) w) ts us = rscale (both f ts us) w.
Proof. unfold both. rewrite <- vscale. apply vext. intros t _. apply vscale. Qed.
Lemma both_ext {T U} (f g : T -> U -> R3) ts us : (forall t u, In t ts -> In u us -> f t u = g t u) -> both f ts us = both g ts us.
Proof. intros H. apply vext. intros t Ht. apply vext. intros u Hu. apply H; assumption. Qed.
Lemma both_swap {T U} (f : T -> U -> R3) ts us : both f ts us = both (fun u t => f t u) us ts.
Proof.
  unfold both. induction ts as [|t ts IH]; cbn [map].
  - symmetry. apply vzero.
  - rewrite vsum_cons, IH, <- vadd. reflexivity.
Qed.
Lemma both_prod {T U} (f : T * U -> R3) ts us : vsum (map f (list_prod ts us)) = both (fun t u => f (t, u)) ts us.
Proof.
  unfold both. induction ts as [|t ts IH]; [reflexivity|]. cbn [list_prod map].
  rewrite map_app, map_map, LJProofs.vsum_app, IH. reflexivity.
Qed.
Lemma rboth_prod {T U} (f : T * U -> R) ts us :
  rsum (map f (list_prod ts us)) = rsum (map (fun t => rsum (map (fun u => f (t, u)) us)) ts).
Proof.
  induction ts as [|t ts IH]; [reflexivity|]. cbn [list_prod map].
  rewrite map_app, map_map, LJProofs.rsum_app, IH. reflexivity.
Qed.

Lemma force_sumS {A} (l : list (@MState A)) x : mForce (sumS l) x = vsum (map (fun s => mForce s x) l).
Proof. induction l as [|s l IH]; [reflexivity|]. cbn [sumS map addS mForce]. rewrite IH. reflexivity. Qed.
Lemma torque_sumS {A} (l : list (@MState A)) x : mTorque (sumS l) x = vsum (map (fun s => mTorque s x) l).
Proof. induction l as [|s l IH]; [reflexivity|]. cbn [sumS map addS mTorque]. rewrite IH. reflexivity. Qed.
Lemma virial_sumS {A} (l : list (@MState A)) : mVirial (sumS l) = vsum (map mVirial l).
Proof. induction l as [|s l IH]; [reflexivity|]. cbn [sumS map addS mVirial]. rewrite IH. reflexivity. Qed.
Lemma pot_sumS {A} (l : list (@MState A)) : mPot (sumS l) = rsum (map mPot l).
Proof. induction l as [|s l IH]; [reflexivity|]. cbn [sumS map addS mPot]. rewrite IH. reflexivity. Qed.

Section Physics.
  Context {A : Type}.
  Variable same : A -> A -> bool.
  Variable part : A -> Particle.
  Variable quatOf : A -> quat.
  Variable typeOf : A -> nat.
  Variables (mixing shifted globals : bool) (cutoff2 : R).
  Variable librarySites : nat -> list (R3 * nat).
  Variable libraryProps : nat -> nat -> LJProps.
  Variables (constSites : list R3) (constProps : LJProps).
  Variable sitesIn : A -> list (R3 * nat).
  Variable fld : Field.
  Hypothesis Hset : setUpSites sitesIn fld typeOf mixing shifted cutoff2 librarySites libraryProps constSites constProps.

  Local Notation rot := (rotatedSites quatOf typeOf mixing librarySites constSites).
  Local Notation eff := (effect same part mixing shifted globals libraryProps constProps).
  Local Notation pairE := (pairEffect same part quatOf typeOf mixing shifted globals cutoff2 librarySites libraryProps constSites constProps).
  Local Notation aos := (aosFunctor same part quatOf typeOf mixing shifted globals cutoff2 librarySites libraryProps constSites constProps).
  Local Notation plc := (placed part quatOf sitesIn).
  Local Notation inter := (interacting part fld).

  Definition turned (a : A) (s : R3 * nat) : R3 * nat := (rotatePosition (quatOf a) (fst s), snd s).
  Definition put (a : A) (s : R3 * nat) : R3 * nat := (radd (ppos (part a)) (rotatePosition (quatOf a) (fst s)), snd s).

  Lemma sites_rot a : rot a = map (turned a) (sitesIn a).
  Proof.
    unfold rotatedSites, sitesOf. assert (B : mixing = true \/ mixing = false) by (destruct mixing; auto).
    destruct B as [M|M]; rewrite M.
    - rewrite (sitesMixing _ _ _ _ _ _ _ _ _ _ Hset a M). reflexivity.
    - rewrite (sitesConst _ _ _ _ _ _ _ _ _ _ Hset a M). reflexivity.
  Qed.
  Lemma sites_put a : plc a = map (put a) (sitesIn a).
  Proof. reflexivity. Qed.

  Lemma close_inter a b : close part cutoff2 a b = inter a b.
  Proof.
    unfold close, molMask, interacting. destruct (sitesCutoff _ _ _ _ _ _ _ _ _ _ Hset) as [C0 C]. rewrite C.
    pose proof (distance_le (ppos (part a)) (ppos (part b)) (cutoffOf fld) C0) as D.
    destruct (Rle_dec (distance (ppos (part a)) (ppos (part b))) (cutoffOf fld)) as [L|L];
      destruct (Rle_dec (dot (rsub (ppos (part a)) (ppos (part b))) (rsub (ppos (part a)) (ppos (part b)))) (cutoffOf fld * cutoffOf fld)) as [M|M];
      try (destruct (isDummy (part a)), (isDummy (part b)); reflexivity); exfalso; [apply M, D, L|apply L, D, M].
  Qed.
  Lemma inter_sym a b : inter b a = inter a b.
  Proof.
    unfold interacting. rewrite (distance_sym (ppos (part b))). rewrite (andb_comm (negb (isDummy (part b)))). reflexivity.
  Qed.

  (** Two sites. *)
  Lemma kern_sites a s b t : In s (sitesIn a) -> In t (sitesIn b) -> fst (put a s) <> fst (put b t) ->
    kern part mixing shifted libraryProps constProps true a (turned a s) b (turned b t) =
    (siteForce fld (put a s, put b t), 6 * siteEnergy fld (put a s, put b t)).
  Proof.
    intros Hs Ht N.
    assert (D : disp part a (turned a s) b (turned b t) = rsub (fst (put a s)) (fst (put b t))) by (unfold disp, turned, put; r3).
    unfold kern. rewrite D. cbn [turned snd].
    pose proof (sitesProps _ _ _ _ _ _ _ _ _ _ Hset a b (snd s) (snd t) (in_map snd _ _ Hs) (in_map snd _ _ Ht)) as P. cbn in P.
    unfold siteProps. cbv zeta.
    destruct (if mixing then libraryProps (snd s) (snd t) else constProps) as [e24 s2 s6]. cbn [epsilon24 sigmaSquared shift6] in *.
    destruct P as [-> [-> P3]].
    assert (E : (if shifted then s6 else 0) = 6 * shiftOf fld (snd s) (snd t)).
    { destruct shifted; [exact P3|rewrite P3; ring]. }
    rewrite E. unfold siteForce, siteEnergy. cbn [fst snd].
    change (snd (put a s)) with (snd s). change (snd (put b t)) with (snd t).
    rewrite <- (kernel_force _ _ (6 * shiftOf fld (snd s) (snd t)) _ _ N), <- (kernel_energy _ _ _ _ _ N).
    unfold siteKernel, ljKernel. cbn [fst snd epsilon24 sigmaSquared shift6]. f_equal; [f_equal; ring|ring].
  Qed.

  Lemma siteForce_opp p q : siteForce fld (q, p) = neg (siteForce fld (p, q)).
  Proof.
    unfold siteForce. cbn [fst snd]. destruct (sitesSymmetric _ _ _ _ _ _ _ _ _ _ Hset (snd p) (snd q)) as [-> [-> _]]. apply force_opp.
  Qed.

  Definition weight (n3 : bool) (a b : A) : R :=
    if globals then (if isOwned (part a) then 1 else 0) + (if n3 && isOwned (part b) then 1 else 0) else 0.

  Section Two.
    Variables (n3 : bool) (a b : A).
    Hypothesis Hi : inter a b = true.
    Hypothesis Hd : sitesApart part quatOf sitesIn fld a b.

    Lemma apart_sites s t : In s (sitesIn a) -> In t (sitesIn b) -> fst (put a s) <> fst (put b t).
    Proof.
      intros Hs Ht. apply (Hd (put a s, put b t)). unfold sitePairs. rewrite Hi. apply in_prod; rewrite sites_put; apply in_map; assumption.
    Qed.

    Lemma unfold_pair {B} (get : @MState A -> B) (sum : list B -> B) :
      (forall l, get (sumS l) = sum (map get l)) ->
      get (pairE n3 a b) = sum (map (fun s => sum (map (fun t => get (eff n3 true a (turned a s) b (turned b t))) (sitesIn b))) (sitesIn a)).
    Proof.
      intros H. unfold pairEffect. rewrite close_inter, Hi, H, map_map. rewrite (sites_rot a), map_map. f_equal. apply map_ext. intros s.
      rewrite H, map_map, sites_rot, map_map. reflexivity.
    Qed.

    Lemma both_placed (f : (R3 * nat) * (R3 * nat) -> R3) : vsum (map f (sitePairs part quatOf sitesIn fld a b)) =
      both (fun s t => f (put a s, put b t)) (sitesIn a) (sitesIn b).
    Proof.
      unfold sitePairs. rewrite Hi, both_prod. unfold both. rewrite !sites_put, map_map. apply vext. intros s _. rewrite map_map. reflexivity.
    Qed.
    Lemma both_placed' (f : (R3 * nat) * (R3 * nat) -> R3) : vsum (map f (sitePairs part quatOf sitesIn fld b a)) =
      both (fun s t => f (put b t, put a s)) (sitesIn a) (sitesIn b).
    Proof.
      unfold sitePairs. rewrite inter_sym, Hi, both_prod. rewrite (both_swap (fun s t => f (put b t, put a s))).
      unfold both. rewrite !sites_put, map_map. apply vext. intros s _. rewrite map_map. reflexivity.
    Qed.

    Lemma when_both (c : bool) (f : R3 * nat -> R3 * nat -> R3) us ts :
      both (fun s t => if c then f s t else rzero) us ts = if c then both f us ts else rzero.
    Proof. destruct c; [reflexivity|apply both_zero]. Qed.

    Lemma pair_force x : mForce (pairE n3 a b) x =
      radd (if same x a then molForce part quatOf sitesIn fld a b else rzero)
           (if n3 && same x b then molForce part quatOf sitesIn fld b a else rzero).
    Proof.
      rewrite (unfold_pair (fun s => mForce s x) vsum (fun l => force_sumS l x)).
      unfold molForce. rewrite both_placed, both_placed', <- !when_both, <- both_add. apply both_ext. intros s t Hs Ht.
      unfold effect. rewrite (kern_sites a s b t Hs Ht (apart_sites s t Hs Ht)). cbn [fst snd].
      rewrite (siteForce_opp (put a s)). destruct n3; cbn [andb addS onSite zeroS sums mForce]; r3.
    Qed.

    Lemma pair_torque x : mTorque (pairE n3 a b) x =
      radd (if same x a then molTorque part quatOf sitesIn fld a b else rzero)
           (if n3 && same x b then molTorque part quatOf sitesIn fld b a else rzero).
    Proof.
      rewrite (unfold_pair (fun s => mTorque s x) vsum (fun l => torque_sumS l x)).
      unfold molTorque. rewrite both_placed, both_placed', <- !when_both, <- both_add. apply both_ext. intros s t Hs Ht.
      unfold effect. rewrite (kern_sites a s b t Hs Ht (apart_sites s t Hs Ht)). cbn [fst snd].
      rewrite (siteForce_opp (put a s)). generalize (siteForce fld (put a s, put b t)). intros f.
      replace (rsub (fst (put a s)) (ppos (part a))) with (fst (turned a s)) by (unfold put, turned; r3).
      replace (rsub (fst (put b t)) (ppos (part b))) with (fst (turned b t)) by (unfold put, turned; r3).
      change vectorProduct with cross.
      destruct n3; cbn [andb addS onSite zeroS sums mTorque]; r3.
    Qed.

    Lemma weight_factor : (if globals then ownershipFactor n3 (isOwned (part a)) (isOwned (part b)) else 0) = weight n3 a b.
    Proof. unfold weight, ownershipFactor. destruct globals, n3, (isOwned (part a)), (isOwned (part b)); cbn; lra. Qed.

    Lemma pair_virial : mVirial (pairE n3 a b) = rscale (molVirial part quatOf sitesIn fld a b) (weight n3 a b).
    Proof.
      rewrite (unfold_pair mVirial vsum virial_sumS).
      unfold molVirial. rewrite both_placed, <- both_scale. apply both_ext. intros s t Hs Ht.
      unfold effect. rewrite (kern_sites a s b t Hs Ht (apart_sites s t Hs Ht)), weight_factor. cbn [fst snd].
      assert (D : disp part a (turned a s) b (turned b t) = rsub (fst (put a s)) (fst (put b t))) by (unfold disp, turned, put; r3).
      rewrite D. destruct n3; cbn [andb addS onSite zeroS sums mVirial]; r3.
    Qed.

    Lemma pair_pot : mPot (pairE n3 a b) = 6 * molEnergy part quatOf sitesIn fld a b * weight n3 a b.
    Proof.
      rewrite (unfold_pair mPot rsum pot_sumS).
      unfold molEnergy, sitePairs. rewrite Hi, rboth_prod, !sites_put, map_map.
      rewrite (Rmult_comm 6), Rmult_assoc, <- rscaleSum. apply rext. intros s Hs. rewrite map_map, <- rscaleSum. apply rext. intros t Ht.
      unfold effect. rewrite (kern_sites a s b t Hs Ht (apart_sites s t Hs Ht)), weight_factor. cbn [fst snd].
      destruct n3; cbn [andb addS onSite zeroS sums mPot]; ring.
    Qed.
  End Two.

  (** Molecules that do not interact. *)
  Lemma pair_none n3 a b : inter a b = false -> pairE n3 a b = zeroS.
  Proof.
    intros Hi. unfold pairEffect. rewrite close_inter, Hi. apply sumS_zero. intros sa _. apply sumS_zero. intros sb _. apply effect_off.
  Qed.
  Lemma none_pairs a b : inter a b = false -> sitePairs part quatOf sitesIn fld a b = [] /\ sitePairs part quatOf sitesIn fld b a = [].
  Proof. intros H. unfold sitePairs. rewrite (inter_sym a b), H. split; reflexivity. Qed.

  Theorem aos_physics n3 a b s : sitesApart part quatOf sitesIn fld a b ->
    let s' := aos n3 a b s in
    (forall x, mForce s' x = radd (mForce s x)
       (radd (if same x a then molForce part quatOf sitesIn fld a b else rzero)
             (if n3 && same x b then molForce part quatOf sitesIn fld b a else rzero))) /\
    (forall x, mTorque s' x = radd (mTorque s x)
       (radd (if same x a then molTorque part quatOf sitesIn fld a b else rzero)
             (if n3 && same x b then molTorque part quatOf sitesIn fld b a else rzero))) /\
    mVirial s' = radd (mVirial s) (rscale (molVirial part quatOf sitesIn fld a b) (weight n3 a b)) /\
    mPot s' = mPot s + 6 * molEnergy part quatOf sitesIn fld a b * weight n3 a b.
  Proof.
    intros Hd. cbv zeta. rewrite aos_effect. cbn [addS mForce mTorque mVirial mPot].
    destruct (inter a b) eqn:Hi.
    - repeat split; intros; f_equal; auto using pair_force, pair_torque, pair_virial, pair_pot.
    - rewrite (pair_none n3 a b Hi). destruct (none_pairs a b Hi) as [E1 E2].
      unfold molForce, molTorque, molVirial, molEnergy. rewrite E1, E2. cbn [map vsum rsum fold_right zeroS mForce mTorque mVirial mPot].
      repeat split; intros; try (destruct (same x a)); try (destruct (n3 && same x b)); try r3; lra.
  Qed.

  (** Newton's third law. *)
  Lemma apart_sym a b : sitesApart part quatOf sitesIn fld a b -> sitesApart part quatOf sitesIn fld b a.
  Proof.
    intros H st Hst. unfold sitePairs in Hst. rewrite inter_sym in Hst. destruct (inter a b) eqn:E; [|destruct Hst].
    destruct st as [p q]. apply in_prod_iff in Hst as [Hp Hq]. cbn [fst snd]. intros N. apply (H (q, p)).
    - unfold sitePairs. rewrite E. apply in_prod; assumption.
    - cbn. symmetry. exact N.
  Qed.

  Lemma molVirial_sym a b : molVirial part quatOf sitesIn fld b a = molVirial part quatOf sitesIn fld a b.
  Proof.
    unfold molVirial. destruct (inter a b) eqn:Hi.
    - rewrite (both_placed a b Hi), (both_placed' a b Hi). apply both_ext. intros s t _ _. cbn [fst snd].
      rewrite siteForce_opp. generalize (siteForce fld (put a s, put b t)) (fst (put a s)) (fst (put b t)). intros. r3.
    - destruct (none_pairs a b Hi) as [-> ->]. reflexivity.
  Qed.

  Lemma rsum_swap {T U} (f : T -> U -> R) ts us :
    rsum (map (fun t => rsum (map (f t) us)) ts) = rsum (map (fun u => rsum (map (fun t => f t u) ts)) us).
  Proof.
    induction ts as [|t ts IH]; cbn [map].
    - induction us as [|u us IH]; [reflexivity|]. cbn [map]. rewrite rsum_cons, <- IH. cbn. lra.
    - rewrite rsum_cons, IH. clear IH. induction us as [|u us IH]; [cbn; lra|]. cbn [map]. rewrite !rsum_cons, <- IH. lra.
  Qed.
  Lemma siteEnergy_sym p q : siteEnergy fld (q, p) = siteEnergy fld (p, q).
  Proof.
    unfold siteEnergy. cbn [fst snd]. destruct (sitesSymmetric _ _ _ _ _ _ _ _ _ _ Hset (snd p) (snd q)) as [-> [-> ->]].
    rewrite distance_sym. reflexivity.
  Qed.
  Lemma molEnergy_sym a b : molEnergy part quatOf sitesIn fld b a = molEnergy part quatOf sitesIn fld a b.
  Proof.
    unfold molEnergy, sitePairs. rewrite inter_sym. destruct (inter a b); [|reflexivity].
    rewrite !rboth_prod, rsum_swap. apply rext. intros p _. apply rext. intros q _. apply siteEnergy_sym.
  Qed.

  Theorem newton3_twice a b s : sitesApart part quatOf sitesIn fld a b -> aos false b a (aos false a b s) = aos true a b s.
  Proof.
    intros Hd.
    destruct (aos_physics false a b s Hd) as [F1 [T1 [V1 P1]]].
    destruct (aos_physics false b a (aos false a b s) (apart_sym a b Hd)) as [F2 [T2 [V2 P2]]].
    destruct (aos_physics true a b s Hd) as [F3 [T3 [V3 P3]]].
    apply ms_eq.
    - intros x. rewrite F2, F1, F3. cbn [andb]. generalize (molForce part quatOf sitesIn fld a b) (molForce part quatOf sitesIn fld b a).
      intros. destruct (same x a), (same x b); r3.
    - intros x. rewrite T2, T1, T3. cbn [andb]. generalize (molTorque part quatOf sitesIn fld a b) (molTorque part quatOf sitesIn fld b a).
      intros. destruct (same x a), (same x b); r3.
    - rewrite V2, V1, V3, molVirial_sym. unfold weight. generalize (molVirial part quatOf sitesIn fld a b). intros v.
      destruct globals, (isOwned (part a)), (isOwned (part b)); cbn [andb]; r3.
    - rewrite P2, P1, P3, molEnergy_sym. unfold weight. destruct globals, (isOwned (part a)), (isOwned (part b)); cbn [andb]; lra.
  Qed.
End Physics.

(** ** Conservation, for any parameters *)
Section Conservation.
  Context {A : Type}.
  Variable same : A -> A -> bool.
  Hypothesis sameEq : forall x y, same x y = true <-> x = y.
  Variable part : A -> Particle.
  Variable quatOf : A -> quat.
  Variable typeOf : A -> nat.
  Variables (mixing shifted globals : bool) (cutoff2 : R).
  Variable librarySites : nat -> list (R3 * nat).
  Variable libraryProps : nat -> nat -> LJProps.
  Variables (constSites : list R3) (constProps : LJProps).
  Local Notation eff := (effect same part mixing shifted globals libraryProps constProps).
  Local Notation pairE := (pairEffect same part quatOf typeOf mixing shifted globals cutoff2 librarySites libraryProps constSites constProps).

  Variables (a b : A).
  Hypothesis Hne : a <> b.

  Definition totalForce (s : @MState A) : R3 := radd (mForce s a) (mForce s b).
  Definition totalMoment (s : @MState A) : R3 :=
    radd (radd (vectorProduct (ppos (part a)) (mForce s a)) (mTorque s a))
         (radd (vectorProduct (ppos (part b)) (mForce s b)) (mTorque s b)).

  Lemma totalForce_add s t : totalForce (addS s t) = radd (totalForce s) (totalForce t).
  Proof. unfold totalForce, addS. cbn [mForce]. generalize (mForce s a) (mForce s b) (mForce t a) (mForce t b). intros. r3. Qed.
  Lemma totalMoment_add s t : totalMoment (addS s t) = radd (totalMoment s) (totalMoment t).
  Proof.
    unfold totalMoment, addS. cbn [mForce mTorque].
    generalize (mForce s a) (mForce s b) (mForce t a) (mForce t b) (mTorque s a) (mTorque s b) (mTorque t a) (mTorque t b).
    intros. r3.
  Qed.

  Lemma zero_sum (L : @MState A -> R3) (Ladd : forall s t, L (addS s t) = radd (L s) (L t)) (Lzero : L zeroS = rzero)
      {T} (f : T -> @MState A) l : (forall t, L (f t) = rzero) -> L (sumS (map f l)) = rzero.
  Proof.
    intros H. induction l as [|t l IH]; [exact Lzero|]. cbn [map sumS]. rewrite Ladd, H, IH. r3.
  Qed.

  Lemma same_refl x : same x x = true. Proof. apply sameEq. reflexivity. Qed.
  Lemma same_ab : same a b = false /\ same b a = false.
  Proof.
    split; [destruct (same a b) eqn:E|destruct (same b a) eqn:E]; try reflexivity; apply sameEq in E; exfalso; apply Hne; auto.
  Qed.

  Lemma effect_force m sa sb : totalForce (eff true m a sa b sb) = rzero.
  Proof.
    unfold totalForce, effect. destruct same_ab as [E1 E2]. cbn [addS onSite sums mForce]. rewrite !same_refl, E1, E2.
    generalize (fst (kern part mixing shifted libraryProps constProps m a sa b sb)). intros f. r3.
  Qed.
  Lemma effect_moment m sa sb : totalMoment (eff true m a sa b sb) = rzero.
  Proof.
    unfold totalMoment, effect. destruct same_ab as [E1 E2]. cbn [addS onSite sums mForce mTorque]. rewrite !same_refl, E1, E2.
    assert (K : exists c, fst (kern part mixing shifted libraryProps constProps m a sa b sb) = rscale (disp part a sa b sb) c)
      by (eexists; reflexivity).
    destruct K as [c ->]. unfold disp. destruct (ppos (part a)) as [a1 a2 a3], (ppos (part b)) as [b1 b2 b3], (fst sa) as [c1 c2 c3], (fst sb) as [d1 d2 d3].
    change vectorProduct with cross. r3.
  Qed.

  Theorem aos_conserves s :
    let s' := aosFunctor same part quatOf typeOf mixing shifted globals cutoff2 librarySites libraryProps constSites constProps true a b s in
    totalForce s' = totalForce s /\ totalMoment s' = totalMoment s.
  Proof.
    cbv zeta. rewrite aos_effect, totalForce_add, totalMoment_add.
    assert (E1 : totalForce (pairE true a b) = rzero).
    { unfold pairEffect. apply (zero_sum _ totalForce_add); [unfold totalForce; cbn; r3|]. intros sa.
      apply (zero_sum _ totalForce_add); [unfold totalForce; cbn; r3|]. intros sb. apply effect_force. }
    assert (E2 : totalMoment (pairE true a b) = rzero).
    { unfold pairEffect. apply (zero_sum _ totalMoment_add); [unfold totalMoment; cbn; r3|]. intros sa.
      apply (zero_sum _ totalMoment_add); [unfold totalMoment; cbn; r3|]. intros sb. apply effect_moment. }
    rewrite E1, E2. generalize (totalForce s) (totalMoment s). intros. split; r3.
  Qed.
End Conservation.
