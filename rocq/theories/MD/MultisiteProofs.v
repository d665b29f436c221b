(** Proofs about the multi-site functor: the SoA functors do what AoS calls do. *)
From Coq Require Import Reals List ZArith Bool Arith Lia Lra FunctionalExtensionality.
From Verif.Functor Require Import SortModel.
From Verif.Container Require Import IteratorModel ParticleModel.
From Verif.MD Require Import MixingModel LJModel MultisiteModel MultisiteSpec MultisiteSums.
From Verif.Flex Require Import IntegrateProofs QuatModel.
Import ListNotations.
Local Open Scope R_scope.

Lemma nth_of_error {T} (l : list T) k d e : nth_error l k = Some e -> nth k l d = e.
Proof. revert k. induction l as [|x l IH]; intros [|k] H; cbn in *; try discriminate H; [injection H as ->; reflexivity|apply IH; exact H]. Qed.

Lemma map_seq_nth {T U} (h : nat -> U) (f : T -> U) (es : list T) off :
  (forall i e, nth_error es i = Some e -> h (off + i)%nat = f e) -> map h (seq off (length es)) = map f es.
Proof.
  revert off. induction es as [|e es IH]; intros off H; [reflexivity|]. cbn [length seq map]. f_equal.
  - rewrite <- (Nat.add_0_r off). apply H. reflexivity.
  - apply IH. intros i x Hx. rewrite Nat.add_succ_comm. apply H. exact Hx.
Qed.

Section SoA.
  Context {A : Type}.
  Variable same : A -> A -> bool.
  Variable part : A -> Particle.
  Variable quatOf : A -> quat.
  Variable typeOf : A -> nat.
  Variables (mixing shifted globals : bool) (cutoff2 : R).
  Variable librarySites : nat -> list (R3 * nat).
  Variable libraryProps : nat -> nat -> LJProps.
  Variables (constSites : list R3) (constProps : LJProps).

  Local Notation St := (@MState A).
  Local Notation rot := (rotatedSites quatOf typeOf mixing librarySites constSites).
  Local Notation flatv := (flat quatOf typeOf mixing librarySites constSites).
  Local Notation ent := (entry part).
  Local Notation red := (reduced same).
  Local Notation eff := (effect same part mixing shifted globals libraryProps constProps).
  Local Notation pairE := (pairEffect same part quatOf typeOf mixing shifted globals cutoff2 librarySites libraryProps constSites constProps).
  Local Notation aos := (aosFunctor same part quatOf typeOf mixing shifted globals cutoff2 librarySites libraryProps constSites constProps).
  Local Notation mmask := (molMask part cutoff2).

  (** Force and torque of a molecule; local sums. *)
  Definition direct (a : A) (f t : R3) : St :=
    mkMS (fun x => if same x a then f else rzero) (fun x => if same x a then t else rzero) rzero 0.
  Definition gS (g : R3 * R) : St := if globals then mkMS (fun _ => rzero) (fun _ => rzero) (fst g) (snd g) else zeroS.

  Lemma direct_zero a : direct a rzero rzero = zeroS.
  Proof. apply ms_eq; cbn; intros; try (destruct (same x a)); reflexivity. Qed.
  Lemma gS_zero : gS (rzero, 0) = zeroS.
  Proof. unfold gS. destruct globals; reflexivity. Qed.

  Lemma siteMask_all a bs : mixing = true ->
    siteMask part typeOf mixing cutoff2 librarySites a bs = Some (map (fun e => mmask a (fst e)) (flatv bs)).
  Proof.
    intros M. destruct (siteMask part typeOf mixing cutoff2 librarySites a bs) as [mask|] eqn:E.
    - rewrite (mask_flat part quatOf typeOf mixing cutoff2 librarySites constSites a bs mask E). reflexivity.
    - unfold siteMask in E. rewrite M in E. discriminate E.
  Qed.

  (** ** Pairs of views *)
  Section Pair.
    Variables (n3 : bool) (es : list (A * (R3 * nat))) (a : A).
    Let fs := map ent es.
    Let mask := map (fun e => mmask a (fst e)) es.

    Definition tot4 (x : (nat -> R3) * R3 * R3 * (R3 * R)) : St :=
      let '(F, f, t, g) := x in addS (addS (red F 0 es) (direct a f t)) (gS g).

    Lemma pairB_step sa x k e : nth_error es k = Some e ->
      tot4 (pairB mixing shifted globals libraryProps constProps n3 fs mask (fst sa) (radd (fst sa) (ppos (part a))) (snd sa) (isOwned (part a)) x k)
      = addS (tot4 x) (eff n3 (mmask a (fst e)) a sa (fst e) (snd e)).
    Proof.
      intros H. destruct x as [[[F f] t] g]. unfold pairB, tot4.
      assert (H1 : nth k fs noSite = ent e) by (apply nth_of_error; unfold fs; rewrite nth_error_map, H; reflexivity).
      assert (H2 : nth k mask false = mmask a (fst e)) by (apply nth_of_error; unfold mask; rewrite nth_error_map, H; reflexivity).
      rewrite H1, H2. unfold entry. destruct e as [b sb]. cbn [fst snd].
      unfold effect, kern, disp.
      destruct (siteKernel (mmask a b) (siteProps mixing shifted libraryProps constProps (snd sa) (snd sb))
        (rsub (radd (fst sa) (ppos (part a))) (radd (fst sb) (ppos (part b))))) as [fo e6]. cbn [fst snd].
      set (w := ownershipFactor n3 (isOwned (part a)) (isOwned (part b))).
      set (v := rmul (rsub (radd (fst sa) (ppos (part a))) (radd (fst sb) (ppos (part b)))) fo).
      assert (R : red (if n3 then subSite k fo F else F) 0 es =
                  addS (red F 0 es) (if n3 then onSite same b (fst sb) (neg fo) else zeroS)).
      { destruct n3; [|symmetry; apply addS_zero]. rewrite subSite_add.
        exact (reduced_add same F es k (b, sb) (neg fo) H). }
      rewrite R.
      set (rr := red F 0 es). set (oo := if n3 then onSite same b (fst sb) (neg fo) else zeroS).
      assert (D : direct a (radd f fo) (radd t (cross (fst sa) fo)) = addS (direct a f t) (onSite same a (fst sa) fo)).
      { apply ms_eq; cbn; intros; try (destruct (same x a)); try r3; lra. }
      assert (G : gS (addSums globals w v e6 g) = addS (gS g) (sums (rscale v (if globals then w else 0)) (e6 * (if globals then w else 0)))).
      { unfold gS, addSums. destruct globals; apply ms_eq; cbn; intros; try r3; lra. }
      rewrite D, G. clearbody rr oo. clear R D G H H1 H2.
      generalize (direct a f t) (onSite same a (fst sa) fo) (gS g)
        (sums (A := A) (rscale v (if globals then w else 0)) (e6 * (if globals then w else 0))).
      intros d o g' u. apply ms_eq; cbn; intros; try r3; lra.
    Qed.

    Lemma pairB_loop sa ks x : (forall k, In k ks -> (k < length es)%nat) ->
      tot4 (fold_left (pairB mixing shifted globals libraryProps constProps n3 fs mask (fst sa) (radd (fst sa) (ppos (part a))) (snd sa) (isOwned (part a))) ks x)
      = addS (tot4 x) (sumS (map (fun k => match nth_error es k with Some e => eff n3 (mmask a (fst e)) a sa (fst e) (snd e) | None => zeroS end) ks)).
    Proof.
      revert x. induction ks as [|k ks IH]; intros x H; cbn [fold_left map sumS].
      - symmetry. apply addS_zero.
      - rewrite IH by (intros j Hj; apply H; right; exact Hj).
        destruct (nth_error es k) as [e|] eqn:E.
        + rewrite (pairB_step sa x k e E). apply addS_assoc.
        + apply nth_error_None in E. specialize (H k (or_introl eq_refl)). lia.
    Qed.

    Lemma pairB_all sa x :
      tot4 (fold_left (pairB mixing shifted globals libraryProps constProps n3 fs mask (fst sa) (radd (fst sa) (ppos (part a))) (snd sa) (isOwned (part a))) (seq 0 (length fs)) x)
      = addS (tot4 x) (sumS (map (fun e => eff n3 (mmask a (fst e)) a sa (fst e) (snd e)) es)).
    Proof.
      unfold fs at 2. rewrite map_length. rewrite pairB_loop by (intros k Hk; apply in_seq in Hk; lia).
      f_equal. f_equal. apply map_seq_nth. intros i e He. cbn [plus]. rewrite He. reflexivity.
    Qed.

    Lemma pairA_all sas x :
      tot4 (fold_left (fun y sa => fold_left (pairB mixing shifted globals libraryProps constProps n3 fs mask (fst sa) (radd (fst sa) (ppos (part a))) (snd sa) (isOwned (part a))) (seq 0 (length fs)) y) sas x)
      = addS (tot4 x) (sumS (map (fun sa => sumS (map (fun e => eff n3 (mmask a (fst e)) a sa (fst e) (snd e)) es)) sas)).
    Proof.
      revert x. induction sas as [|sa sas IH]; intros x; cbn [fold_left map sumS].
      - symmetry. apply addS_zero.
      - rewrite IH, pairB_all. apply addS_assoc.
    Qed.
  End Pair.

  (** All sites of one molecule with all sites of a view. *)
  Lemma view_effect n3 a bs : isDummy (part a) = false ->
    sumS (map (fun sa => sumS (map (fun e => eff n3 (mmask a (fst e)) a sa (fst e) (snd e)) (flatv bs))) (rot a))
    = sumS (map (pairE n3 a) bs).
  Proof.
    intros D.
    transitivity (sumS (map (fun sa => sumS (map (fun b => sumS (map (fun sb => eff n3 (close part cutoff2 a b) a sa b sb) (rot b))) bs)) (rot a))).
    - apply sumS_ext. intros sa _. unfold flat. rewrite sumS_flat. apply sumS_ext. intros b _.
      rewrite map_map. cbn [fst snd]. unfold close. rewrite D. reflexivity.
    - rewrite sumS_swap. reflexivity.
  Qed.

  Lemma dummy_effect n3 a b : isDummy (part a) = true -> pairE n3 a b = zeroS.
  Proof.
    intros D. unfold pairEffect, close. rewrite D. cbn [negb andb]. apply sumS_zero. intros sa _. apply sumS_zero. intros sb _. apply effect_off.
  Qed.

  Definition full (es : list (A * (R3 * nat))) (x : (nat -> R3) * (R3 * R) * St) : St :=
    let '(F, g, s) := x in addS (addS (red F 0 es) (gS g)) s.

  Lemma pairMol_full n3 bs a x : mixing = true -> exists x',
    pairMol same part quatOf typeOf mixing shifted globals cutoff2 librarySites libraryProps constSites constProps n3
      (fillSites part quatOf typeOf mixing librarySites constSites bs) bs a x = Some x' /\
    full (flatv bs) x' = addS (full (flatv bs) x) (sumS (map (pairE n3 a) bs)) /\
    (n3 = false -> fst (fst x') = fst (fst x)).
  Proof.
    intros M. unfold pairMol. destruct (isDummy (part a)) eqn:D.
    { exists x. split; [reflexivity|]. split; [|reflexivity].
      rewrite sumS_zero by (intros b _; apply dummy_effect; exact D). symmetry. apply addS_zero. }
    rewrite (siteMask_all a bs M). rewrite fill_flat. destruct x as [[F g] s].
    match goal with |- context [fold_left ?h (rot a) (F, rzero, rzero, g)] =>
      pose proof (pairA_all n3 (flatv bs) a (rot a) (F, rzero, rzero, g)) as T;
      assert (N : n3 = false -> forall sas y, fst (fst (fst (fold_left h sas y))) = fst (fst (fst y)));
      [|destruct (fold_left h (rot a) (F, rzero, rzero, g)) as [[[F' f'] t'] g'] eqn:E]
    end.
    { intros ->. induction sas as [|sa sas IH]; intros y; [reflexivity|]. cbn [fold_left]. rewrite IH.
      generalize (seq 0 (length (map ent (flatv bs)))). intros ks. revert y. induction ks as [|k ks IHk]; intros y; [reflexivity|].
      cbn [fold_left]. rewrite IHk. destruct y as [[[F0 f0] t0] g0]. unfold pairB.
      destruct (nth k (map ent (flatv bs)) noSite) as [[pB tB] oB].
      destruct (siteKernel _ _ _) as [fo e6]. reflexivity. }
    eexists. split; [reflexivity|]. split.
    - cbn [full]. rewrite <- (view_effect n3 a bs D).
      assert (T' : tot4 (flatv bs) a (F', f', t', g') = addS (tot4 (flatv bs) a (F, rzero, rzero, g))
        (sumS (map (fun sa => sumS (map (fun e => eff n3 (mmask a (fst e)) a sa (fst e) (snd e)) (flatv bs))) (rot a)))).
      { exact T. }
      clear T E N. unfold tot4 in T'. rewrite direct_zero, addS_zero in T'.
      replace (mkMS (addAt same a f' (mForce s)) (addAt same a t' (mTorque s)) (mVirial s) (mPot s)) with (addS s (direct a f' t'))
        by (destruct s; apply ms_eq; unfold addAt; cbn; intros; try (destruct (same x a)); try r3; lra).
      rewrite <- addS_assoc. rewrite (addS_swap _ s). rewrite (addS_swap _ (gS g')). rewrite T'. apply addS_swap.
    - intros H. cbn [fst]. specialize (N H (rot a) (F, rzero, rzero, g)). rewrite E in N. exact N.
  Qed.

  Lemma pairMols_full n3 bs : mixing = true -> forall as_ x, exists x',
    pairMols same part quatOf typeOf mixing shifted globals cutoff2 librarySites libraryProps constSites constProps n3
      (fillSites part quatOf typeOf mixing librarySites constSites bs) bs as_ x = Some x' /\
    full (flatv bs) x' = addS (full (flatv bs) x) (sumS (map (fun a => sumS (map (pairE n3 a) bs)) as_)).
  Proof.
    intros M. induction as_ as [|a as_ IH]; intros x; cbn [pairMols map sumS].
    - exists x. split; [reflexivity|symmetry; apply addS_zero].
    - destruct (pairMol_full n3 bs a x M) as [x1 [-> [H1 _]]].
      destruct (IH x1) as [x2 [-> H2]]. exists x2. split; [reflexivity|]. rewrite H2, H1. apply addS_assoc.
  Qed.

  Lemma finish es F g s : addThreadSums globals g (addS s (red F 0 es)) = full es (F, g, s).
  Proof.
    cbn [full]. unfold addThreadSums, addGlobals, gS.
    destruct globals; [|rewrite addS_zero; apply addS_comm].
    apply ms_eq; cbn; intros; try r3; lra.
  Qed.

  Lemma calls_effect (cs : list (A * A)) n3 s :
    fold_left (fun s c => aos n3 (fst c) (snd c) s) cs s = addS s (sumS (map (fun c => pairE n3 (fst c) (snd c)) cs)).
  Proof. apply fold_addS. intros s' c. apply aos_effect. Qed.

  Lemma full_start es s : full es (fun _ => rzero, (rzero, 0), s) = s.
  Proof. cbn [full]. rewrite reduced_zero, gS_zero, addS_zero, addS_comm. apply addS_zero. Qed.

  Theorem soa_pair n3 va vb s : mixing = true ->
    soaFunctorPair same part quatOf typeOf mixing shifted globals cutoff2 librarySites libraryProps constSites constProps n3 va vb s
    = Some (fold_left (fun s c => aos n3 (fst c) (snd c) s) (list_prod va vb) s).
  Proof.
    intros M. rewrite calls_effect.
    assert (E : sumS (map (fun c => pairE n3 (fst c) (snd c)) (list_prod va vb)) = sumS (map (fun a => sumS (map (pairE n3 a) vb)) va)).
    { induction va as [|a va IH]; [reflexivity|]. cbn [list_prod map sumS]. rewrite map_app, sumS_app, IH, map_map. reflexivity. }
    rewrite E.
    unfold soaFunctorPair. destruct va as [|a va].
    { cbn [map sumS]. rewrite addS_zero. reflexivity. }
    destruct vb as [|b vb].
    { rewrite sumS_zero by reflexivity. rewrite addS_zero. reflexivity. }
    destruct (pairMols_full n3 (b :: vb) M (a :: va) (fun _ => rzero, (rzero, 0), s)) as [[[F g] s'] [-> H]].
    rewrite reduceMols_reduced, finish, H, full_start. reflexivity.
  Qed.

  Theorem soa_verlet n3 a bs s : mixing = true ->
    soaFunctorVerlet same part quatOf typeOf mixing shifted globals cutoff2 librarySites libraryProps constSites constProps n3 a bs s
    = Some (fold_left (fun s b => aos n3 a b s) bs s).
  Proof.
    intros M. rewrite (fold_addS _ (pairE n3 a) bs s) by (intros; apply aos_effect).
    unfold soaFunctorVerlet. destruct bs as [|b bs]; [cbn [map sumS]; rewrite addS_zero; reflexivity|].
    destruct (isDummy (part a)) eqn:D.
    { rewrite sumS_zero by (intros c _; apply dummy_effect; exact D). rewrite addS_zero. reflexivity. }
    rewrite M at 1. cbn [negb].
    destruct (pairMol_full n3 (b :: bs) a (fun _ => rzero, (rzero, 0), s) M) as [[[F g] s'] [-> [H N]]].
    f_equal. rewrite full_start in H. rewrite <- H. destruct n3.
    - rewrite reduceMols_reduced, finish. reflexivity.
    - specialize (N eq_refl). cbn [fst] in N. subst F. cbn [full]. rewrite reduced_zero.
      unfold addThreadSums, addGlobals, gS. destruct globals; apply ms_eq; cbn; intros; try r3; lra.
  Qed.

  (** ** One view *)
  Section Single.
    Variables (pre : list (A * (R3 * nat))) (a : A) (rest : list A).
    Hypothesis live : isDummy (part a) = false.
    Let es := pre ++ map (pair a) (rot a) ++ flatv rest.
    Let fs := map ent es.
    Let mask := map (fun e => mmask a (fst e)) (flatv rest).
    Let iB := (length pre + length (rot a))%nat.

    Definition tot3 (sa : R3 * nat) (x : (nat -> R3) * R3 * (R3 * R)) : St :=
      let '(F, f, g) := x in addS (addS (red F 0 es) (onSite same a (fst sa) f)) (gS g).
    Definition tot2 (x : (nat -> R3) * (R3 * R)) : St := addS (red (fst x) 0 es) (gS (snd x)).

    Lemma later k : nth_error es (k + iB) = nth_error (flatv rest) k.
    Proof.
      unfold es, iB. rewrite nth_error_app2 by lia. rewrite nth_error_app2 by (rewrite map_length; lia).
      rewrite map_length. f_equal. lia.
    Qed.

    Lemma own_site i sa : nth_error (rot a) i = Some sa -> nth_error es (length pre + i) = Some (a, sa).
    Proof.
      intros H. unfold es. rewrite nth_error_app2 by lia. replace (length pre + i - length pre)%nat with i by lia.
      rewrite nth_error_app1; [rewrite nth_error_map, H; reflexivity|].
      rewrite map_length. apply nth_error_Some. rewrite H. discriminate.
    Qed.

    Lemma singleB_step sa x k e : nth_error (flatv rest) k = Some e ->
      tot3 sa (singleB mixing shifted globals libraryProps constProps fs mask iB (radd (fst sa) (ppos (part a))) (snd sa) (isOwned (part a)) x k)
      = addS (tot3 sa x) (eff true (mmask a (fst e)) a sa (fst e) (snd e)).
    Proof.
      intros H. destruct x as [[F f] g]. unfold singleB, tot3.
      assert (H0 : nth_error es (k + iB) = Some e) by (rewrite later; exact H).
      assert (H1 : nth (k + iB) fs noSite = ent e) by (apply nth_of_error; unfold fs; rewrite nth_error_map, H0; reflexivity).
      assert (H2 : nth k mask false = mmask a (fst e)) by (apply nth_of_error; unfold mask; rewrite nth_error_map, H; reflexivity).
      rewrite H1, H2. unfold entry. destruct e as [b sb]. cbn [fst snd].
      unfold effect, kern, disp.
      destruct (siteKernel (mmask a b) (siteProps mixing shifted libraryProps constProps (snd sa) (snd sb))
        (rsub (radd (fst sa) (ppos (part a))) (radd (fst sb) (ppos (part b))))) as [fo e6]. cbn [fst snd].
      set (w := ownershipFactor true (isOwned (part a)) (isOwned (part b))).
      set (v := rmul (rsub (radd (fst sa) (ppos (part a))) (radd (fst sb) (ppos (part b)))) fo).
      rewrite subSite_add, (reduced_add same F es (k + iB) (b, sb) (neg fo) H0). cbn [fst snd].
      rewrite onSite_add.
      assert (G : gS (addSums globals w v e6 g) = addS (gS g) (sums (rscale v (if globals then w else 0)) (e6 * (if globals then w else 0)))).
      { unfold gS, addSums. destruct globals; apply ms_eq; cbn; intros; try r3; lra. }
      rewrite G. clear G H H0 H1 H2.
      generalize (red F 0 es) (onSite same b (fst sb) (neg fo)) (onSite same a (fst sa) f) (onSite same a (fst sa) fo) (gS g)
        (sums (A := A) (rscale v (if globals then w else 0)) (e6 * (if globals then w else 0))).
      intros rr oo d o g' u. apply ms_eq; cbn; intros; try r3; lra.
    Qed.

    Lemma singleB_loop sa ks x : (forall k, In k ks -> (k < length (flatv rest))%nat) ->
      tot3 sa (fold_left (singleB mixing shifted globals libraryProps constProps fs mask iB (radd (fst sa) (ppos (part a))) (snd sa) (isOwned (part a))) ks x)
      = addS (tot3 sa x) (sumS (map (fun k => match nth_error (flatv rest) k with Some e => eff true (mmask a (fst e)) a sa (fst e) (snd e) | None => zeroS end) ks)).
    Proof.
      revert x. induction ks as [|k ks IH]; intros x H; cbn [fold_left map sumS].
      - symmetry. apply addS_zero.
      - rewrite IH by (intros j Hj; apply H; right; exact Hj).
        destruct (nth_error (flatv rest) k) as [e|] eqn:E.
        + rewrite (singleB_step sa x k e E). apply addS_assoc.
        + apply nth_error_None in E. specialize (H k (or_introl eq_refl)). lia.
    Qed.

    Lemma count_later : (length fs - iB)%nat = length (flatv rest).
    Proof. unfold fs, es, iB. rewrite map_length, !app_length, map_length. lia. Qed.

    Lemma singleA_step i sa x : nth_error (rot a) i = Some sa ->
      tot2 (singleA mixing shifted globals libraryProps constProps fs mask iB (length fs - iB) (isOwned (part a)) x (length pre + i))
      = addS (tot2 x) (sumS (map (fun e => eff true (mmask a (fst e)) a sa (fst e) (snd e)) (flatv rest))).
    Proof.
      intros H. pose proof (own_site i sa H) as E. unfold singleA.
      assert (H1 : nth (length pre + i) fs noSite = ent (a, sa)) by (apply nth_of_error; unfold fs; rewrite nth_error_map, E; reflexivity).
      rewrite H1. unfold entry. cbn [fst snd]. rewrite count_later.
      pose proof (singleB_loop sa (seq 0 (length (flatv rest))) (fst x, rzero, snd x)) as T.
      destruct (fold_left _ (seq 0 (length (flatv rest))) (fst x, rzero, snd x)) as [[F' f'] g'].
      specialize (T (fun k Hk => proj2 (proj1 (in_seq _ _ _) Hk))).
      unfold tot3 in T. rewrite onSite_zero, addS_zero in T.
      unfold tot2 at 1. cbn [fst snd]. rewrite (reduced_add same F' es _ (a, sa) f' E). cbn [fst snd]. rewrite T.
      unfold tot2. f_equal. f_equal. apply map_seq_nth. intros j e He. cbn [plus]. rewrite He. reflexivity.
    Qed.

    Lemma singleA_loop sas : forall i x, (forall j sa, nth_error sas j = Some sa -> nth_error (rot a) (i + j) = Some sa) ->
      tot2 (fold_left (singleA mixing shifted globals libraryProps constProps fs mask iB (length fs - iB) (isOwned (part a))) (seq (length pre + i) (length sas)) x)
      = addS (tot2 x) (sumS (map (fun sa => sumS (map (fun e => eff true (mmask a (fst e)) a sa (fst e) (snd e)) (flatv rest))) sas)).
    Proof.
      induction sas as [|sa sas IH]; intros i x H; cbn [length seq fold_left map sumS].
      - symmetry. apply addS_zero.
      - rewrite <- Nat.add_succ_r. rewrite IH.
        + rewrite (singleA_step i sa x); [apply addS_assoc|]. rewrite <- (Nat.add_0_r i). apply H. reflexivity.
        + intros j t Ht. rewrite Nat.add_succ_comm. apply H. exact Ht.
    Qed.

    Lemma single_mol x :
      tot2 (fold_left (singleA mixing shifted globals libraryProps constProps fs mask iB (length fs - iB) (isOwned (part a))) (seq (length pre) (length (rot a))) x)
      = addS (tot2 x) (sumS (map (pairE true a) rest)).
    Proof.
      rewrite <- (view_effect true a rest live).
      pose proof (singleA_loop (rot a) 0 x) as T. rewrite Nat.add_0_r in T. apply T. intros j sa Hj. exact Hj.
    Qed.
  End Single.

  Lemma singleMols_total : mixing = true -> forall view pre x, exists x',
    singleMols part typeOf mixing shifted globals cutoff2 librarySites libraryProps constSites constProps
      (map ent (pre ++ flatv view)) (length pre) view x = Some x' /\
    addS (red (fst x') 0 (pre ++ flatv view)) (gS (snd x')) =
    addS (addS (red (fst x) 0 (pre ++ flatv view)) (gS (snd x))) (sumS (map (fun c => pairE true (fst c) (snd c)) (pairsOf view))).
  Proof.
    intros M. induction view as [|a view IH]; intros pre x; cbn [singleMols pairsOf].
    - exists x. split; [reflexivity|]. symmetry. apply addS_zero.
    - assert (L : (length pre + length (sitesOf typeOf mixing librarySites constSites a))%nat = length (pre ++ map (pair a) (rot a))).
      { rewrite app_length, map_length. f_equal. unfold rotatedSites. symmetry. apply map_length. }
      assert (P : pre ++ flatv (a :: view) = (pre ++ map (pair a) (rot a)) ++ flatv view).
      { cbn [flat flat_map]. rewrite <- app_assoc. reflexivity. }
      rewrite (map_app _ (map (pair a) view) (pairsOf view)), sumS_app, (map_map (pair a)). cbn [fst snd].
      destruct (isDummy (part a)) eqn:D.
      + rewrite L, P. destruct (IH (pre ++ map (pair a) (rot a)) x) as [x' [-> H]]. exists x'. split; [reflexivity|].
        rewrite H. rewrite (sumS_zero _ view) by (intros b _; apply dummy_effect; exact D).
        rewrite (addS_comm zeroS), addS_zero. reflexivity.
      + rewrite (siteMask_all a view M).
        pose proof (single_mol pre a view D x) as T. unfold tot2 in T.
        assert (P' : pre ++ flatv (a :: view) = pre ++ map (pair a) (rot a) ++ flatv view) by reflexivity.
        rewrite P'.
        assert (LS : length (sitesOf typeOf mixing librarySites constSites a) = length (rot a)) by (unfold rotatedSites; symmetry; apply map_length).
        rewrite LS in *.
        match goal with |- context [fold_left ?h ?ks x] => set (x1 := fold_left h ks x) in * end.
        clearbody x1. rewrite L. rewrite (app_assoc pre) in *.
        destruct (IH (pre ++ map (pair a) (rot a)) x1) as [x' [H0 H]].
        exists x'. split; [exact H0|].
        rewrite H, T. apply addS_assoc.
  Qed.

  Theorem soa_single view s : mixing = true ->
    soaFunctorSingle same part quatOf typeOf mixing shifted globals cutoff2 librarySites libraryProps constSites constProps view s
    = Some (fold_left (fun s c => aos true (fst c) (snd c) s) (pairsOf view) s).
  Proof.
    intros M. rewrite calls_effect. unfold soaFunctorSingle. destruct view as [|a view]; [cbn [pairsOf map sumS]; rewrite addS_zero; reflexivity|].
    rewrite fill_flat.
    destruct (singleMols_total M (a :: view) [] (fun _ => rzero, (rzero, 0))) as [[F g] [H0 H]]. cbn [app length] in H0, H.
    rewrite H0. cbn [fst snd] in H. rewrite reduceMols_reduced, finish. cbn [full]. rewrite H, reduced_zero, gS_zero, addS_zero.
    f_equal. rewrite (addS_comm zeroS), addS_zero. apply addS_comm.
  Qed.
End SoA.
