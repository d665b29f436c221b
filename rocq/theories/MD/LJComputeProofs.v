(** The Lennard-Jones forces after an interaction computation. *)
From Coq Require Import Reals Lra List ZArith Bool Arith Lia Permutation.
From Verif.Base Require Import OptionM.
From Verif.Functor Require Import CellFunctorModel SortModel.
From Verif.Container Require Import IteratorModel IteratorLemmas ParticleModel.
From Verif.Logic Require Import HandlerModel RemainderModel RemainderMembers ComputeModel.
From Verif.MD Require Import MixingModel LJModel LJSpec LJProofs LJPhysics LJTheorem LJComputeModel LJComputeSpec.
Import ListNotations.
Local Open Scope R_scope.

(** * Sums *)
Lemma vsum_perm l1 l2 : Permutation l1 l2 -> vsum l1 = vsum l2.
Proof.
  induction 1 as [|x l1 l2 _ IH|x y l|l1 l2 l3 _ IH1 _ IH2]; [reflexivity| | |congruence].
  - change (radd x (vsum l1) = radd x (vsum l2)). now rewrite IH.
  - change (radd y (radd x (vsum l)) = radd x (radd y (vsum l))). rewrite !radd_assoc. f_equal. apply radd_comm.
Qed.
Lemma rsum_perm l1 l2 : Permutation l1 l2 -> rsum l1 = rsum l2.
Proof.
  induction 1 as [|x l1 l2 _ IH|x y l|l1 l2 l3 _ IH1 _ IH2]; [reflexivity| | |congruence].
  - change (x + rsum l1 = x + rsum l2). now rewrite IH.
  - change (y + (x + rsum l) = x + (y + rsum l)). ring.
Qed.
Lemma vsum_filter {X} (g : X -> R3) (nz : X -> bool) l : (forall x, nz x = false -> g x = rzero) -> vsum (map g l) = vsum (map g (filter nz l)).
Proof.
  intros H. induction l as [|x l IH]; [reflexivity|]. change (radd (g x) (vsum (map g l)) = vsum (map g (filter nz (x :: l)))). rewrite IH.
  cbn [filter]. destruct (nz x) eqn:E; [reflexivity|]. rewrite (H x E). apply radd_zero_l.
Qed.
Lemma rsum_filter {X} (g : X -> R) (nz : X -> bool) l : (forall x, nz x = false -> g x = 0) -> rsum (map g l) = rsum (map g (filter nz l)).
Proof.
  intros H. induction l as [|x l IH]; [reflexivity|]. change (g x + rsum (map g l) = rsum (map g (filter nz (x :: l)))). rewrite IH.
  cbn [filter]. destruct (nz x) eqn:E; [reflexivity|]. rewrite (H x E). ring.
Qed.
Lemma same_members {X} (nz : X -> bool) l1 l2 : NoDup (filter nz l1) -> NoDup (filter nz l2) ->
  (forall x, nz x = true -> In x l1 <-> In x l2) -> Permutation (filter nz l1) (filter nz l2).
Proof.
  intros N1 N2 H. apply NoDup_Permutation; [exact N1|exact N2|]. intros x. rewrite !filter_In. split; intros (X1 & X2); (split; [apply (H x X2), X1|exact X2]).
Qed.
Lemma vsum_members {X} (g : X -> R3) nz l1 l2 : (forall x, nz x = false -> g x = rzero) -> NoDup (filter nz l1) -> NoDup (filter nz l2) ->
  (forall x, nz x = true -> In x l1 <-> In x l2) -> vsum (map g l1) = vsum (map g l2).
Proof. intros Z N1 N2 H. rewrite (vsum_filter g nz l1 Z), (vsum_filter g nz l2 Z). apply vsum_perm, Permutation_map, same_members; assumption. Qed.
Lemma rsum_members {X} (g : X -> R) nz l1 l2 : (forall x, nz x = false -> g x = 0) -> NoDup (filter nz l1) -> NoDup (filter nz l2) ->
  (forall x, nz x = true -> In x l1 <-> In x l2) -> rsum (map g l1) = rsum (map g l2).
Proof. intros Z N1 N2 H. rewrite (rsum_filter g nz l1 Z), (rsum_filter g nz l2 Z). apply rsum_perm, Permutation_map, same_members; assumption. Qed.

(** The sum over the threads after one of them changed. *)
Lemma rsum_update {X} (f : X -> R) (th : nat -> X) k s : forall n a, (a <= k < a + n)%nat ->
  rsum (map (fun i => f (if Nat.eqb i k then s else th i)) (seq a n)) = rsum (map (fun i => f (th i)) (seq a n)) + (f s - f (th k)).
Proof.
  assert (Out : forall n a, (k < a)%nat -> rsum (map (fun i => f (if Nat.eqb i k then s else th i)) (seq a n)) = rsum (map (fun i => f (th i)) (seq a n))).
  { induction n as [|n IH]; intros a H; [reflexivity|]. cbn [seq map].
    change (f (if Nat.eqb a k then s else th a) + rsum (map (fun i => f (if Nat.eqb i k then s else th i)) (seq (S a) n)) = f (th a) + rsum (map (fun i => f (th i)) (seq (S a) n))).
    rewrite IH by lia. destruct (Nat.eqb_spec a k); [lia|reflexivity]. }
  induction n as [|n IH]; intros a H; [lia|]. cbn [seq map].
  change (f (if Nat.eqb a k then s else th a) + rsum (map (fun i => f (if Nat.eqb i k then s else th i)) (seq (S a) n)) = f (th a) + rsum (map (fun i => f (th i)) (seq (S a) n)) + (f s - f (th k))).
  destruct (Nat.eqb_spec a k) as [->|Q]; [rewrite Out by lia; ring|rewrite IH by lia; ring].
Qed.
Lemma ssum_pot l : potentialSum (ssum l) = rsum (map potentialSum l).
Proof. induction l as [|a l IH]; [reflexivity|]. change (potentialSum a + potentialSum (ssum l) = potentialSum a + rsum (map potentialSum l)). now rewrite IH. Qed.
Lemma ssum_vir l : virialSum (ssum l) = mkR3 (rsum (map (fun s => rx (virialSum s)) l)) (rsum (map (fun s => ry (virialSum s)) l)) (rsum (map (fun s => rz (virialSum s)) l)).
Proof. induction l as [|a l IH]; [reflexivity|]. change (radd (virialSum a) (virialSum (ssum l)) = radd (virialSum a) (mkR3 (rsum (map (fun s => rx (virialSum s)) l)) (rsum (map (fun s => ry (virialSum s)) l)) (rsum (map (fun s => rz (virialSum s)) l)))). now rewrite IH. Qed.
Lemma ssum_update th k s n : (k < n)%nat ->
  potentialSum (ssum (map (fun i => if Nat.eqb i k then s else th i) (seq 0 n))) = potentialSum (ssum (map th (seq 0 n))) + (potentialSum s - potentialSum (th k)) /\
  virialSum (ssum (map (fun i => if Nat.eqb i k then s else th i) (seq 0 n))) = radd (virialSum (ssum (map th (seq 0 n)))) (rsub (virialSum s) (virialSum (th k))).
Proof.
  intros H. rewrite !ssum_pot, !ssum_vir, !map_map. split.
  - apply (rsum_update potentialSum); lia.
  - unfold radd, rsub. cbn [rx ry rz]. f_equal.
    + apply (rsum_update (fun s => rx (virialSum s))); lia.
    + apply (rsum_update (fun s => ry (virialSum s))); lia.
    + apply (rsum_update (fun s => rz (virialSum s))); lia.
Qed.

(** * One call *)
Section Calls.
  Variable same : Particle -> Particle -> bool.
  Hypothesis Eq : forall x y, same x y = true <-> x = y.
  Variable typeId : Particle -> nat.
  Variables (cfg : LJConfig) (fld : Field) (known : nat -> Prop).
  Hypothesis Hset : setUp cfg fld known.
  Notation part := (fun p : Particle => p).
  Notation forcesOn := (LJSpec.forcesOn part typeId fld same).
  Notation ownedEnergy := (LJSpec.ownedEnergy part typeId fld).
  Notation ownedVirial := (LJSpec.ownedVirial part typeId fld).

  Definition good (c : RemainderModel.Call) : Prop :=
    match c with
    | AoSFunctor i j _ => isDummy i = false -> isDummy j = false -> known (typeId i) /\ known (typeId j) /\ ppos i <> ppos j
    | SoAFunctorSingle l _ => (forall p, In p l -> isDummy p = false /\ known (typeId p)) /\ ForallOrdPairs (separate part) l
    | SoAFunctorPair a b _ => (forall p, In p (a ++ b) -> isDummy p = false /\ known (typeId p)) /\ forall i j, In i a -> In j b -> separate part i j
    end.

  Lemma forcesOn_perm a l1 l2 : Permutation l1 l2 -> forcesOn a l1 = forcesOn a l2.
  Proof. intros P. unfold LJSpec.forcesOn. apply vsum_perm, Permutation_map, filter_perm, P. Qed.
  Lemma ownedEnergy_perm l1 l2 : Permutation l1 l2 -> ownedEnergy l1 = ownedEnergy l2.
  Proof. intros P. unfold LJSpec.ownedEnergy. apply rsum_perm, Permutation_map, filter_perm, P. Qed.
  Lemma ownedVirial_perm l1 l2 : Permutation l1 l2 -> ownedVirial l1 = ownedVirial l2.
  Proof. intros P. unfold LJSpec.ownedVirial. apply vsum_perm, Permutation_map, filter_perm, P. Qed.

  (** The effect of the forces between pairs. *)
  Definition effect (pairs : list (Particle * Particle)) (s s' : LJModel.State Particle) : Prop :=
    (forall a, forceAt s' a = radd (forceAt s a) (forcesOn a pairs)) /\
    (calcGlobals cfg = true -> potentialSum (sums s') = potentialSum (sums s) + 6 * ownedEnergy pairs /\
       virialSum (sums s') = radd (virialSum (sums s)) (ownedVirial pairs)).
  Lemma effect_perm l1 l2 s s' : Permutation l1 l2 -> effect l1 s s' -> effect l2 s s'.
  Proof.
    intros P (F & G). split.
    - intros a. rewrite F. f_equal. apply forcesOn_perm, P.
    - intros C. destruct (G C) as (G1 & G2). rewrite <- (ownedEnergy_perm _ _ P), <- (ownedVirial_perm _ _ P). auto.
  Qed.
  Lemma aos_effect cs s : (forall c, In c cs -> known (typeId (fstP c)) /\ known (typeId (sndP c)) /\ ppos (fstP c) <> ppos (sndP c)) ->
    exists s', aosCalls same part typeId cfg cs s = Some s' /\ effect (flat_map added cs) s s'.
  Proof.
    intros H. destruct (forces_value same part typeId cfg fld known Hset cs s) as (s' & E & F & G & _).
    - intros c Hc. destruct (H c Hc) as (H1 & H2 & H3). split; [exact H1|]. split; [exact H2|]. intros _. exact H3.
    - exists s'. split; [exact E|]. split; assumption.
  Qed.
  Lemma effect_agree pairs s x y : agree x y -> (exists s', y = Some s' /\ effect pairs s s') -> exists s', x = Some s' /\ effect pairs s s'.
  Proof.
    intros (u & v & -> & -> & F & S) (s' & [= <-] & F' & G'). exists u. split; [reflexivity|]. split; [intros a; rewrite F; apply F'|rewrite S; exact G'].
  Qed.

  Lemma dummy_pair i j : isDummy i = true \/ isDummy j = true -> interacting part fld i j = false.
  Proof. intros [H|H]; unfold interacting; rewrite H; cbn; [reflexivity|]. now rewrite andb_false_r. Qed.
  Lemma dummy_effect i j n s : isDummy i = true \/ isDummy j = true -> effect (forces (AoSFunctor i j n)) s s.
  Proof.
    intros D. assert (Z1 := dummy_pair i j D). assert (Z2 := dummy_pair j i (proj1 (or_comm _ _) D)). split.
    - intros a. replace (forcesOn a (forces (AoSFunctor i j n))) with rzero; [symmetry; apply radd_zero_r|].
      unfold LJSpec.forcesOn. rewrite vsum_filter with (nz := fun pq => interacting part fld (fst pq) (snd pq)) by (intros x X; unfold forceOf; now rewrite X).
      cbn [forces]. destruct n; cbn [filter fst]; destruct (same a i); try destruct (same a j); cbn [filter fst snd]; rewrite ?Z1, ?Z2; reflexivity.
    - intros _. assert (N : filter (fun pq => interacting part fld (fst pq) (snd pq)) (filter (fun pq => isOwned (fst pq)) (forces (AoSFunctor i j n))) = []).
      { cbn [forces]. destruct n; cbn [filter fst]; destruct (isOwned i); try destruct (isOwned j); cbn [filter fst snd]; rewrite ?Z1, ?Z2; reflexivity. }
      replace (ownedEnergy (forces (AoSFunctor i j n))) with 0; [replace (ownedVirial (forces (AoSFunctor i j n))) with rzero|].
      + split; [ring|symmetry; apply radd_zero_r].
      + unfold LJSpec.ownedVirial. rewrite vsum_filter with (nz := fun pq => interacting part fld (fst pq) (snd pq)); [now rewrite N|].
        intros x E. unfold virialOf, forceOf. rewrite E. unfold rmul, rzero. cbn. f_equal; ring.
      + unfold LJSpec.ownedEnergy. rewrite rsum_filter with (nz := fun pq => interacting part fld (fst pq) (snd pq)); [now rewrite N|].
        intros x E. unfold energyOf. now rewrite E.
  Qed.

  (** The calls promise what the functor does. *)
  Lemma single_forces (l : list Particle) : Permutation (flat_map added (soaSingle l)) (ordered l).
  Proof.
    induction l as [|p r IH]; [constructor|]. unfold soaSingle. cbn [laterPairs ordered]. rewrite map_app, flat_map_app, map_map.
    change (map (fun '(p0, q) => mkCall p0 q true) (laterPairs (fun _ l => l) r)) with (soaSingle r). rewrite IH, app_assoc. apply Permutation_app_tail.
    clear IH. induction r as [|q r IH]; [constructor|]. cbn [map flat_map added fstP sndP n3 app]. constructor.
    rewrite IH. apply Permutation_cons_app. reflexivity.
  Qed.
  Lemma pair_forces n (l1 l2 : list Particle) : Permutation (flat_map added (soaPair n l1 l2)) (forces (SoAFunctorPair l1 l2 n)).
  Proof.
    cbn [forces]. destruct n.
    - assert (X : Permutation (list_prod l2 l1) (flat_map (fun p => map (fun q => (q, p)) l2) l1)).
      { induction l2 as [|b l2 IH]; cbn [list_prod map].
        - induction l1 as [|a l1 IH1]; [constructor|exact IH1].
        - rewrite IH. clear IH. induction l1 as [|a l1 IH1]; [constructor|]. cbn [map flat_map app]. constructor.
          rewrite <- IH1, !app_assoc. apply Permutation_app_tail, Permutation_app_comm. }
      rewrite X. clear X. induction l1 as [|a l1 IH]; [constructor|]. unfold soaPair. cbn [flat_map list_prod]. rewrite flat_map_app.
      change (flat_map (fun p => map (fun q => mkCall p q true) l2) l1) with (soaPair true l1 l2). rewrite IH.
      rewrite <- !app_assoc.
      assert (Y : Permutation (flat_map added (map (fun q => mkCall a q true) l2)) (map (pair a) l2 ++ map (fun q => (q, a)) l2)).
      { clear. induction l2 as [|q r IH]; [constructor|]. cbn [map flat_map added fstP sndP n3 app]. constructor. rewrite IH. apply Permutation_cons_app. reflexivity. }
      rewrite Y, <- !app_assoc. apply Permutation_app_head. rewrite !app_assoc. apply Permutation_app_tail, Permutation_app_comm.
    - rewrite app_nil_r. induction l1 as [|a l1 IH]; [constructor|]. unfold soaPair. cbn [flat_map list_prod]. rewrite flat_map_app.
      apply Permutation_app; [|exact IH]. clear. induction l2 as [|q r IH]; [constructor|]. cbn [map flat_map added fstP sndP n3 app]. constructor. exact IH.
  Qed.

  Lemma later_members (Q : Particle -> Particle -> Prop) l : ForallOrdPairs Q l -> forall c, In c (soaSingle l) -> In (fstP c) l /\ In (sndP c) l /\ Q (fstP c) (sndP c).
  Proof.
    intros F c Hc. apply in_map_iff in Hc as ((i, j) & <- & Hc). cbn [fstP sndP]. destruct (later_in l i j Hc) as (H1 & H2).
    split; [exact H1|]. split; [exact H2|]. exact (later_sep Q l i j F Hc).
  Qed.

  Lemma run_value c s : good c -> exists s', runCall same typeId cfg c s = Some s' /\ effect (forces c) s s'.
  Proof.
    destruct c as [i j n|l n|x y n]; cbn [good runCall].
    - intros H. destruct (isDummy i) eqn:Di; [|destruct (isDummy j) eqn:Dj].
      + exists s. split; [unfold aosFunctor; cbn [fstP sndP]; now rewrite Di|apply dummy_effect; now left].
      + exists s. split; [unfold aosFunctor; cbn [fstP sndP]; now rewrite Di, Dj|apply dummy_effect; now right].
      + destruct (H eq_refl eq_refl) as (K1 & K2 & N). destruct (aos_effect [mkCall i j n] s) as (s' & E & F).
        * intros c [<-|[]]. cbn [fstP sndP]. auto.
        * exists s'. split; [|cbn [flat_map] in F; rewrite app_nil_r in F; exact F].
          cbn [aosCalls] in E. destruct (aosFunctor _ _ _ _ _ s) as [s1|]; [exact E|discriminate].
    - intros (H & F). apply (effect_agree (forces (SoAFunctorSingle l n)) s _ _ (single_agree same part typeId cfg fld known Hset l s (fun p Hp => proj2 (H p Hp)) F)).
      destruct (aos_effect (soaSingle l) s) as (s' & E & Q).
      + intros c Hc. destruct (later_members _ l F c Hc) as (H1 & H2 & H3). destruct (H _ H1) as (D1 & K1), (H _ H2) as (D2 & K2). split; [exact K1|]. split; [exact K2|]. apply H3, D1.
      + exists s'. split; [exact E|]. exact (effect_perm _ _ _ _ (single_forces l) Q).
    - intros (H & F). apply (effect_agree (forces (SoAFunctorPair x y n)) s _ _ (pair_agree same part typeId cfg fld known Hset n x y s (fun p Hp => proj2 (H p Hp)) F)).
      destruct (aos_effect (soaPair n x y) s) as (s' & E & Q).
      + intros c Hc. unfold soaPair in Hc. apply in_flat_map in Hc as (p & Hp & Hc). apply in_map_iff in Hc as (q & <- & Hq). cbn [fstP sndP].
        destruct (H p (in_or_app _ _ _ (or_introl Hp))) as (D1 & K1), (H q (in_or_app _ _ _ (or_intror Hq))) as (D2 & K2). split; [exact K1|]. split; [exact K2|]. apply (F p q Hp Hq), D1.
      + exists s'. split; [exact E|]. exact (effect_perm _ _ _ _ (pair_forces n x y) Q).
  Qed.

  (** * A schedule *)
  Lemma schedule_value n : forall sch m th, (forall k c, In (k, c) sch -> (k < n)%nat /\ good c) ->
    exists m' th', runSchedule same typeId cfg sch m th = Some (m', th') /\
      (forall a, m' a = radd (m a) (forcesOn a (flat_map forces (map snd sch)))) /\
      (calcGlobals cfg = true ->
        potentialSum (ssum (map th' (seq 0 n))) = potentialSum (ssum (map th (seq 0 n))) + 6 * ownedEnergy (flat_map forces (map snd sch)) /\
        virialSum (ssum (map th' (seq 0 n))) = radd (virialSum (ssum (map th (seq 0 n)))) (ownedVirial (flat_map forces (map snd sch)))).
  Proof.
    induction sch as [|(k, c) sch IH]; intros m th H.
    - exists m, th. split; [reflexivity|]. split; [intros a; symmetry; apply radd_zero_r|]. intros _. split; [cbn; ring|symmetry; apply radd_zero_r].
    - destruct (H k c (or_introl eq_refl)) as (Hk & Hc). destruct (run_value c (mkState m (th k)) Hc) as (st & E & F & G).
      destruct (IH (forceAt st) (fun i => if Nat.eqb i k then sums st else th i)) as (m' & th' & E' & F' & G'); [intros k' c' Hc'; apply H; right; exact Hc'|].
      exists m', th'. cbn [runSchedule]. rewrite E. split; [exact E'|]. cbn [map flat_map snd].
      destruct (ssum_update th k (sums st) n Hk) as (U1 & U2). split.
      + intros a. rewrite F', F. cbn [forceAt]. rewrite forcesOn_app, radd_assoc. reflexivity.
      + intros C. destruct (G C) as (G1 & G2). destruct (G' C) as (G1' & G2'). cbn [sums] in G1, G2.
        rewrite G1', G2', ownedEnergy_app, ownedVirial_app. rewrite U1, U2, G1, G2. split; [ring|]. clear. r3.
  Qed.
End Calls.
