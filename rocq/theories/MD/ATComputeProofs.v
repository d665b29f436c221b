(** The Axilrod-Teller forces after an interaction computation. *)
From Coq Require Import Reals Lra List ZArith Bool Arith Lia Permutation.
From Verif.Base Require Import OptionM Lists.
From Verif.Functor Require Import CellFunctor3BModel SortModel.
From Verif.Container Require Import IteratorModel IteratorLemmas ParticleModel.
From Verif.Logic Require Import HandlerModel Remainder3Model Compute3Spec.
From Verif.MD Require Import MixingModel LJModel LJSpec LJProofs LJPhysics LJTheorem LJComputeModel LJComputeSpec LJComputeProofs LJComputeTheorem
  ATModel ATSpec ATPhysics ATTheorem ATComputeModel ATComputeSpec.
Import ListNotations.
Local Open Scope R_scope.

(** * Couples *)
Lemma couples_in {A} (l : list A) q r : In (q, r) (couples l) -> In q l /\ In r l.
Proof.
  induction l as [|a l IH]; [intros []|]. cbn [couples]. rewrite in_app_iff, in_map_iff. intros [(x & [= <- <-] & H)|H]; [split; [left; reflexivity|right; exact H]|].
  destruct (IH H). split; right; assumption.
Qed.
Lemma couples_ne {A} (l : list A) q r : NoDup l -> In (q, r) (couples l) -> q <> r.
Proof.
  induction 1 as [|a l N _ IH]; [intros []|]. cbn [couples]. rewrite in_app_iff, in_map_iff. intros [(x & [= <- <-] & H)|H]; [intros ->; contradiction|exact (IH H)].
Qed.
Lemma couples_asym {A} (l : list A) q r : NoDup l -> In (q, r) (couples l) -> In (r, q) (couples l) -> False.
Proof.
  induction 1 as [|a l N _ IH]; [intros []|]. cbn [couples]. rewrite !in_app_iff, !in_map_iff. intros [(x & [= <- <-] & H)|H] [(y & [= Ey Ez] & H')|H'].
  - subst. contradiction.
  - apply couples_in in H' as (_ & H'). contradiction.
  - subst. apply couples_in in H as (_ & H). contradiction.
  - exact (IH H H').
Qed.
Lemma couples_nodup {A} (l : list A) : NoDup l -> NoDup (couples l).
Proof.
  induction 1 as [|a l N M IH]; [constructor|]. cbn [couples]. apply NoDup_app_intro; [|exact IH|].
  - apply FinFun.Injective_map_NoDup; [intros x y [= ->]; reflexivity|exact M].
  - intros x H1 H2. apply in_map_iff in H1 as (y & <- & _). apply couples_in in H2 as (H2 & _). contradiction.
Qed.
Lemma couples_all {A} (l : list A) q r : In q l -> In r l -> q <> r -> In (q, r) (couples l) \/ In (r, q) (couples l).
Proof.
  induction l as [|a l IH]; [intros []|]. intros [->|Hq] [->|Hr] N; cbn [couples]; rewrite !in_app_iff.
  - contradiction.
  - left. left. apply in_map, Hr.
  - right. left. apply in_map, Hq.
  - destruct (IH Hq Hr N); auto.
Qed.

(** * Sums over triples with the same members, up to the order of the sources *)
Section Doubling.
  Context {A : Type}.
  Notation triple := (A * (A * A))%type.
  Definition swap (x : triple) : triple := (fst x, (snd (snd x), fst (snd x))).
  Variable nz : triple -> bool.
  Hypothesis nz_swap : forall x, nz (swap x) = nz x.
  Lemma swap_swap x : swap (swap x) = x.
  Proof. now destruct x as (p, (q, r)). Qed.

  Definition single (l : list triple) : Prop := NoDup (filter nz l) /\ forall x, nz x = true -> In x l -> In (swap x) l -> False.
  Lemma doubled_nodup l : single l -> NoDup (filter nz (l ++ map swap l)).
  Proof.
    intros (N & D). rewrite filter_app. apply NoDup_app_intro; [exact N| |].
    - replace (filter nz (map swap l)) with (map swap (filter nz l)).
      + apply FinFun.Injective_map_NoDup; [|exact N]. intros x y E. apply (f_equal swap) in E. rewrite !swap_swap in E. exact E.
      + clear N D. induction l as [|x l IH]; [reflexivity|]. cbn [filter map]. rewrite nz_swap. destruct (nz x); cbn [map]; now rewrite IH.
    - intros x H1 H2. apply filter_In in H1 as (H1 & Z). apply filter_In in H2 as (H2 & _). apply in_map_iff in H2 as (y & <- & H2). rewrite nz_swap in Z. exact (D y Z H2 H1).
  Qed.
  Variables l1 l2 : list triple.
  Hypothesis S1 : single l1.
  Hypothesis S2 : single l2.
  Hypothesis Hmem : forall x, nz x = true -> (In x l1 \/ In (swap x) l1) <-> (In x l2 \/ In (swap x) l2).
  Lemma doubled_members x : nz x = true -> In x (l1 ++ map swap l1) <-> In x (l2 ++ map swap l2).
  Proof.
    assert (M : forall l, In x (l ++ map swap l) <-> In x l \/ In (swap x) l).
    { intros l. rewrite in_app_iff, in_map_iff. split; intros [H|H]; auto.
      - destruct H as (y & <- & H). right. now rewrite swap_swap.
      - right. exists (swap x). rewrite swap_swap. auto. }
    intros Z. rewrite !M. apply Hmem, Z.
  Qed.
  Lemma vsum_triples (g : triple -> R3) : (forall x, nz x = false -> g x = rzero) -> (forall x, g (swap x) = g x) -> vsum (map g l1) = vsum (map g l2).
  Proof.
    intros Z G.
    assert (E := vsum_members g nz (l1 ++ map swap l1) (l2 ++ map swap l2) Z (doubled_nodup l1 S1) (doubled_nodup l2 S2) doubled_members).
    rewrite !map_app, !map_map, !vsum_app in E. rewrite !(map_ext (fun x => g (swap x)) g) in E by exact G.
    apply R3_eq; [apply (f_equal rx) in E|apply (f_equal ry) in E|apply (f_equal rz) in E]; cbn [rx ry rz radd] in E; lra.
  Qed.
  Lemma rsum_triples (g : triple -> R) : (forall x, nz x = false -> g x = 0) -> (forall x, g (swap x) = g x) -> rsum (map g l1) = rsum (map g l2).
  Proof.
    intros Z G.
    assert (E := rsum_members g nz (l1 ++ map swap l1) (l2 ++ map swap l2) Z (doubled_nodup l1 S1) (doubled_nodup l2 S2) doubled_members).
    rewrite !map_app, !map_map, !rsum_app in E. rewrite !(map_ext (fun x => g (swap x)) g) in E by exact G. lra.
  Qed.
End Doubling.

(** * A schedule *)
Section Schedule.
  Variable same : Particle -> Particle -> bool.
  Variable typeId : Particle -> nat.
  Variables (cfg : ATConfig) (fld : ATField) (known : nat -> Prop).
  Hypothesis Hset : setUp3 cfg fld known.
  Notation part := (fun p : Particle => p).
  Notation forcesOn3 := (ATSpec.forcesOn3 part typeId fld same).
  Notation ownedEnergy3 := (ATSpec.ownedEnergy3 part typeId fld).
  Notation ownedVirial3 := (ATSpec.ownedVirial3 part typeId fld).

  Lemma forcesOn3_perm a l1 l2 : Permutation l1 l2 -> forcesOn3 a l1 = forcesOn3 a l2.
  Proof. intros P. unfold ATSpec.forcesOn3. apply vsum_perm, Permutation_map, filter_perm, P. Qed.
  Lemma ownedEnergy3_perm l1 l2 : Permutation l1 l2 -> ownedEnergy3 l1 = ownedEnergy3 l2.
  Proof. intros P. unfold ATSpec.ownedEnergy3. apply rsum_perm, Permutation_map, filter_perm, P. Qed.
  Lemma ownedVirial3_perm l1 l2 : Permutation l1 l2 -> ownedVirial3 l1 = ownedVirial3 l2.
  Proof. intros P. unfold ATSpec.ownedVirial3. apply vsum_perm, Permutation_map, filter_perm, P. Qed.

  Lemma schedule3_value n : forall sch m th, (forall k c, In (k, c) sch -> (k < n)%nat /\ usable part typeId fld known c) ->
    exists m' th', runSchedule3 same typeId cfg sch m th = Some (m', th') /\
      (forall a, m' a = radd (m a) (forcesOn3 a (flat_map added3 (map snd sch)))) /\
      (atGlobals cfg = true ->
        potentialSum (ssum (map th' (seq 0 n))) = potentialSum (ssum (map th (seq 0 n))) + 3 * ownedEnergy3 (flat_map added3 (map snd sch)) /\
        virialSum (ssum (map th' (seq 0 n))) = radd (virialSum (ssum (map th (seq 0 n)))) (ownedVirial3 (flat_map added3 (map snd sch)))).
  Proof.
    induction sch as [|(k, c) sch IH]; intros m th H.
    - exists m, th. split; [reflexivity|]. split; [intros a; symmetry; apply radd_zero_r|]. intros _. split; [cbn; ring|symmetry; apply radd_zero_r].
    - destruct (H k c (or_introl eq_refl)) as (Hk & Hc). destruct (functor_value same part typeId cfg fld known Hset c (mkState m (th k)) Hc) as (st & E & F & G & _).
      destruct (IH (forceAt st) (fun i => if Nat.eqb i k then sums st else th i)) as (m' & th' & E' & F' & G'); [intros k' c' Hc'; apply H; right; exact Hc'|].
      exists m', th'. cbn [runSchedule3]. rewrite E. split; [exact E'|]. cbn [map flat_map snd].
      destruct (ssum_update th k (sums st) n Hk) as (U1 & U2). split.
      + intros a. rewrite F', F. cbn [forceAt]. rewrite forcesOn3_app, radd_assoc. reflexivity.
      + intros C. destruct (G C) as (G1 & G2). destruct (G' C) as (G1' & G2'). cbn [sums] in G1, G2.
        rewrite G1', G2', ownedEnergy3_app, ownedVirial3_app. rewrite U1, U2, G1, G2. split; [ring|]. clear. r3.
  Qed.
End Schedule.
