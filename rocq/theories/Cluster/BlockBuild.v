(** What a rebuild of the towers keeps, and where the particles are afterwards. *)
From Coq Require Import Reals Lra Lia Psatz Permutation Sorted.
From Flocq Require Import Core.
From Verif.Base Require Import ZRange Lists.
From Verif.Functor Require Import SortModel SortSpec.
From Verif.Grid Require Import CellBlockSpec.
From Verif.Container Require Import ParticleModel IteratorModel IteratorContainers.
From Verif.Cluster Require Import TowerModel TowerSpec TowerProofs TowerProps BlockModel BlockGeo.
Local Open Scope nat_scope.

(** * Lists *)
Lemma flat_map_perm {A B} (f g : A -> list B) l : (forall x, In x l -> Permutation (f x) (g x)) -> Permutation (flat_map f l) (flat_map g l).
Proof.
  induction l as [|a l IH]; intros H; [reflexivity|]. cbn. apply Permutation_app; [apply H; now left|]. apply IH. intros; apply H; now right.
Qed.
Lemma flat_map_app_perm {A B} (f g : A -> list B) l : Permutation (flat_map (fun x => f x ++ g x) l) (flat_map f l ++ flat_map g l).
Proof.
  induction l as [|a l IH]; [reflexivity|]. cbn [flat_map]. rewrite IH, <- !app_assoc. apply Permutation_app_head.
  rewrite !app_assoc. apply Permutation_app_tail. apply Permutation_app_comm.
Qed.
Lemma filter_split_perm {A} (f : A -> bool) l : Permutation l (filter f l ++ filter (fun x => negb (f x)) l).
Proof.
  induction l as [|a l IH]; [reflexivity|]. cbn [filter]. destruct (f a); cbn [negb app].
  - constructor. exact IH.
  - rewrite IH at 1. apply Permutation_middle.
Qed.
Lemma flat_map_nth {A B} (f : A -> list B) d l : f d = [] -> forall n,
  flat_map f l = flat_map (fun i => f (nth i l d)) (seq 0 n) ++ flat_map f (skipn n l).
Proof.
  intros D. induction l as [|a l IH]; intros n.
  - rewrite skipn_nil. cbn [flat_map]. rewrite app_nil_r. symmetry. generalize 0. induction n as [|n IHn]; intros s; [reflexivity|].
    cbn [seq flat_map]. rewrite IHn. destruct s; cbn [nth]; rewrite D; reflexivity.
  - destruct n as [|n]; [reflexivity|]. cbn [seq flat_map skipn nth]. rewrite <- app_assoc. f_equal.
    rewrite (IH n) at 1. f_equal. rewrite <- seq_shift, flat_map_concat_map, flat_map_concat_map, map_map. reflexivity.
Qed.

Lemma perm_rev3 {A} (a b c : list A) : Permutation (a ++ b ++ c) (c ++ b ++ a).
Proof. rewrite Permutation_app_comm, <- app_assoc. rewrite (Permutation_app_comm b (c ++ a)), <- app_assoc. apply Permutation_app_head. apply Permutation_app_comm. Qed.

(** Distributing a list into buckets. *)
Lemma distribute_perm {A} (sel : nat -> A -> bool) (ok : A -> bool) (I : list nat) l : NoDup I ->
  (forall i p, In p l -> sel i p = true -> ok p = true) ->
  (forall p, In p l -> ok p = true -> exists i, In i I /\ sel i p = true /\ forall j, In j I -> sel j p = true -> j = i) ->
  Permutation l (flat_map (fun i => filter (sel i) l) I ++ filter (fun p => negb (ok p)) l).
Proof.
  intros N. induction l as [|a l IH]; intros H1 H2.
  - cbn. rewrite app_nil_r. clear. induction I; [reflexivity|exact IHI].
  - specialize (IH ltac:(intros; eapply H1; [right|]; eauto) ltac:(intros; apply H2; [right|]; auto)).
    cbn [filter]. destruct (ok a) eqn:OA; cbn [negb].
    + destruct (H2 a ltac:(now left) OA) as (i & Ii & Si & U). apply in_split in Ii. destruct Ii as (I1 & I2 & EI).
      assert (K : forall J, (forall j, In j J -> In j I /\ j <> i) -> flat_map (fun j => if sel j a then a :: filter (sel j) l else filter (sel j) l) J = flat_map (fun j => filter (sel j) l) J).
      { induction J as [|j J IHJ]; intros HJ; [reflexivity|]. cbn [flat_map]. rewrite IHJ by (intros; apply HJ; now right). f_equal.
        destruct (HJ j ltac:(now left)) as [X Y]. destruct (sel j a) eqn:Sj; [|reflexivity]. exfalso. apply Y. apply U; auto. }
      subst I. apply NoDup_remove in N. destruct N as [N1 N2]. rewrite flat_map_app. cbn [flat_map]. rewrite Si.
      rewrite !K.
      * rewrite IH at 1. rewrite flat_map_app. cbn [flat_map]. rewrite <- !app_assoc, <- !app_comm_cons. apply Permutation_middle.
      * intros j Hj. split; [apply in_or_app; right; now right|]. intros ->. apply N2. apply in_or_app; now right.
      * intros j Hj. split; [apply in_or_app; now left|]. intros ->. apply N2. apply in_or_app; now left.
    + rewrite IH at 1. rewrite <- Permutation_middle. constructor.
      assert (E : forall J, flat_map (fun j => if sel j a then a :: filter (sel j) l else filter (sel j) l) J = flat_map (fun j => filter (sel j) l) J).
      { induction J as [|j J IHJ]; [reflexivity|]. cbn [flat_map]. rewrite IHJ. destruct (sel j a) eqn:Sj; [|reflexivity].
        rewrite (H1 j a ltac:(now left) Sj) in OA. discriminate. }
      rewrite E. reflexivity.
Qed.

Lemma filter_idem {A} (f : A -> bool) l : filter f (filter f l) = filter f l.
Proof.
  induction l as [|a l IH]; [reflexivity|]. cbn [filter]. destruct (f a) eqn:E; [|exact IH]. cbn [filter]. rewrite E, IH. reflexivity.
Qed.
Lemma filter_all {A} (f : A -> bool) l : Forall (fun x => f x = true) l -> filter f l = l.
Proof. induction 1 as [|a l H _ IH]; [reflexivity|]. cbn. rewrite H, IH. reflexivity. Qed.

(** * Towers by index *)
Section Index.
  Local Open Scope Z_scope.
  Variable g : Grid.
  Hypothesis nx1 : 1 <= gNX g.
  Hypothesis ny1 : 1 <= gNY g.
  Definition inGrid (x y : Z) : Prop := 0 <= x < gNX g /\ 0 <= y < gNY g.
  Lemma index_of x y : inGrid x y ->
    (Z.to_nat (tower1D g x y) < numNew g)%nat /\ xOf g (Z.to_nat (tower1D g x y)) = x /\ yOf g (Z.to_nat (tower1D g x y)) = y.
  Proof using.
    clear nx1 ny1. intros [X Y]. unfold tower1D, numNew, xOf, yOf. rewrite Z2Nat.id by nia. split; [apply Z2Nat.inj_lt; nia|].
    split; [rewrite Z_mod_plus_full; apply Z.mod_small; lia|]. rewrite Z_div_plus_full by lia. rewrite Z.div_small; lia.
  Qed.
  Lemma of_index i : (i < numNew g)%nat -> inGrid (xOf g i) (yOf g i) /\ Z.to_nat (tower1D g (xOf g i) (yOf g i)) = i.
  Proof using nx1.
    clear ny1. unfold numNew, xOf, yOf, inGrid, tower1D. intros H.
    assert (M := Z.mod_pos_bound (Z.of_nat i) (gNX g) ltac:(lia)).
    assert (E := Z.div_mod (Z.of_nat i) (gNX g) ltac:(lia)).
    assert (0 <= Z.of_nat i / gNX g) by (apply Z.div_pos; lia).
    assert (Z.of_nat i / gNX g < gNY g) by (apply Z.div_lt_upper_bound; lia).
    split; [lia|]. rewrite <- (Nat2Z.id i) at 3. f_equal. lia.
  Qed.
  Lemma index_unique i x y : (i < numNew g)%nat -> xOf g i = x -> yOf g i = y -> i = Z.to_nat (tower1D g x y).
  Proof using nx1. intros H <- <-. symmetry. now apply of_index. Qed.
  Lemma towerAt_range p : inGrid (fst (towerAt g p)) (snd (towerAt g p)).
  Proof using nx1 ny1.
    unfold towerAt. destruct (_ =? 1); cbn [fst snd]; unfold inGrid; [lia|]. unfold towerDim.
    repeat match goal with |- context [Rle_dec ?a ?b] => destruct (Rle_dec a b) | |- context [Rlt_dec ?a ?b] => destruct (Rlt_dec a b) end; lia.
  Qed.
End Index.

(** * The rebuild *)
Definition notDummy (p : Particle) : bool := negb (isDummy p).
(** The particles a rebuild starts from: those of the towers that are not dummies (deleted
    particles are dummies), and those to be added. *)
Definition before (old : list Tower) (toAdd : list Particle) : list Particle :=
  flat_map (fun t => filter notDummy (tParts t)) old ++ toAdd.

  Lemma resized_parts g old i : Permutation (tParts (resized old i)) (tParts (fst (collected g old i)) ++ snd (collected g old i)).
  Proof.
    unfold collected, collectOutOfBoundsParticles. cbn [fst snd]. unfold withParts. cbn [tParts].
    assert (E : tParts (deleteDummyParticles (resized old i)) = tParts (resized old i)).
    { unfold resized, oldTowers. unfold deleteDummyParticles at 1. cbn [tParts].
      destruct (Nat.lt_ge_cases i (length (map deleteDummyParticles old))) as [L|L].
      - assert (I := nth_In _ emptyTower L). apply in_map_iff in I. destruct I as (t & <- & _). cbn [tParts deleteDummyParticles]. apply filter_idem.
      - rewrite nth_overflow by lia. reflexivity. }
    rewrite E. apply filter_split_perm.
  Qed.

Section Parts.
  Variable g : Grid.
  Variable old : list Tower.
  Variable toAdd : list Particle.
  Hypothesis nx1 : (1 <= gNX g)%Z.
  Hypothesis ny1 : (1 <= gNY g)%Z.
  Notation filled := (filledTower g old toAdd).
  Notation invalid := (invalidParticles g old toAdd).

  Definition dropped : list Particle := filter (fun p => negb (inBoxb (haloMin g) (haloMax g) (ppos p))) invalid.

  Lemma before_split : Permutation (before old toAdd) (flat_map (fun i => tParts (fst (collected g old i))) (seq 0 (numNew g)) ++ invalid).
  Proof using.
    unfold before, invalidParticles.
    assert (E : flat_map (fun t => filter notDummy (tParts t)) old = flat_map tParts (oldTowers old)).
    { unfold oldTowers. rewrite !flat_map_concat_map, map_map. reflexivity. }
    rewrite E. rewrite (flat_map_nth tParts emptyTower (oldTowers old) eq_refl (numNew g)).
    assert (P : Permutation (flat_map (fun i => tParts (nth i (oldTowers old) emptyTower)) (seq 0 (numNew g)))
      (flat_map (fun i => tParts (fst (collected g old i))) (seq 0 (numNew g)) ++ flat_map (fun i => snd (collected g old i)) (seq 0 (numNew g)))).
    { rewrite <- flat_map_app_perm. apply flat_map_perm. intros i _. apply resized_parts. }
    rewrite P. rewrite <- !app_assoc. apply Permutation_app_head.
    apply perm_rev3.
  Qed.

  Lemma sorted_split : Permutation invalid (flat_map (sortedInto g old toAdd) (seq 0 (numNew g)) ++ dropped).
  Proof using nx1 ny1.
    unfold sortedInto, dropped. apply (distribute_perm (fun i p => inBoxb (haloMin g) (haloMax g) (ppos p) &&
       ((fst (towerAt g (ppos p)) =? xOf g i)%Z && (snd (towerAt g (ppos p)) =? yOf g i)%Z)) (fun p => inBoxb (haloMin g) (haloMax g) (ppos p))).
    - apply seq_NoDup.
    - intros i p _ H. apply andb_true_iff in H. tauto.
    - intros p _ H. rewrite H. cbn [andb]. assert (G := towerAt_range g nx1 ny1 (ppos p)). destruct (index_of g _ _ G) as (A & B & C).
      exists (Z.to_nat (tower1D g (fst (towerAt g (ppos p))) (snd (towerAt g (ppos p))))). split; [apply in_seq; lia|]. rewrite B, C, !Z.eqb_refl.
      split; [reflexivity|]. intros j Ij E. apply in_seq in Ij. apply andb_true_iff in E. destruct E as [E1 E2]. apply Z.eqb_eq in E1, E2.
      apply index_unique; auto; lia.
  Qed.

  Lemma before_filled : Permutation (before old toAdd) (flat_map (fun i => tParts (filled i)) (seq 0 (numNew g)) ++ dropped).
  Proof using nx1 ny1.
    rewrite before_split, sorted_split. unfold filledTower, withParts. cbn [tParts].
    rewrite flat_map_app_perm, <- app_assoc. reflexivity.
  Qed.

  Lemma filled_before i p : i < numNew g -> In p (tParts (filled i)) -> In p (before old toAdd).
  Proof using nx1 ny1.
    intros L I. eapply Permutation_in; [symmetry; apply before_filled|]. apply in_or_app. left. apply in_flat_map. exists i. split; [apply in_seq; lia|exact I].
  Qed.
End Parts.

Section Rebuild.
  Variable sortZ : list Particle -> list Particle.
  Variable cs : nat.
  Variable g : Grid.
  Variable old : list Tower.
  Variable toAdd : list Particle.
  Hypothesis srt : sortsByZ sortZ.
  Hypothesis cpos : 0 < cs.
  Hypothesis nx1 : (1 <= gNX g)%Z.
  Hypothesis ny1 : (1 <= gNY g)%Z.
  Notation built := (builtTower sortZ cs g old toAdd).
  Notation moved := (movedTower sortZ cs g old toAdd).
  Notation final := (finalTower sortZ cs g old toAdd).
  Notation filled := (filledTower g old toAdd).
  Notation invalid := (invalidParticles g old toAdd).

  (** The three towers made from a filled tower. *)
  Lemma tower_steps i : 
    fullClusters cs (built i) /\ Permutation (tParts (filled i)) (actual (built i)) /\ zSorted (actual (built i)) /\
    generateClusters sortZ cs (filled i) = Some (built i) /\
    setDummyParticlesToLastActualParticle cs (built i) = Some (moved i) /\
    length (tParts (moved i)) = cs * tClusters (moved i) /\ actual (moved i) = actual (built i) /\
    tDummies (moved i) = tDummies (built i) /\ tClusters (moved i) = tClusters (built i) /\
    tFirstOwned (moved i) = tFirstOwned (built i) /\ tFirstTail (moved i) = tFirstTail (built i) /\
    (forall p, In p (padding (moved i)) -> nth_error (actual (moved i)) (numActual (moved i) - 1) = Some p) /\
    fullClusters cs (final i) /\ actual (final i) = actual (built i) /\ tDummies (final i) = tDummies (built i) /\
    tClusters (final i) = tClusters (built i) /\ tFirstOwned (final i) = tFirstOwned (built i) /\ tFirstTail (final i) = tFirstTail (built i).
  Proof using srt cpos.
    assert (D : tDummies (filled i) = 0) by reflexivity.
    destruct (gen_ok sortZ cs srt cpos (filled i) D) as (t1 & G & F & P & Z & _ & _).
    assert (B : built i = t1) by (unfold builtTower; rewrite G; reflexivity). rewrite B.
    pose proof F as (F1 & F2 & F3 & F4).
    destruct (toLast_ok cs t1 F1 F2 F3) as (t2 & E & L & A & D2 & C2 & FO & FT & PD).
    assert (M : moved i = t2) by (unfold movedTower; rewrite B, E; reflexivity).
    assert (L2 : length (tParts t2) = cs * tClusters t2) by (rewrite L, C2; exact F1).
    destruct (setDummyValues_ok cs (1000 * rx (haloMax g) + INR i * (gIL g * 2)) (gIL g * 2) t2 cpos L2) as (t3 & E3 & F3' & A3 & D3 & C3 & FO3 & FT3 & _); [lia|lia|].
    assert (N : final i = t3) by (unfold finalTower; rewrite M, E3; reflexivity).
    rewrite M, N.
    repeat match goal with |- _ /\ _ => split end; auto; try congruence; lia || congruence.
  Qed.

  Theorem rebuild_keeps : Permutation (before old toAdd) (flat_map (fun i => actual (final i)) (seq 0 (numNew g)) ++ dropped g old toAdd) /\
    Forall (fun p => ~ inBox (haloMin g) (haloMax g) (ppos p)) (dropped g old toAdd).
  Proof using srt cpos nx1 ny1.
    split.
    - rewrite (before_filled g old toAdd nx1 ny1). apply Permutation_app_tail. apply flat_map_perm. intros i _.
      destruct (tower_steps i) as (_ & P & T). destruct T as (_ & _ & _ & _ & _ & _ & _ & _ & _ & _ & _ & A & _). rewrite A. exact P.
    - apply Forall_forall. intros p I. unfold dropped in I. apply filter_In in I. destruct I as [_ H].
      intros C. apply inBoxb_spec in C. rewrite C in H. discriminate.
  Qed.

  Lemma actual_filled i p : In p (actual (moved i)) -> In p (tParts (filled i)).
  Proof using srt cpos.
    destruct (tower_steps i) as (_ & P & _ & _ & _ & _ & A & _). rewrite A. intros I. eapply Permutation_in; [symmetry; exact P|exact I].
  Qed.
  Lemma before_notDummy p : Forall (fun p => isDummy p = false) toAdd -> In p (before old toAdd) -> isDummy p = false.
  Proof using.
    intros F I. unfold before in I. apply in_app_or in I. destruct I as [I|I].
    - apply in_flat_map in I. destruct I as (t & _ & I). apply filter_In in I. destruct I as [_ H]. unfold notDummy in H. destruct (isDummy p); [discriminate|reflexivity].
    - rewrite Forall_forall in F. auto.
  Qed.
End Rebuild.

Section Estimated.
  Variable sortZ : list Particle -> list Particle.
  Variable cs : nat.
  Variables (bMin bMax : R3) (il opt : R).
  Variable old : list Tower.
  Variable toAdd : list Particle.
  Hypothesis srt : sortsByZ sortZ.
  Hypothesis cpos : 0 < cs.
  Hypothesis box_ok : below bMin bMax.
  Hypothesis il_pos : (0 < il)%R.
  Hypothesis opt_pos : (0 < opt)%R.
  Hypothesis same_halo : haloTowers il (sideLength (rx bMax - rx bMin) opt) = haloTowers il (sideLength (ry bMax - ry bMin) opt).
  Let g := estimatedGrid bMin bMax il opt.
  Notation moved := (movedTower sortZ cs g old toAdd).
  Notation final := (finalTower sortZ cs g old toAdd).
  Notation filled := (filledTower g old toAdd).

  (** Every particle is in the tower it belongs to. *)
  Lemma filled_inTower i p : i < numNew g -> In p (tParts (filled i)) -> inTower bMin bMax il opt (xOf g i) (yOf g i) (ppos p).
  Proof using box_ok il_pos opt_pos same_halo.
    intros L I. unfold filledTower in I. cbn [withParts tParts] in I. apply in_app_or in I. destruct I as [I|I].
    - unfold collected, collectOutOfBoundsParticles in I. cbn [fst withParts tParts] in I. apply filter_In in I. destruct I as [_ H].
      apply box_inTower. exact H.
    - unfold sortedInto in I. apply filter_In in I. destruct I as [_ H]. apply andb_true_iff in H. destruct H as [H1 H2].
      apply andb_true_iff in H2. destruct H2 as [X Y]. apply Z.eqb_eq in X, Y.
      destruct (at_inTower bMin bMax il opt box_ok il_pos opt_pos same_halo (ppos p) H1) as [T _]. fold g in T. rewrite X, Y in T. exact T.
  Qed.

  (** If exactly the particles inside the box are owned, the owned particles of a tower
      are together. *)
  Hypothesis owned_inside : forall p, In p (before old toAdd) -> (isOwned p = true <-> inBox bMin bMax (ppos p)).
  Lemma filled_together i : i < numNew g -> ownedTogether (tParts (filled i)).
  Proof using All.
    intros L p q r P Q R OP OR Z.
    assert (NX : (1 <= gNX g)%Z) by (assert (X := nx_pos bMin bMax il opt box_ok il_pos opt_pos same_halo); fold g in X; lia).
    assert (NY : (1 <= gNY g)%Z) by (assert (X := ny_pos bMin bMax il opt box_ok il_pos opt_pos same_halo); fold g in X; lia).
    assert (BP := proj1 (owned_inside p (filled_before g old toAdd NX NY i p L P)) OP).
    assert (BR := proj1 (owned_inside r (filled_before g old toAdd NX NY i r L R)) OR).
    apply (owned_inside q (filled_before g old toAdd NX NY i q L Q)).
    destruct BP as (P1 & P2 & P3). destruct BR as (R1 & R2 & R3).
    destruct (tower_in_box bMin bMax il opt box_ok opt_pos _ _ _ _ (filled_inTower i p L P) (filled_inTower i q L Q) P1 P2) as [Q1 Q2].
    split; [exact Q1|]. split; [exact Q2|]. lra.
  Qed.

  Lemma final_owned_range i k : i < numNew g -> k < tClusters (final i) ->
    ((exists p, In p (clusterOf cs (final i) k) /\ isOwned p = true) <-> tFirstOwned (final i) <= k < tFirstTail (final i)).
  Proof using All.
    intros L K. destruct (tower_steps sortZ cs g old toAdd srt cpos i) as (F & P & Z & G & S & L2 & A & D & C & FO & FT & PD & F' & A' & D' & C' & FO' & FT').
    pose proof F as (F1 & F2 & F3 & F4).
    destruct (setDummyValues_ok cs 0 0 _ cpos F1 F2 F3) as (t2 & E2 & G2 & A2 & D2 & C2 & FO2 & FT2 & _).
    assert (R := tower_owned_range sortZ cs (filled i) 0 0 _ t2 srt cpos eq_refl (filled_together i L) G E2 k ltac:(congruence)).
    rewrite FO', FT', <- FO2, <- FT2, <- R, <- !anyOwned_true.
    rewrite (anyOwned_setDummy cs t2 (final i) k); [reflexivity|exact G2|exact F'|congruence|].
    rewrite <- !actual_length. congruence.
  Qed.
End Estimated.
