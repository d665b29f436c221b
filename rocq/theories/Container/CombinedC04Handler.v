(** lc_c04_combined_SoA: processing one base cell performs the pairs of the base
    step of the c08 schemes on whole cells. *)
From Verif.Base Require Import ZRange Occ.
From Verif.Grid Require Import IndexModel IndexSpec IndexProofs.
From Verif.Traversal Require Import CellSpec C08Model.
From Verif.Utils Require Import SoAModel.
From Verif.Container Require Import CombinedC04Model CombinedC04Offsets CombinedC04Sim.
Local Open Scope Z_scope.

Section HandlerSim.
  Context {P : Type}.
  Variable zeroRow : Row P.
  Variable useN3 : bool.
  Variable near : Z -> Z -> Z -> bool.
  Variable dims : I3.
  Variable size : Z -> nat.
  Notation one := (mkI3 1 1 1).
  Notation dx := (ix dims).
  Notation dxy := (iy dims * ix dims).
  Notation full := [0; 1].
  Hypothesis Hdx : 2 <= ix dims.
  Hypothesis Hdy : 2 <= iy dims.
  Hypothesis Hnear : forall x y z, 0 <= x <= 1 -> 0 <= y <= 1 -> 0 <= z <= 1 -> near x y z = true.
  Notation RelD := (Rel dims size).
  Notation entry := (handleEntry useN3 one dims size).

  Lemma dxy2 : 2 * dx <= dxy.
  Proof. nia. Qed.

  Lemma offAt cur base m (L : Z -> list (Row P)) j : RelD cur base full m L -> 0 <= j < 2 ->
    combOff m (slot cur j) = [0; size (base + j); (size (base + j) + size (base + j + dx))]%nat.
  Proof. intros R Hj. apply (r_off _ _ _ _ _ _ _ R). now apply in_full. Qed.

  Lemma numSlices2 : numSlices one = 2. Proof. reflexivity. Qed.
  Lemma slot0 cur : 0 <= cur < 2 -> slot cur 0 = cur.
  Proof. intros H. unfold slot. rewrite Z.add_0_r. now apply Z.mod_small. Qed.
  Lemma slot1_ne cur : 0 <= cur < 2 -> slot cur 1 <> cur.
  Proof. intros H. unfold slot. destruct (mod2_cases cur H) as [ -> | -> ]; cbn; lia. Qed.

  (** A cell of the back plane with a part of a slice. *)
  Lemma plane_repr cur base o : 0 <= cur < 2 -> dxy <= o -> repr dims size cur base (mkView (InCell (base + o)) 0 (size (base + o))) [base + o].
  Proof. intros Hc Ho. apply rCell. intros j Hj. pose proof dxy2. unfold loadedCell. lia. Qed.

  Lemma entry_plane cur base m (L : Z -> list (Row P)) j o : RelD cur base full m L -> 0 <= j < 2 -> dxy <= o ->
    RelD cur base full (entry base (slot cur j) m (o, (0, 2)%nat)) (fold_left stepE [(base + o, base + j); (base + o, base + j + dx)] L) /\
    RelD cur base full (entry base (slot cur j) m (o, (0, 1)%nat)) (fold_left stepE [(base + o, base + j)] L).
  Proof.
    intros R Hj Ho. pose proof dxy2 as Hd. pose proof (r_range _ _ _ _ _ _ _ R) as Hc. unfold handleEntry.
    rewrite (offAt _ _ _ _ j R Hj). cbn [nth]. rewrite !(baseOffsets_eq dims). cbn [last hd]. rewrite numSlices2.
    replace (o =? 0) with false by (symmetry; apply Z.eqb_neq; lia).
    replace (o =? 0 + dx) with false by (symmetry; apply Z.eqb_neq; lia).
    replace (o =? 2 - 1) with false by (symmetry; apply Z.eqb_neq; lia).
    rewrite (r_csize _ _ _ _ _ _ _ R (base + o)). cbn [fold_left]. split.
    - eapply Rel_eqL; [apply (pairBoth_sim useN3 dims size Hdx cur base m L _ _ [base + o] [base + j; base + j + dx] R)|apply pairL_three; lia].
      + now apply plane_repr.
      + now apply rBoth.
      + intros k [E|[]] [E'|[E'|[]]]; lia.
    - eapply Rel_eqL; [apply (pairBoth_sim useN3 dims size Hdx cur base m L _ _ [base + o] [base + j] R)|apply pairL_two; lia].
      + now apply plane_repr.
      + now apply rFirst.
      + intros k [E|[]] [E'|[]]; lia.
  Qed.

  Lemma entry_base0 cur base m (L : Z -> list (Row P)) : RelD cur base full m L ->
    RelD cur base full (entry base (slot cur 0) m (0, (0, 2)%nat)) (fold_left stepE [(base, base); (base, base + dx)] L).
  Proof.
    intros R. pose proof (r_range _ _ _ _ _ _ _ R) as Hc. pose proof (r_cur _ _ _ _ _ _ _ R) as Ec. pose proof (r_size _ _ _ _ _ _ _ R) as HL.
    unfold handleEntry. rewrite Ec, slot0, Z.eqb_refl by exact Hc.
    destruct (Nat.eqb_spec (size base) 0) as [E|E].
    - assert (E0 : L base = []) by (apply length_zero_iff_nil; now rewrite HL). cbn [fold_left].
      apply (Rel_eqL _ _ _ _ _ _ L); [exact R|].
      eapply eqL_trans; [apply (step_empty L base base E0)|]. apply step_empty.
      rewrite <- (step_empty L base base E0 base). exact E0.
    - rewrite Z.eqb_refl.
      assert (Hf : repr dims size cur base (mkView (InComb cur) 0 (size base)) [base]).
      { pose proof (rFirst dims size cur base 0 ltac:(lia)) as H. rewrite slot0, Z.add_0_r in H by exact Hc. exact H. }
      pose proof (r_comb _ _ _ _ _ _ _ R 0 ltac:(now left)) as Hcomb. rewrite slot0, Z.add_0_r in Hcomb by exact Hc.
      assert (Hs : repr dims size cur base (mkView (InComb cur) (size base) (length (comb m cur))) [base + dx]).
      { pose proof (rSecond dims size cur base 0 ltac:(lia)) as H. rewrite slot0, Z.add_0_r in H by exact Hc.
        rewrite Hcomb, app_length, !HL. exact H. }
      cbn [fold_left].
      pose proof (single_sim dims size Hdx cur base m L _ base R Hf) as R1.
      eapply Rel_eqL; [apply (pairBoth_sim useN3 dims size Hdx cur base _ _ _ _ [base] [base + dx] R1 Hf Hs)|apply pairL_two; lia].
      intros k [E1|[]] [E2|[]]. lia.
  Qed.

  Lemma entry_base1 cur base m (L : Z -> list (Row P)) : RelD cur base full m L ->
    RelD cur base full (entry base (slot cur 1) m (0, (0, 2)%nat)) (fold_left stepE [(base, base + 1); (base, base + 1 + dx)] L).
  Proof.
    intros R. pose proof (r_range _ _ _ _ _ _ _ R) as Hc. pose proof (r_cur _ _ _ _ _ _ _ R) as Ec. pose proof (r_size _ _ _ _ _ _ _ R) as HL.
    unfold handleEntry. rewrite Ec, Z.eqb_refl, (proj2 (Z.eqb_neq _ _) (slot1_ne cur Hc)).
    destruct (Nat.eqb_spec (size base) 0) as [E|E].
    - assert (E0 : L base = []) by (apply length_zero_iff_nil; now rewrite HL). cbn [fold_left].
      apply (Rel_eqL _ _ _ _ _ _ L); [exact R|].
      eapply eqL_trans; [apply (step_empty L base (base + 1) E0)|]. apply step_empty.
      rewrite <- (step_empty L base (base + 1) E0 base). exact E0.
    - rewrite (offAt _ _ _ _ 1 R ltac:(lia)). cbn [nth fold_left].
      eapply Rel_eqL; [apply (pairBoth_sim useN3 dims size Hdx cur base m L _ _ [base] [base + 1; base + 1 + dx] R)|apply pairL_three; lia].
      + pose proof (rFirst dims size cur base 0 ltac:(lia)) as H. rewrite slot0, Z.add_0_r in H by exact Hc. exact H.
      + apply rBoth. lia.
      + intros k [E1|[]] [E2|[E2|[]]]; lia.
  Qed.

  Lemma entry_right cur base m (L : Z -> list (Row P)) : RelD cur base full m L ->
    RelD cur base full (entry base (slot cur 0) m (1, (1, 2)%nat)) (fold_left stepE [(base + 1, base + dx)] L).
  Proof.
    intros R. pose proof (r_range _ _ _ _ _ _ _ R) as Hc. pose proof (r_cur _ _ _ _ _ _ _ R) as Ec. pose proof (r_size _ _ _ _ _ _ _ R) as HL.
    unfold handleEntry. rewrite Ec, (offAt _ _ _ _ 0 R ltac:(lia)), !(baseOffsets_eq dims). cbn [nth last hd]. rewrite numSlices2.
    change (1 =? 0) with false. replace (1 =? 0 + dx) with false by (symmetry; apply Z.eqb_neq; lia). change (1 =? 2 - 1) with true. cbv iota zeta.
    replace ((cur + 2 - 1) mod 2) with (slot cur 1) by (unfold slot; f_equal; lia).
    rewrite (offAt _ _ _ _ 1 R ltac:(lia)). cbn [nth fold_left].
    destruct (Nat.eqb_spec (size (base + 1)) 0) as [E|E].
    - assert (E0 : L (base + 1) = []) by (apply length_zero_iff_nil; now rewrite HL).
      apply (Rel_eqL _ _ _ _ _ _ L); [exact R|]. now apply step_empty.
    - eapply Rel_eqL; [apply (pairBoth_sim useN3 dims size Hdx cur base m L _ _ [base + 1] [base + dx] R)|apply pairL_two; lia].
      + apply rFirst. lia.
      + pose proof (rSecond dims size cur base 0 ltac:(lia)) as H. rewrite Z.add_0_r in *. exact H.
      + intros k [E1|[]] [E2|[]]; lia.
  Qed.

  Definition ops0 (base : Z) : list (Z * Z) :=
    [(base, base); (base, base + dx); (base + 1, base + dx);
     (base + dxy, base); (base + dxy, base + dx); (base + (dxy + 1), base); (base + (dxy + 1), base + dx);
     (base + (dxy + dx), base); (base + (dxy + dx + 1), base)].
  Definition ops1 (base : Z) : list (Z * Z) :=
    [(base, base + 1); (base, base + 1 + dx); (base + dxy, base + 1); (base + dxy, base + 1 + dx);
     (base + (dxy + dx), base + 1)].

  Notation entries base slice l m := (fold_left (entry base slice) l m).

  Lemma stripe0_sim cur base m (L : Z -> list (Row P)) : RelD cur base full m L ->
    RelD cur base full (entries base (slot cur 0) (offsets near one dims 0) m) (fold_left stepE (ops0 base) L).
  Proof.
    intros R. pose proof dxy2 as Hd. rewrite (offsets0 near dims Hdx Hdy Hnear). unfold ops0.
    pose proof (entry_base0 _ _ _ _ R) as R1. pose proof (entry_right _ _ _ _ R1) as R2.
    pose proof (proj1 (entry_plane _ _ _ _ 0 dxy R2 ltac:(lia) ltac:(lia))) as R3.
    pose proof (proj1 (entry_plane _ _ _ _ 0 (dxy + 1) R3 ltac:(lia) ltac:(lia))) as R4.
    pose proof (proj2 (entry_plane _ _ _ _ 0 (dxy + dx) R4 ltac:(lia) ltac:(lia))) as R5.
    pose proof (proj2 (entry_plane _ _ _ _ 0 (dxy + dx + 1) R5 ltac:(lia) ltac:(lia))) as R6.
    cbn [fold_left] in R6 |- *. rewrite !Z.add_0_r in R6. exact R6.
  Qed.

  Lemma stripe1_sim cur base m (L : Z -> list (Row P)) : RelD cur base full m L ->
    RelD cur base full (entries base (slot cur 1) (offsets near one dims 1) m) (fold_left stepE (ops1 base) L).
  Proof.
    intros R. pose proof dxy2 as Hd. rewrite (offsets1 near dims Hdx Hdy Hnear). unfold ops1.
    pose proof (entry_base1 _ _ _ _ R) as R1.
    pose proof (proj1 (entry_plane _ _ _ _ 1 dxy R1 ltac:(lia) ltac:(lia))) as R2.
    pose proof (proj2 (entry_plane _ _ _ _ 1 (dxy + dx) R2 ltac:(lia) ltac:(lia))) as R3.
    exact R3.
  Qed.

  Definition opsBase (cur base : Z) : list (Z * Z) := if cur =? 0 then ops0 base ++ ops1 base else ops1 base ++ ops0 base.

  Lemma interactions_sim cur base m (L : Z -> list (Row P)) : RelD cur base full m L ->
    RelD cur base full (handleInteractions useN3 near one dims size base m) (fold_left stepE (opsBase cur base) L).
  Proof.
    intros R. pose proof (r_range _ _ _ _ _ _ _ R) as Hc. unfold handleInteractions, opsBase. rewrite numSlices2.
    change (zrange 0 2) with full. cbn [fold_left].
    destruct (mod2_cases cur Hc) as [ -> | -> ].
    - change (0 =? 0) with true. cbv iota. rewrite fold_left_app.
      rewrite (r_cur _ _ _ _ _ _ _ R). change ((0 + 0) mod 2) with 0.
      pose proof (stripe0_sim _ _ _ _ R) as R1. change (slot 0 0) with 0 in R1.
      rewrite (r_cur _ _ _ _ _ _ _ R1). change ((1 + 0) mod 2) with 1. exact (stripe1_sim _ _ _ _ R1).
    - change (1 =? 0) with false. cbv iota. rewrite fold_left_app.
      rewrite (r_cur _ _ _ _ _ _ _ R). change ((0 + 1) mod 2) with 1.
      pose proof (stripe1_sim _ _ _ _ R) as R1. change (slot 1 1) with 0 in R1.
      rewrite (r_cur _ _ _ _ _ _ _ R1). change ((1 + 1) mod 2) with 0. exact (stripe0_sim _ _ _ _ R1).
  Qed.

  (** * Loading and storing *)
  Lemma load_slice base m s c :
    writeCellIntoBuffer one dims size base m s c =
    mkMem (cellRow m) (setAt (comb m) s (cellRow m (base + c) ++ cellRow m (base + c + dx)))
      (setAt (combOff m) s [0; size (base + c); (size (base + c) + size (base + c + dx))]%nat) (@curSl P m).
  Proof. unfold writeCellIntoBuffer. rewrite (baseOffsets_eq dims). cbn [fold_left app]. now rewrite Z.add_assoc. Qed.

  Lemma load_first cur base b0 m (L : Z -> list (Row P)) : RelD cur b0 [] m L -> RelD 0 base full (loadBuffers one dims size base 0 m) L.
  Proof.
    intros [R1 R2 R3 R4 R5 R6 R7 R8]. assert (Hcell : forall k, cellRow m k = L k) by (intros k; apply R6; intros j []).
    unfold loadBuffers. rewrite Z.eqb_refl, numSlices2. change (zrange 0 2) with full. cbn [fold_left]. rewrite !load_slice. cbn [cellRow comb combOff curSl].
    constructor; cbn [cellRow comb combOff curSl]; auto; try lia.
    - intros j Hj. now apply in_full.
    - intros j [<-|[<-|[]]]; cbn; now rewrite !Hcell.
    - intros j [<-|[<-|[]]]; cbn; reflexivity.
  Qed.

  Lemma slot_step cur : 0 <= cur < 2 -> slot ((cur + 1) mod 2) 0 = slot cur 1 /\ slot ((cur + 1) mod 2) 1 = cur.
  Proof. intros H. unfold slot. destruct (mod2_cases cur H) as [ -> | -> ]; now cbn. Qed.

  Lemma load_next cur base x m (L : Z -> list (Row P)) : x <> 0 -> RelD cur (base - 1) [1] m L ->
    RelD ((cur + 1) mod 2) base full (loadBuffers one dims size base x m) L.
  Proof.
    intros Hx [R1 R2 R3 R4 R5 R6 R7 R8]. unfold loadBuffers. rewrite (proj2 (Z.eqb_neq x 0) Hx), numSlices2, load_slice, R1.
    change (2 - 1) with 1. destruct (slot_step cur R2) as [S0 S1]. pose proof (slot1_ne cur R2) as Hne.
    specialize (R4 1 (or_introl eq_refl)). specialize (R5 1 (or_introl eq_refl)).
    replace (base - 1 + 1) with base in R4, R5 by ring.
    assert (Hnl : forall k, k = base + 1 \/ k = base + 1 + dx -> cellRow m k = L k).
    { intros k Hk. apply R6. intros j [<-|[]]. unfold loadedCell. lia. }
    constructor; cbn [cellRow comb combOff curSl]; auto.
    - apply Z.mod_pos_bound. lia.
    - intros j Hj. now apply in_full.
    - intros j [<-|[<-|[]]].
      + rewrite S0. unfold setAt. rewrite (proj2 (Z.eqb_neq _ _) Hne), Z.add_0_r. exact R4.
      + rewrite S1. unfold setAt. rewrite Z.eqb_refl. f_equal; apply Hnl; auto.
    - intros j [<-|[<-|[]]].
      + rewrite S0. unfold setAt. rewrite (proj2 (Z.eqb_neq _ _) Hne), Z.add_0_r. exact R5.
      + rewrite S1. unfold setAt. now rewrite Z.eqb_refl.
    - intros k Hk. apply R6. intros j [<-|[]]. pose proof (Hk 0 (or_introl eq_refl)) as H. unfold loadedCell in *. lia.
  Qed.

  Lemma resize_exact (x y : list (Row P)) n : n = length x -> resizeList (Row P) zeroRow n (x ++ y) = x.
  Proof.
    intros ->. unfold resizeList. rewrite firstn_app, firstn_all, Nat.sub_diag, firstn_O, app_nil_r.
    replace (length x - length (x ++ y))%nat with O by (rewrite app_length; lia). apply app_nil_r.
  Qed.

  Lemma resize_all (x : list (Row P)) n : n = length x -> resizeList (Row P) zeroRow n x = x.
  Proof. intros H. rewrite <- (app_nil_r x) at 1. now apply resize_exact. Qed.

  (** writeBufferIntoCell puts the two parts of a slice back into their cells. *)
  Lemma store_slice base m s c (x y : list (Row P)) :
    comb m s = x ++ y -> combOff m s = [0; length x; (length x + length y)]%nat ->
    length (cellRow m (base + c)) = length x -> length (cellRow m (base + c + dx)) = length y ->
    let m' := writeBufferIntoCell zeroRow one dims base m s c in
    (forall k, cellRow m' k = if k =? base + c then x else if k =? base + c + dx then y else cellRow m k) /\
    (forall t, t <> s -> comb m' t = comb m t) /\ combOff m' = combOff m /\ curSl m' = curSl m.
  Proof.
    intros Hc Ho Hx Hy. cbv zeta. unfold writeBufferIntoCell. rewrite (baseOffsets_eq dims). cbn [length seq rev app fold_left].
    (* the second part *)
    assert (G1 : exists m1, writeBack zeroRow one dims base s c m 1 = m1 /\
      (forall k, cellRow m1 k = if k =? base + c + dx then y else cellRow m k) /\
      comb m1 s = x ++ y /\ (forall t, t <> s -> comb m1 t = comb m t) /\ combOff m1 = combOff m /\ curSl m1 = curSl m).
    { eexists. split; [reflexivity|]. unfold writeBack. rewrite Ho, (baseOffsets_eq dims). cbn [nth].
      destruct (Nat.eqb_spec (length x) (length x + length y)) as [E|E].
      - repeat split; auto. intros k. destruct (Z.eqb_spec k (base + c + dx)) as [->|]; [|reflexivity].
        assert (length y = O) by lia. rewrite (proj1 (length_zero_iff_nil y) H). apply length_zero_iff_nil. lia.
      - rewrite Hc. rewrite (resize_all (x ++ y)) by (symmetry; apply app_length).
        cbn [writeLoc readLoc cellRow comb combOff curSl]. repeat split.
        + intros k. unfold viewRows, setAt. cbn [vFrom vTo vLoc readLoc comb]. rewrite Z.eqb_refl, Z.add_assoc.
          destruct (k =? base + c + dx); [|reflexivity].
          rewrite skipn_app, skipn_all, Nat.sub_diag, skipn_O, app_length, Nat.add_comm, Nat.add_sub. apply firstn_all.
        + unfold setAt. now rewrite Z.eqb_refl.
        + intros t Ht. unfold setAt. now rewrite (proj2 (Z.eqb_neq t s) Ht). }
    destruct G1 as (m1 & -> & C1 & B1 & B1' & O1 & S1).
    unfold writeBack. rewrite O1, Ho, (baseOffsets_eq dims). cbn [nth].
    destruct (Nat.eqb_spec 0 (length x)) as [E|E].
    - repeat split; auto. intros k. rewrite C1. destruct (Z.eqb_spec k (base + c)) as [->|]; [|reflexivity].
      rewrite (proj2 (Z.eqb_neq _ _)) by lia. symmetry in E. rewrite (proj1 (length_zero_iff_nil x) E).
      apply length_zero_iff_nil. lia.
    - rewrite B1, (resize_exact x y) by reflexivity. cbn [writeLoc readLoc cellRow comb combOff curSl]. repeat split; auto.
      + intros k. unfold viewRows, setAt. cbn [vFrom vTo vLoc readLoc comb]. rewrite Z.eqb_refl, Nat.sub_0_r, skipn_O, firstn_all, C1. reflexivity.
      + intros t Ht. unfold setAt. rewrite (proj2 (Z.eqb_neq t s) Ht). now apply B1'.
  Qed.

  Lemma store_half cur base m (L : Z -> list (Row P)) : RelD cur base full m L ->
    RelD cur base [1] (writeBufferIntoCell zeroRow one dims base m (curSl m) 0) L.
  Proof.
    intros R. pose proof R as [R1 R2 R3 R4 R5 R6 R7 R8].
    destruct (store_slice base m (curSl m) 0 (L (base + 0)) (L (base + 0 + dx))) as (C & B & O & S).
    - rewrite R1. rewrite <- (slot0 cur R2) at 1. apply R4. now left.
    - rewrite R1. rewrite <- (slot0 cur R2) at 1. rewrite (offAt _ _ _ _ 0 R ltac:(lia)). now rewrite !R7.
    - now rewrite R8, R7.
    - now rewrite R8, R7.
    - constructor; auto.
      + now rewrite S.
      + intros j Hj. apply R3. now right.
      + intros j [<-|[]]. rewrite B by (rewrite R1; now apply slot1_ne). apply R4. right. now left.
      + intros j [<-|[]]. rewrite O. apply R5. right. now left.
      + intros k Hk. rewrite C. specialize (Hk 1 (or_introl eq_refl)).
        destruct (Z.eqb_spec k (base + 0)) as [->|N0]; [reflexivity|].
        destruct (Z.eqb_spec k (base + 0 + dx)) as [->|N1]; [reflexivity|].
        apply R6. intros j [<-|[<-|[]]]; unfold loadedCell in *; lia.
      + intros k. rewrite C. destruct (Z.eqb_spec k (base + 0)) as [->|]; [apply R7|].
        destruct (Z.eqb_spec k (base + 0 + dx)) as [->|]; [apply R7|apply R8].
  Qed.

  Lemma store_rest cur base m (L : Z -> list (Row P)) : RelD cur base [1] m L ->
    RelD cur base [] (writeBufferIntoCell zeroRow one dims base m ((curSl m + 1) mod 2) 1) L.
  Proof.
    intros R. pose proof R as [R1 R2 R3 R4 R5 R6 R7 R8].
    destruct (store_slice base m ((curSl m + 1) mod 2) 1 (L (base + 1)) (L (base + 1 + dx))) as (C & B & O & S).
    - rewrite R1. apply R4. now left.
    - rewrite R1, !R7. apply R5. now left.
    - now rewrite R8, R7.
    - now rewrite R8, R7.
    - constructor; auto.
      + now rewrite S.
      + intros j [].
      + intros j [].
      + intros j [].
      + intros k _. rewrite C. destruct (Z.eqb_spec k (base + 1)) as [->|N0]; [reflexivity|].
        destruct (Z.eqb_spec k (base + 1 + dx)) as [->|N1]; [reflexivity|].
        apply R6. intros j [<-|[]]; unfold loadedCell in *; lia.
      + intros k. rewrite C. destruct (Z.eqb_spec k (base + 1)) as [->|]; [apply R7|].
        destruct (Z.eqb_spec k (base + 1 + dx)) as [->|]; [apply R7|apply R8].
  Qed.

  Lemma store_sim cur base x m (L : Z -> list (Row P)) : RelD cur base full m L ->
    RelD cur base (if x =? dx - 2 then [] else [1]) (storeBuffers zeroRow one dims base x m) L.
  Proof.
    intros R. unfold storeBuffers. rewrite numSlices2. change (ix one) with 1. replace (dx - 1 - 1) with (dx - 2) by ring.
    pose proof (store_half _ _ _ _ R) as R1. destruct (x =? dx - 2); [|exact R1].
    change (zrange 1 2) with [1]. cbn [fold_left]. exact (store_rest _ _ _ _ R1).
  Qed.

  (** * A line *)
  Notation processC := (c04cProcessBaseCell zeroRow useN3 near one dims size).
  Definition curAt (x : Z) : Z := x mod 2.

  Lemma cell_step x y z m (L : Z -> list (Row P)) b0 c0 : 0 <= x <= dx - 2 ->
    (if x =? 0 then RelD c0 b0 [] m L else RelD (curAt (x - 1)) (threeToOneD (mkI3 x y z) dims - 1) [1] m L) ->
    RelD (curAt x) (threeToOneD (mkI3 x y z) dims) (if x =? dx - 2 then [] else [1]) (processC m (mkI3 x y z))
      (fold_left stepE (opsBase (curAt x) (threeToOneD (mkI3 x y z) dims)) L).
  Proof.
    intros Hx H. unfold c04cProcessBaseCell. change (ix (mkI3 x y z)) with x. set (base := threeToOneD (mkI3 x y z) dims) in *.
    assert (RL : RelD (curAt x) base full (loadBuffers one dims size base x m) L).
    { destruct (Z.eqb_spec x 0) as [->|Hx0]; [exact (load_first _ _ _ _ _ H)|].
      replace (curAt x) with ((curAt (x - 1) + 1) mod 2); [now apply load_next|].
      unfold curAt. rewrite Zplus_mod_idemp_l. f_equal. ring. }
    apply store_sim. now apply interactions_sim.
  Qed.

  Definition lineOps (yz : Z * Z) : list (Z * Z) :=
    flat_map (fun x => opsBase (curAt x) (threeToOneD (mkI3 x (fst yz) (snd yz)) dims)) (zrange 0 (dx - 1)).

  Lemma zsteps1 hi : zsteps 0 hi 1 = zrange 0 hi.
  Proof.
    unfold zsteps, zrange. rewrite Z.div_1_r. replace (hi - 0 + 1 - 1) with (hi - 0) by ring. apply map_ext. intros k. ring.
  Qed.

  Lemma zrange_snoc' n : 0 <= n -> zrange 0 (n + 1) = zrange 0 n ++ [n].
  Proof.
    intros H. unfold zrange. replace (Z.to_nat (n + 1 - 0)) with (S (Z.to_nat (n - 0))) by lia.
    rewrite seq_S, map_app. cbn [map]. f_equal. f_equal. lia.
  Qed.

  Lemma line_sim cells0 thread yz (L : Z -> list (Row P)) : (forall k, cells0 k = L k) -> (forall k, length (L k) = size k) ->
    forall k, cellRow (c04cLine zeroRow useN3 near one dims size (mkMem cells0 (comb thread) (combOff thread) (curSl thread)) yz) k
              = fold_left stepE (lineOps yz) L k.
  Proof.
    intros H0 HL. unfold c04cLine, c04cLineBases, lineOps. change (ix one) with 1. rewrite zsteps1.
    set (m0 := mkMem cells0 (comb thread) (combOff thread) (curSl thread)). destruct yz as [y z]. cbn [fst snd].
    assert (G : forall n, (n < Z.to_nat (dx - 1))%nat -> let x := Z.of_nat n in
      RelD (curAt x) (threeToOneD (mkI3 x y z) dims) (if x =? dx - 2 then [] else [1])
        (fold_left processC (map (fun x => mkI3 x y z) (zrange 0 (x + 1))) m0)
        (fold_left stepE (flat_map (fun x => opsBase (curAt x) (threeToOneD (mkI3 x y z) dims)) (zrange 0 (x + 1))) L)).
    { induction n as [|n IH]; intros Hn; cbv zeta in *.
      - change (Z.of_nat 0) with 0. change (0 + 1) with 1. change (zrange 0 1) with [0]. cbn [map fold_left flat_map]. rewrite app_nil_r.
        assert (R0 : RelD 0 0 [] (mkMem (cellRow m0) (comb m0) (combOff m0) 0) L).
        { constructor; cbn [cellRow comb combOff curSl].
          - reflexivity.
          - lia.
          - intros j [].
          - intros j [].
          - intros j [].
          - intros k _. apply H0.
          - exact HL.
          - intros k. change (cellRow m0 k) with (cells0 k). rewrite H0. apply HL. }
        replace (processC m0 (mkI3 0 y z)) with (processC (mkMem (cellRow m0) (comb m0) (combOff m0) 0) (mkI3 0 y z)) by reflexivity.
        apply (cell_step 0 y z _ L 0 0); [lia|]. exact R0.
      - specialize (IH ltac:(lia)).
        rewrite (zrange_snoc' (Z.of_nat (S n))) by lia.
        replace (Z.of_nat n + 1) with (Z.of_nat (S n)) in IH by lia.
        rewrite map_app, fold_left_app, flat_map_app, fold_left_app. cbn [map fold_left flat_map]. rewrite app_nil_r.
        apply (cell_step _ y z _ _ 0 0); [lia|].
        rewrite (proj2 (Z.eqb_neq (Z.of_nat (S n)) 0)) by lia.
        rewrite (proj2 (Z.eqb_neq (Z.of_nat n) (dx - 2))) in IH by lia.
        replace (Z.of_nat (S n) - 1) with (Z.of_nat n) by lia.
        replace (threeToOneD (mkI3 (Z.of_nat (S n)) y z) dims - 1) with (threeToOneD (mkI3 (Z.of_nat n) y z) dims).
        2:{ rewrite !flat_at. lia. }
        exact IH. }
    specialize (G (Z.to_nat (dx - 2)) ltac:(lia)). cbv zeta in G. rewrite Z2Nat.id in G by lia.
    replace (dx - 2 + 1) with (dx - 1) in G by ring. rewrite Z.eqb_refl in G.
    intros k. apply (r_cell _ _ _ _ _ _ _ G). intros j [].
  Qed.
End HandlerSim.
