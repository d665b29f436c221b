(** Proofs about the particle properties library. *)
From Coq Require Import Reals List Arith Lia Lra.
From Verif.Base Require Import ZRange OptionM.
From Verif.MD Require Import MixingModel MixingSpec.
Import ListNotations.
Local Open Scope nat_scope.

Lemma nth_set {A} i j (v : A) l : i < length l ->
  nth_error (setNth i v l) j = if Nat.eqb j i then Some v else nth_error l j.
Proof.
  unfold setNth. intros H. destruct (Nat.eqb j i) eqn:E.
  - apply Nat.eqb_eq in E. subst j. rewrite nth_error_app2; rewrite firstn_length, Nat.min_l by lia; [|lia].
    now rewrite Nat.sub_diag.
  - apply Nat.eqb_neq in E. destruct (Nat.lt_ge_cases j i).
    + rewrite nth_error_app1 by (rewrite firstn_length; lia).
      rewrite <- (firstn_skipn i l) at 2. rewrite nth_error_app1 by (rewrite firstn_length; lia). reflexivity.
    + rewrite nth_error_app2 by (rewrite firstn_length; lia). rewrite firstn_length, Nat.min_l by lia.
      destruct (j - i) as [|k] eqn:K; [lia|]. cbn [nth_error].
      rewrite <- (firstn_skipn (S i) l) at 2. rewrite nth_error_app2 by (rewrite firstn_length; lia).
      rewrite firstn_length, Nat.min_l by lia. f_equal. lia.
Qed.
Lemma length_set {A} i (v : A) l : i < length l -> length (setNth i v l) = length l.
Proof. intros H. unfold setNth. rewrite app_length, firstn_length. cbn [length]. rewrite skipn_length. lia. Qed.

(** The vectors hold the parameters once Lennard-Jones data is stored. *)
Definition libInv (rs : list Registration) (l : Library) : Prop :=
  (storeLJ l = true -> length (epsilons l) = siteTypes l /\ length (sigmas l) = siteTypes l /\
     forall i, i < siteTypes l -> nth_error (epsilons l) i = Some (fst (parametersOf rs i)) /\
                                  nth_error (sigmas l) i = Some (snd (parametersOf rs i))) /\
  (storeLJ l = false -> epsilons l = [] /\ sigmas l = [] /\ forall i, parametersOf rs i = (0, 0)%R) /\
  siteTypes l = numSites rs /\ (storeLJ l = true <-> usesLJ rs) /\
  (forall i, siteTypes l <= i -> parametersOf rs i = (0, 0)%R).
(** Likewise for the Axilrod-Teller data. *)
Definition atInv (rs : list Registration) (l : Library) : Prop :=
  (storeAT l = true -> length (nus l) = siteTypes l /\ forall i, i < siteTypes l -> nth_error (nus l) i = Some (nuOfType rs i)) /\
  (storeAT l = false -> nus l = [] /\ forall i, nuOfType rs i = 0%R) /\
  (storeAT l = true <-> usesAT rs) /\ (forall i, siteTypes l <= i -> nuOfType rs i = 0%R).

Lemma parameters_snoc rs r i : parametersOf (rs ++ [r]) i =
  match r with RLJ id e s => if Nat.eqb i id then (e, s) else parametersOf rs i | _ => parametersOf rs i end.
Proof. unfold parametersOf. rewrite fold_left_app. cbn. destruct r; reflexivity. Qed.
Lemma nu_snoc rs r i : nuOfType (rs ++ [r]) i =
  match r with RAT id n => if Nat.eqb i id then n else nuOfType rs i | _ => nuOfType rs i end.
Proof. unfold nuOfType. rewrite fold_left_app. cbn. destruct r; reflexivity. Qed.
Lemma numSites_snoc rs r : numSites (rs ++ [r]) = numSites rs + match r with RSite _ => 1 | _ => 0 end.
Proof. unfold numSites. rewrite filter_app, app_length. destruct r; reflexivity. Qed.

Lemma register_inv rs r l l' : libInv rs l -> register r l = Some l' -> libInv (rs ++ [r]) l'.
Proof.
  intros (I1 & I2 & I3 & I4 & I5) E. destruct r as [id|id e s|id nu]; cbn [register] in E.
  - unfold addSiteType in E. destruct (Nat.eqb (siteTypes l) id) eqn:Q; [|discriminate]. injection E as <-.
    apply Nat.eqb_eq in Q. split; [|split; [|split; [|split]]]; cbn [storeLJ siteTypes epsilons sigmas].
    + intros T. rewrite T. destruct (I1 T) as (L1 & L2 & N). rewrite !app_length, L1, L2. cbn.
      split; [lia|]. split; [lia|]. intros i Hi. rewrite parameters_snoc.
      destruct (Nat.eq_dec i (siteTypes l)) as [-> |Ni].
      * rewrite !nth_error_app2 by lia. rewrite L1, L2, Nat.sub_diag. cbn. now rewrite (I5 (siteTypes l) (Nat.le_refl _)).
      * rewrite !nth_error_app1 by lia. apply N. lia.
    + intros T. rewrite T. destruct (I2 T) as (L1 & L2 & N). split; [assumption|]. split; [assumption|].
      intros i. rewrite parameters_snoc. apply N.
    + rewrite numSites_snoc. lia.
    + rewrite I4. unfold usesLJ. split; intros (x & e & s & H); exists x, e, s.
      * apply in_or_app. now left.
      * apply in_app_or in H. destruct H as [H|[H|[]]]; [assumption|discriminate].
    + intros i Hi. rewrite parameters_snoc. apply I5. lia.
  - unfold addLJ in E. destruct (Nat.leb (siteTypes l) id) eqn:Q; [discriminate|]. apply Nat.leb_gt in Q.
    injection E as <-.
    assert (exists es ss, (if Nat.eqb (length (epsilons l)) (siteTypes l) then epsilons l else resize (siteTypes l) (epsilons l)) = es /\
              (if Nat.eqb (length (epsilons l)) (siteTypes l) then sigmas l else resize (siteTypes l) (sigmas l)) = ss /\
              length es = siteTypes l /\ length ss = siteTypes l /\
              (forall i, i < siteTypes l -> nth_error es i = Some (fst (parametersOf rs i)) /\
                                  nth_error ss i = Some (snd (parametersOf rs i)))) as (es & ss & E1 & E2 & L1 & L2 & N).
    { destruct (storeLJ l) eqn:T.
      - destruct (I1 eq_refl) as (L1 & L2 & N). rewrite L1, Nat.eqb_refl. eauto 10.
      - destruct (I2 eq_refl) as (-> & -> & N). cbn [length]. destruct (Nat.eqb 0 (siteTypes l)) eqn:Z.
        { apply Nat.eqb_eq in Z. lia. }
        exists (repeat 0%R (siteTypes l)), (repeat 0%R (siteTypes l)). unfold resize. rewrite firstn_nil, Nat.sub_0_r. cbn [app].
        rewrite repeat_length. repeat split; rewrite N; cbn [fst snd];
          rewrite (nth_error_nth' _ 0%R) by (rewrite repeat_length; assumption); now rewrite nth_repeat. }
    rewrite E1, E2.
    split; [|split; [|split; [|split]]]; cbn [storeLJ siteTypes epsilons sigmas].
    + intros _. rewrite !length_set by lia. split; [assumption|]. split; [assumption|].
      intros i Hi. rewrite !nth_set by lia. rewrite parameters_snoc. destruct (Nat.eqb i id); [split; reflexivity|]. now apply N.
    + discriminate.
    + rewrite numSites_snoc. lia.
    + split; [|reflexivity]. intros _. exists id, e, s. apply in_or_app. right. now left.
    + intros i Hi. rewrite parameters_snoc. destruct (Nat.eqb i id) eqn:Z; [apply Nat.eqb_eq in Z; lia|]. now apply I5.
  - unfold addAT in E. destruct (Nat.leb (siteTypes l) id) eqn:Q; [discriminate|]. injection E as <-.
    split; [|split; [|split; [|split]]]; cbn [storeLJ siteTypes epsilons sigmas].
    + intros T. destruct (I1 T) as (L1 & L2 & N). split; [assumption|]. split; [assumption|]. intros i. rewrite parameters_snoc. apply N.
    + intros T. destruct (I2 T) as (L1 & L2 & N). split; [assumption|]. split; [assumption|]. intros i. rewrite parameters_snoc. apply N.
    + rewrite numSites_snoc. lia.
    + rewrite I4. unfold usesLJ. split; intros (x & e & s & H); exists x, e, s.
      * apply in_or_app. now left.
      * apply in_app_or in H. destruct H as [H|[H|[]]]; [assumption|discriminate].
    + intros i Hi. rewrite parameters_snoc. now apply I5.
Qed.

Lemma register_at rs r l l' : siteTypes l = numSites rs -> atInv rs l -> register r l = Some l' -> atInv (rs ++ [r]) l'.
Proof.
  intros Ns (I1 & I2 & I3 & I4) E. destruct r as [id|id e s|id nu]; cbn [register] in E.
  - unfold addSiteType in E. destruct (Nat.eqb (siteTypes l) id) eqn:Q; [|discriminate]. injection E as <-.
    split; [|split; [|split]]; cbn [storeAT siteTypes nus].
    + intros T. rewrite T. destruct (I1 T) as (L1 & N). rewrite app_length, L1. cbn. split; [lia|]. intros i Hi. rewrite nu_snoc.
      destruct (Nat.eq_dec i (siteTypes l)) as [-> |Ni].
      * rewrite nth_error_app2 by lia. rewrite L1, Nat.sub_diag. cbn. now rewrite (I4 (siteTypes l) (Nat.le_refl _)).
      * rewrite nth_error_app1 by lia. apply N. lia.
    + intros T. rewrite T. destruct (I2 T) as (L1 & N). split; [assumption|]. intros i. rewrite nu_snoc. apply N.
    + rewrite I3. unfold usesAT. split; intros (x & n & H); exists x, n.
      * apply in_or_app. now left.
      * apply in_app_or in H. destruct H as [H|[H|[]]]; [assumption|discriminate].
    + intros i Hi. rewrite nu_snoc. apply I4. lia.
  - unfold addLJ in E. destruct (Nat.leb (siteTypes l) id) eqn:Q; [discriminate|]. injection E as <-.
    split; [|split; [|split]]; cbn [storeAT siteTypes nus].
    + intros T. destruct (I1 T) as (L1 & N). split; [assumption|]. intros i. rewrite nu_snoc. apply N.
    + intros T. destruct (I2 T) as (L1 & N). split; [assumption|]. intros i. rewrite nu_snoc. apply N.
    + rewrite I3. unfold usesAT. split; intros (x & n & H); exists x, n.
      * apply in_or_app. now left.
      * apply in_app_or in H. destruct H as [H|[H|[]]]; [assumption|discriminate].
    + intros i Hi. rewrite nu_snoc. now apply I4.
  - unfold addAT in E. destruct (Nat.leb (siteTypes l) id) eqn:Q; [discriminate|]. apply Nat.leb_gt in Q. injection E as <-.
    assert (exists ns, (if Nat.eqb (length (nus l)) (siteTypes l) then nus l else resize (siteTypes l) (nus l)) = ns /\
              length ns = siteTypes l /\ (forall i, i < siteTypes l -> nth_error ns i = Some (nuOfType rs i))) as (ns & E1 & L1 & N).
    { destruct (storeAT l) eqn:T.
      - destruct (I1 eq_refl) as (L1 & N). rewrite L1, Nat.eqb_refl. eauto 10.
      - destruct (I2 eq_refl) as (-> & N). cbn [length]. destruct (Nat.eqb 0 (siteTypes l)) eqn:Z.
        { apply Nat.eqb_eq in Z. lia. }
        exists (repeat 0%R (siteTypes l)). unfold resize. rewrite firstn_nil, Nat.sub_0_r. cbn [app].
        rewrite repeat_length. repeat split. intros i Hi. rewrite N.
          rewrite (nth_error_nth' _ 0%R) by (rewrite repeat_length; assumption); now rewrite nth_repeat. }
    rewrite E1. split; [|split; [|split]]; cbn [storeAT siteTypes nus].
    + intros _. rewrite !length_set by lia. split; [assumption|].
      intros i Hi. rewrite !nth_set by lia. rewrite nu_snoc. destruct (Nat.eqb i id); [reflexivity|]. now apply N.
    + discriminate.
    + split; [|reflexivity]. intros _. exists id, nu. apply in_or_app. right. now left.
    + intros i Hi. rewrite nu_snoc. destruct (Nat.eqb i id) eqn:Z; [apply Nat.eqb_eq in Z; lia|]. now apply I4.
Qed.

Lemma register_cutoff r l l' : register r l = Some l' -> libCutoff l' = libCutoff l.
Proof.
  destruct r; cbn; unfold addSiteType, addLJ, addAT.
  - destruct (Nat.eqb _ _); [|discriminate]. now intros [= <-].
  - destruct (Nat.leb _ _); [discriminate|]. now intros [= <-].
  - destruct (Nat.leb _ _); [discriminate|]. now intros [= <-].
Qed.

Lemma registerAll_inv rs : forall done l l', libInv done l -> registerAll rs l = Some l' ->
  libInv (done ++ rs) l' /\ libCutoff l' = libCutoff l.
Proof.
  induction rs as [|r rs IH]; intros done l l' I E; cbn in E.
  - injection E as <-. rewrite app_nil_r. auto.
  - destruct (register r l) as [l1|] eqn:R1; [|discriminate].
    destruct (IH (done ++ [r]) l1 l' (register_inv _ _ _ _ I R1) E) as [I' C].
    rewrite <- app_assoc in I'. split; [exact I'|]. rewrite C. now apply (register_cutoff r).
Qed.

Lemma newLibrary_inv c : libInv [] (newLibrary c).
Proof.
  repeat split; try discriminate; cbn.
  intros (x & e & s & []).
Qed.

Lemma mapM_nth {A B} (f : A -> option B) (l : list A) : (forall a, In a l -> f a <> None) ->
  exists bs, mapM f l = Some bs /\ forall k a, nth_error l k = Some a -> nth_error bs k = f a.
Proof.
  induction l as [|a l IH]; intros H; [exists []; split; [reflexivity|intros [|k] a H0; discriminate]|].
  destruct (IH (fun x I => H x (or_intror I))) as (bs & E & N).
  pose proof (H a (or_introl eq_refl)) as Ha. cbn. destruct (f a) as [b|] eqn:Fa; [|contradiction].
  rewrite E. exists (b :: bs). split; [reflexivity|]. intros [|k] x Hx; cbn in *; [injection Hx as <-; now rewrite Fa|auto].
Qed.

Lemma nth_square n m i j : i < m -> j < n ->
  nth_error (flat_map (fun i => map (pair i) (seq 0 n)) (seq 0 m)) (i * n + j) = Some (i, j).
Proof.
  intros Hi Hj.
  assert (G : forall a k, k < m -> nth_error (flat_map (fun i => map (pair i) (seq 0 n)) (seq a m)) (k * n + j) = Some (a + k, j)).
  { clear i Hi. induction m as [|m IH]; intros a k Hk; [lia|]. cbn [seq flat_map].
    destruct k as [|k].
    - rewrite nth_error_app1 by (rewrite map_length, seq_length; lia). cbn [Nat.mul Nat.add].
      rewrite Nat.add_0_r. rewrite nth_error_map. rewrite (nth_error_nth' _ 0) by (rewrite seq_length; lia).
      rewrite seq_nth by lia. reflexivity.
    - rewrite nth_error_app2 by (rewrite map_length, seq_length; nia). rewrite map_length, seq_length.
      replace (S k * n + j - n) with (k * n + j) by nia. rewrite IH by lia. do 2 f_equal. lia. }
  apply (G 0 i Hi).
Qed.

Lemma registerAll_at rs : forall done l l', libInv done l -> atInv done l -> registerAll rs l = Some l' -> atInv (done ++ rs) l'.
Proof.
  induction rs as [|r rs IH]; intros done l l' I J E; cbn in E.
  - injection E as <-. now rewrite app_nil_r.
  - destruct (register r l) as [l1|] eqn:R1; [|discriminate]. assert (Ns : siteTypes l = numSites done) by apply I.
    specialize (IH (done ++ [r]) l1 l' (register_inv _ _ _ _ I R1) (register_at _ _ _ _ Ns J R1) E). now rewrite <- app_assoc in IH.
Qed.
Lemma newLibrary_at c : atInv [] (newLibrary c).
Proof. repeat split; try discriminate; cbn. intros (x & n & []). Qed.

Lemma length_below n : length (pairsBelow n) = n * n.
Proof.
  unfold pairsBelow. assert (G : forall l : list nat, length (flat_map (fun i => map (pair i) (seq 0 n)) l) = length l * n).
  { induction l as [|a l IH]; [reflexivity|]. cbn [flat_map]. rewrite app_length, map_length, seq_length, IH. cbn [length]. lia. }
  now rewrite G, seq_length.
Qed.
Lemma nth_blocks {A B} (f : A -> list B) n l k i x b : (forall a, length (f a) = n) -> nth_error l k = Some x -> nth_error (f x) i = Some b ->
  nth_error (flat_map f l) (k * n + i) = Some b.
Proof.
  intros L. revert k. induction l as [|a l IH]; intros [|k] Hx Hb; try discriminate; cbn [flat_map].
  - injection Hx as ->. cbn [Nat.mul Nat.add]. rewrite nth_error_app1; [exact Hb|]. apply nth_error_Some. congruence.
  - rewrite nth_error_app2 by (rewrite L; nia). rewrite L. replace (S k * n + i - n) with (k * n + i) by nia. apply IH; assumption.
Qed.
Lemma nth_cube n i j k : i < n -> j < n -> k < n -> nth_error (triplesBelow n) (i * n * n + j * n + k) = Some (i, (j, k)).
Proof.
  intros Hi Hj Hk. replace (i * n * n + j * n + k) with (i * (n * n) + (j * n + k)) by nia.
  unfold triplesBelow. apply nth_blocks with (x := i).
  - intros a. now rewrite map_length, length_below.
  - rewrite (nth_error_nth' _ 0) by (rewrite seq_length; lia). now rewrite seq_nth.
  - rewrite nth_error_map. unfold pairsBelow. rewrite nth_square by assumption. reflexivity.
Qed.
Lemma in_pairsBelow n x y : In (x, y) (pairsBelow n) -> x < n /\ y < n.
Proof.
  intros I. apply in_flat_map in I. destruct I as (x' & Ix & Iy). apply in_map_iff in Iy. destruct Iy as (y' & [= <- <-] & Iy). apply in_seq in Ix, Iy. lia.
Qed.
Lemma in_triplesBelow n x y z : In (x, (y, z)) (triplesBelow n) -> x < n /\ y < n /\ z < n.
Proof.
  intros I. apply in_flat_map in I. destruct I as (x' & Ix & Iy). apply in_map_iff in Iy. destruct Iy as ((y', z') & [= <- <- <-] & Iy).
  apply in_seq in Ix. apply in_pairsBelow in Iy. lia.
Qed.

(** The tables. *)
Lemma mixing_tables rs cutoff l : registerAll rs (newLibrary cutoff) = Some l ->
  exists t u, calculateMixing l = Some (mkLib (siteTypes l) (libCutoff l) (epsilons l) (sigmas l) (storeLJ l) t (nus l) (storeAT l) u) /\
    siteTypes l = numSites rs /\
    (usesLJ rs -> forall i j, i < numSites rs -> j < numSites rs -> nth_error t (i * siteTypes l + j) = Some (mixed cutoff (parametersOf rs i) (parametersOf rs j))) /\
    (usesAT rs -> forall i j k, i < numSites rs -> j < numSites rs -> k < numSites rs ->
       nth_error u (i * siteTypes l * siteTypes l + j * siteTypes l + k) = Some (cbrt (nuOfType rs i * nuOfType rs j * nuOfType rs k))).
Proof.
  intros E.
  destruct (registerAll_inv rs [] _ _ (newLibrary_inv cutoff) E) as [(I1 & _ & I3 & I4 & _) Cut].
  destruct (registerAll_at rs [] _ _ (newLibrary_inv cutoff) (newLibrary_at cutoff) E) as (J1 & _ & J3 & _). cbn [app] in *.
  assert (T1 : exists t, (if storeLJ l then mapM (fun ij => mixEntry l (fst ij) (snd ij)) (pairsBelow (siteTypes l)) else Some (ljTable l)) = Some t /\
    (usesLJ rs -> forall i j, i < numSites rs -> j < numSites rs -> nth_error t (i * siteTypes l + j) = Some (mixed cutoff (parametersOf rs i) (parametersOf rs j)))).
  { destruct (storeLJ l); [|exists (ljTable l); split; [reflexivity|]; intros U; apply I4 in U; discriminate]. destruct (I1 eq_refl) as (L1 & L2 & N).
    destruct (mapM_nth (fun ij => mixEntry l (fst ij) (snd ij)) (pairsBelow (siteTypes l))) as (t & Et & Nt).
    { intros [x y] I. apply in_pairsBelow in I as (Ix & Iy). unfold mixEntry. cbn [fst snd].
      destruct (N x) as [-> ->]; [lia|]. destruct (N y) as [-> ->]; [lia|]. discriminate. }
    exists t. split; [exact Et|]. intros _ i j Hi Hj. unfold pairsBelow in Nt. rewrite (Nt _ (i, j)) by (apply nth_square; lia). unfold mixEntry. cbn [fst snd].
    destruct (N i) as [-> ->]; [lia|]. destruct (N j) as [-> ->]; [lia|]. rewrite Cut. reflexivity. }
  assert (T2 : exists u, (if storeAT l then mapM (fun ijk => mixEntryAT l (fst ijk) (fst (snd ijk)) (snd (snd ijk))) (triplesBelow (siteTypes l)) else Some (atTable l)) = Some u /\
    (usesAT rs -> forall i j k, i < numSites rs -> j < numSites rs -> k < numSites rs ->
       nth_error u (i * siteTypes l * siteTypes l + j * siteTypes l + k) = Some (cbrt (nuOfType rs i * nuOfType rs j * nuOfType rs k)))).
  { destruct (storeAT l); [|exists (atTable l); split; [reflexivity|]; intros U; apply J3 in U; discriminate]. destruct (J1 eq_refl) as (L1 & N).
    destruct (mapM_nth (fun ijk => mixEntryAT l (fst ijk) (fst (snd ijk)) (snd (snd ijk))) (triplesBelow (siteTypes l))) as (u & Et & Nt).
    { intros (x & y & z) I. apply in_triplesBelow in I as (Ix & Iy & Iz). unfold mixEntryAT. cbn [fst snd].
      rewrite (N x), (N y), (N z) by lia. discriminate. }
    exists u. split; [exact Et|]. intros _ i j k Hi Hj Hk. rewrite (Nt _ (i, (j, k))) by (apply nth_cube; lia). unfold mixEntryAT. cbn [fst snd].
    rewrite (N i), (N j), (N k) by lia. reflexivity. }
  destruct T1 as (t & E1 & N1), T2 as (u & E2 & N2). exists t, u. unfold calculateMixing. rewrite E1, E2. auto.
Qed.

Lemma mixing_table rs cutoff l l' : registerAll rs (newLibrary cutoff) = Some l -> usesLJ rs ->
  calculateMixing l = Some l' -> forall i j, i < numSites rs -> j < numSites rs ->
  getMixing l' i j = Some (mixed cutoff (parametersOf rs i) (parametersOf rs j)).
Proof.
  intros E U C. destruct (mixing_tables rs cutoff l E) as (t & u & C' & _ & N & _). rewrite C' in C. injection C as <-. exact (N U).
Qed.
Lemma mixing_nu rs cutoff l l' : registerAll rs (newLibrary cutoff) = Some l -> usesAT rs ->
  calculateMixing l = Some l' -> forall i j k, i < numSites rs -> j < numSites rs -> k < numSites rs ->
  getMixingNu l' i j k = Some (cbrt (nuOfType rs i * nuOfType rs j * nuOfType rs k)).
Proof.
  intros E U C. destruct (mixing_tables rs cutoff l E) as (t & u & C' & _ & _ & N). rewrite C' in C. injection C as <-. exact (N U).
Qed.
Lemma mixing_defined rs cutoff l : registerAll rs (newLibrary cutoff) = Some l -> exists l', calculateMixing l = Some l'.
Proof. intros E. destruct (mixing_tables rs cutoff l E) as (t & u & C & _). eauto. Qed.

(** cbrt is the cube root. *)
Lemma cbrt_cube x : (cbrt x * cbrt x * cbrt x)%R = x.
Proof.
  assert (P : forall y, (0 < y)%R -> (Rpower y (1 / 3) * Rpower y (1 / 3) * Rpower y (1 / 3))%R = y).
  { intros y Hy. rewrite <- !Rpower_plus. replace (1 / 3 + 1 / 3 + 1 / 3)%R with 1%R by field. apply Rpower_1, Hy. }
  unfold cbrt. destruct (Rlt_dec 0 x) as [H|H]; [apply P, H|]. destruct (Rlt_dec x 0) as [H'|H'].
  - replace (- Rpower (- x) (1 / 3) * - Rpower (- x) (1 / 3) * - Rpower (- x) (1 / 3))%R with (- (Rpower (- x) (1 / 3) * Rpower (- x) (1 / 3) * Rpower (- x) (1 / 3)))%R by ring.
    rewrite P by lra. ring.
  - lra.
Qed.
