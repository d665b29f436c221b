(** lc_c04_combined_SoA: the buffers together with the cells represent the rows of
    all cells, and every functor call acts on whole cells. *)
From Verif.Base Require Import ZRange Occ.
From Verif.Grid Require Import IndexModel IndexSpec IndexProofs.
From Verif.Traversal Require Import CellSpec C08Model.
From Verif.Utils Require Import SoAModel.
From Verif.Container Require Import CombinedC04Model CombinedC04Offsets.

Local Open Scope Z_scope.

Lemma mod2_cases c : 0 <= c < 2 -> c = 0 \/ c = 1.
Proof. lia. Qed.

Lemma in_full j : In j [0; 1] <-> 0 <= j < 2.
Proof. cbn. lia. Qed.

(** The slot of the slice with relative x position [j]. *)
Definition slot (cur j : Z) : Z := (cur + j) mod 2.
Lemma slot_inj cur j j' : 0 <= j < 2 -> 0 <= j' < 2 -> slot cur j = slot cur j' -> j = j'.
Proof.
  unfold slot. intros Hj Hj' E. apply (f_equal (fun v => (v - cur) mod 2)) in E. rewrite !Zminus_mod_idemp_l in E.
  replace (cur + j - cur) with j in E by ring. replace (cur + j' - cur) with j' in E by ring.
  now rewrite !Z.mod_small in E by lia.
Qed.

Section Sim.
  Context {P : Type}.
  Variable useN3 : bool.
  Variable dims : I3.
  Variable size : Z -> nat.
  Notation dx := (ix dims).
  Notation Logic := (Z -> list (Row P)).
  Hypothesis Hdx : 2 <= ix dims.

  (** * Effects on whole cells *)
  Definition names (L : Logic) (k : Z) : list P := map rowP (L k).
  Definition stepE (L : Logic) (e : Z * Z) : Logic :=
    let '(i, j) := e in
    fun k => if i =? j then (if k =? i then gainOthers [] (L i) else L k)
             else if k =? i then map (gain (names L j)) (L i)
             else if k =? j then map (gain (names L i)) (L j)
             else L k.
  Definition eqL (L L' : Logic) : Prop := forall k, L k = L' k.

  Lemma eqL_refl L : eqL L L. Proof. intros k. reflexivity. Qed.
  Lemma eqL_trans L1 L2 L3 : eqL L1 L2 -> eqL L2 L3 -> eqL L1 L3.
  Proof. intros H1 H2 k. now rewrite H1. Qed.

  Lemma stepE_eqL L L' e : eqL L L' -> eqL (stepE L e) (stepE L' e).
  Proof.
    intros H k. destruct e as [i j]. unfold stepE, names. now rewrite !(H i), !(H j), (H k).
  Qed.
  Lemma steps_eqL es : forall L L', eqL L L' -> eqL (fold_left stepE es L) (fold_left stepE es L').
  Proof. induction es as [|e es IH]; intros L L' H; [exact H|]. cbn [fold_left]. apply IH. now apply stepE_eqL. Qed.

  Lemma gain_nil r : gain (@nil P) r = r.
  Proof. destruct r as [p g]. unfold gain. cbn [rowP got]. now rewrite app_nil_r. Qed.
  Lemma map_gain_nil l : map (gain (@nil P)) l = l.
  Proof. induction l as [|r l IH]; [reflexivity|]. cbn [map]. now rewrite gain_nil, IH. Qed.
  Lemma map_gain_gain (q1 q2 : list P) l : map (gain q2) (map (gain q1) l) = map (gain (q1 ++ q2)) l.
  Proof. rewrite map_map. apply map_ext. intros r. unfold gain. cbn [rowP got]. now rewrite app_assoc. Qed.
  Lemma rowP_gain (q : list P) l : map rowP (map (gain q) l) = map rowP l.
  Proof. rewrite map_map. reflexivity. Qed.
  Lemma rowP_gainOthers l : forall q, map (@rowP P) (gainOthers q l) = map rowP l.
  Proof. induction l as [|r l IH]; intros q; [reflexivity|]. cbn [gainOthers map gain rowP]. now rewrite IH. Qed.
  Lemma length_gainOthers l : forall q : list P, length (gainOthers q l) = length l.
  Proof. induction l as [|r l IH]; intros q; [reflexivity|]. cbn [gainOthers length]. now rewrite IH. Qed.

  Lemma step_empty L i j : L i = [] -> eqL L (stepE L (i, j)).
  Proof.
    intros E k. unfold stepE, names. destruct (Z.eqb_spec i j) as [<-|Hne].
    - destruct (Z.eqb_spec k i) as [->|]; [now rewrite E|reflexivity].
    - destruct (Z.eqb_spec k i) as [->|]; [now rewrite E|]. destruct (Z.eqb_spec k j) as [->|]; [|reflexivity].
      rewrite E. cbn [map]. now rewrite map_gain_nil.
  Qed.

  (** * The representation *)
  Definition loadedCell (base j k : Z) : Prop := k = base + j \/ k = base + j + dx.
  Record Rel (cur base : Z) (ld : list Z) (m : Mem) (L : Logic) : Prop := {
    r_cur : curSl m = cur;
    r_range : 0 <= cur < 2;
    r_ld : forall j, In j ld -> 0 <= j < 2;
    r_comb : forall j, In j ld -> comb m (slot cur j) = L (base + j) ++ L (base + j + dx);
    r_off : forall j, In j ld -> combOff m (slot cur j) = [0; size (base + j); (size (base + j) + size (base + j + dx))]%nat;
    r_cell : forall k, (forall j, In j ld -> ~ loadedCell base j k) -> cellRow m k = L k;
    r_size : forall k, length (L k) = size k;
    r_csize : forall k, length (cellRow m k) = size k }.

  Lemma Rel_eqL cur base ld m L L' : Rel cur base ld m L -> eqL L L' -> Rel cur base ld m L'.
  Proof.
    intros [R1 R2 R3 R4 R5 R6 R7 R8] H. constructor; auto.
    - intros j Hj. rewrite <- !H. now apply R4.
    - intros k Hk. rewrite <- H. now apply R6.
    - intros k. rewrite <- H. apply R7.
  Qed.

  (** Views that cover whole cells. *)
  Inductive repr (cur base : Z) : View -> list Z -> Prop :=
  | rCell k : (forall j, 0 <= j < 2 -> ~ loadedCell base j k) -> repr cur base (mkView (InCell k) 0 (size k)) [k]
  | rFirst j : 0 <= j < 2 -> repr cur base (mkView (InComb (slot cur j)) 0 (size (base + j))) [base + j]
  | rSecond j : 0 <= j < 2 ->
      repr cur base (mkView (InComb (slot cur j)) (size (base + j)) (size (base + j) + size (base + j + dx))) [base + j + dx]
  | rBoth j : 0 <= j < 2 ->
      repr cur base (mkView (InComb (slot cur j)) 0 (size (base + j) + size (base + j + dx))) [base + j; base + j + dx].

  Notation full := [0; 1].


  Lemma view_rows cur base m L v cs : Rel cur base full m L -> repr cur base v cs -> viewRows m v = flat_map L cs.
  Proof.
    intros R H. destruct H as [k Hk|j Hj|j Hj|j Hj]; unfold viewRows; cbn [vFrom vTo vLoc readLoc flat_map].
    - rewrite (r_cell _ _ _ _ _ R). 2:{ intros j Hj. apply Hk. now apply in_full. }
      rewrite Nat.sub_0_r, skipn_O, app_nil_r. rewrite <- (r_size _ _ _ _ _ R k). apply firstn_all.
    - rewrite (r_comb _ _ _ _ _ R) by now apply in_full.
      rewrite Nat.sub_0_r, skipn_O, app_nil_r, <- (r_size _ _ _ _ _ R (base + j)).
      rewrite firstn_app, firstn_all, Nat.sub_diag, firstn_O. apply app_nil_r.
    - rewrite (r_comb _ _ _ _ _ R) by now apply in_full.
      rewrite <- (r_size _ _ _ _ _ R (base + j)), skipn_app, skipn_all, Nat.sub_diag, skipn_O, app_nil_r. cbn [app].
      rewrite <- (r_size _ _ _ _ _ R (base + j + dx)).
      rewrite Nat.add_comm, Nat.add_sub. apply firstn_all.
    - rewrite (r_comb _ _ _ _ _ R) by now apply in_full.
      rewrite Nat.sub_0_r, skipn_O, app_nil_r, <- (r_size _ _ _ _ _ R (base + j)), <- (r_size _ _ _ _ _ R (base + j + dx)), <- app_length.
      apply firstn_all.
  Qed.

  Lemma comb_update cur base m L L' j v : Rel cur base full m L -> 0 <= j < 2 ->
    (forall k, length (L' k) = size k) -> (forall k, ~ loadedCell base j k -> L' k = L k) ->
    v = L' (base + j) ++ L' (base + j + dx) ->
    Rel cur base full (writeLoc m (InComb (slot cur j)) v) L'.
  Proof.
    intros R Hj Hlen Hout ->. pose proof R as [R1 R2 R3 R4 R5 R6 R7 R8]. constructor; cbn [writeLoc cellRow comb combOff curSl]; auto.
    - intros j' Hj'. unfold setAt. destruct (Z.eqb_spec (slot cur j') (slot cur j)) as [E|E].
      + apply slot_inj in E; [now subst j'|now apply in_full|exact Hj].
      + assert (j' <> j) by (intros ->; now apply E). apply in_full in Hj'.
        rewrite R4 by now apply in_full. f_equal; symmetry; apply Hout; unfold loadedCell; lia.
    - intros k Hk. rewrite (R6 k Hk). symmetry. apply Hout. apply Hk. now apply in_full.
  Qed.

  Lemma set_view cur base m L v cs L' : Rel cur base full m L -> repr cur base v cs ->
    (forall k, length (L' k) = size k) -> (forall k, ~ In k cs -> L' k = L k) ->
    Rel cur base full (setView m v (flat_map L' cs)) L'.
  Proof.
    intros R H Hlen Hout. pose proof R as [R1 R2 R3 R4 R5 R6 R7 R8].
    destruct H as [k Hk|j Hj|j Hj|j Hj]; unfold setView; cbn [vFrom vTo vLoc readLoc flat_map].
    - rewrite R6. 2:{ intros j Hj. apply Hk. now apply in_full. }
      rewrite firstn_O, app_nil_r, <- (R7 k), skipn_all, app_nil_r. cbn [app writeLoc].
      constructor; cbn [cellRow comb combOff curSl]; auto.
      + intros j Hj. rewrite R4 by exact Hj. apply in_full in Hj. pose proof (Hk j Hj) as Hn. unfold loadedCell in Hn.
        f_equal; symmetry; apply Hout; intros [E|[]]; apply Hn; lia.
      + intros k' Hk'. unfold setAt. destruct (Z.eqb_spec k' k) as [->|Hne]; [reflexivity|].
        rewrite (R6 k' Hk'). symmetry. apply Hout. intros [E|[]]. congruence.
      + intros k'. unfold setAt. destruct (Z.eqb_spec k' k) as [->|Hne]; [apply Hlen|apply R8].
    - rewrite R4 by now apply in_full. rewrite firstn_O, app_nil_r, <- (R7 (base + j)), skipn_app, skipn_all, Nat.sub_diag, skipn_O. cbn [app].
      apply (comb_update cur base m L L' j); auto.
      + intros k Hk. apply Hout. unfold loadedCell in Hk. intros [E|[]]. apply Hk. lia.
      + f_equal. symmetry. apply Hout. intros [E|[]]. lia.
    - rewrite R4 by now apply in_full. rewrite <- (R7 (base + j)), firstn_app, firstn_all, Nat.sub_diag, firstn_O, !app_nil_r.
      rewrite <- (R7 (base + j + dx)), <- app_length, skipn_all, app_nil_r.
      apply (comb_update cur base m L L' j); auto.
      + intros k Hk. apply Hout. unfold loadedCell in Hk. intros [E|[]]. apply Hk. lia.
      + f_equal. symmetry. apply Hout. intros [E|[]]. lia.
    - rewrite R4 by now apply in_full. rewrite firstn_O, app_nil_r, <- (R7 (base + j)), <- (R7 (base + j + dx)), <- app_length, skipn_all, app_nil_r. cbn [app].
      apply (comb_update cur base m L L' j); auto.
      intros k Hk. apply Hout. unfold loadedCell in Hk. intros [E|[E|[]]]; apply Hk; lia.
  Qed.

  (** * Functor calls *)
  Definition inB (k : Z) (cs : list Z) : bool := existsb (Z.eqb k) cs.
  Lemma inB_iff k cs : inB k cs = true <-> In k cs.
  Proof.
    unfold inB. rewrite existsb_exists. split; [intros (x & H & E); apply Z.eqb_eq in E; now subst|].
    intros H. exists k. now rewrite Z.eqb_refl.
  Qed.
  Lemma inB_false k cs : inB k cs = false <-> ~ In k cs.
  Proof. rewrite <- inB_iff. destruct (inB k cs); split; congruence. Qed.

  Definition mapCells (cs : list Z) (f : Row P -> Row P) (L : Logic) : Logic := fun k => if inB k cs then map f (L k) else L k.

  Lemma flat_map_mapCells cs f L : map f (flat_map L cs) = flat_map (mapCells cs f L) cs.
  Proof.
    assert (G : forall l, (forall k, In k l -> In k cs) -> map f (flat_map L l) = flat_map (mapCells cs f L) l).
    { induction l as [|k l IH]; intros H; [reflexivity|]. cbn [flat_map]. rewrite map_app, IH by (intros; apply H; now right).
      f_equal. unfold mapCells. replace (inB k cs) with true; [reflexivity|]. symmetry. apply inB_iff. apply H. now left. }
    now apply G.
  Qed.

  Lemma mapCells_out cs f L k : ~ In k cs -> mapCells cs f L k = L k.
  Proof. intros H. unfold mapCells. now rewrite (proj2 (inB_false k cs) H). Qed.
  Lemma mapCells_length cs f L k : length (mapCells cs f L k) = length (L k).
  Proof. unfold mapCells. destruct (inB k cs); [apply map_length|reflexivity]. Qed.

  Definition pairL (cs1 cs2 : list Z) (L : Logic) : Logic :=
    mapCells cs2 (gain (map rowP (flat_map L cs1))) (mapCells cs1 (gain (map rowP (flat_map L cs2))) L).

  Lemma pairBoth_sim cur base m L v1 v2 cs1 cs2 : Rel cur base full m L -> repr cur base v1 cs1 -> repr cur base v2 cs2 ->
    (forall k, In k cs1 -> ~ In k cs2) -> Rel cur base full (pairBoth useN3 m v1 v2) (pairL cs1 cs2 L).
  Proof.
    intros R H1 H2 Hdis. set (L1 := mapCells cs1 (gain (map rowP (flat_map L cs2))) L).
    pose proof (r_size _ _ _ _ _ R) as HL.
    assert (R1 : Rel cur base full (setView m v1 (map (gain (map rowP (viewRows m v2))) (viewRows m v1))) L1).
    { rewrite (view_rows _ _ _ _ _ _ R H1), (view_rows _ _ _ _ _ _ R H2), flat_map_mapCells. fold L1.
      apply (set_view _ _ _ L); auto.
      - intros k. unfold L1. now rewrite mapCells_length.
      - intros k Hk. now apply mapCells_out. }
    assert (E2 : flat_map L1 cs2 = flat_map L cs2).
    { assert (G : forall l, (forall k, In k l -> In k cs2) -> flat_map L1 l = flat_map L l).
      { induction l as [|k l IH]; intros H; [reflexivity|]. cbn [flat_map]. rewrite IH by (intros; apply H; now right). f_equal.
        apply mapCells_out. intros Hk. apply (Hdis k Hk). apply H. now left. }
      now apply G. }
    assert (E1 : map rowP (flat_map L1 cs1) = map rowP (flat_map L cs1)).
    { unfold L1. rewrite <- flat_map_mapCells. apply rowP_gain. }
    assert (R2 : forall m1, Rel cur base full m1 L1 ->
      Rel cur base full (setView m1 v2 (map (gain (map rowP (flat_map L cs1))) (viewRows m1 v2))) (pairL cs1 cs2 L)).
    { intros m1 Rm. rewrite (view_rows _ _ _ _ _ _ Rm H2), flat_map_mapCells. apply (set_view _ _ _ L1); auto.
      - intros k. unfold pairL. rewrite !mapCells_length. apply HL.
      - intros k Hk. now apply mapCells_out. }
    unfold pairBoth, functorPair. destruct useN3.
    - rewrite (view_rows _ _ _ _ _ _ R H1). rewrite (view_rows _ _ _ _ _ _ R H1) in R1. apply R2. exact R1.
    - set (m1 := setView m v1 _) in *. rewrite (view_rows _ _ _ _ _ _ R1 H1), E1. now apply R2.
  Qed.

  Lemma pairL_two i j L : i <> j -> eqL (pairL [i] [j] L) (stepE L (i, j)).
  Proof.
    intros Hne k. unfold pairL, mapCells, inB, stepE, names. cbn [existsb flat_map]. rewrite !app_nil_r, !orb_false_r.
    apply Z.eqb_neq in Hne. rewrite Hne. apply Z.eqb_neq in Hne.
    destruct (Z.eqb_spec k i) as [->|Ki]; [now rewrite (proj2 (Z.eqb_neq i j) Hne)|].
    destruct (Z.eqb_spec k j) as [->|Kj]; reflexivity.
  Qed.

  Lemma pairL_three i j j' L : i <> j -> i <> j' -> j <> j' ->
    eqL (pairL [i] [j; j'] L) (stepE (stepE L (i, j)) (i, j')).
  Proof.
    intros H1 H2 H3 k. unfold pairL, mapCells, inB, stepE, names. cbn [existsb flat_map]. rewrite !app_nil_r, !orb_false_r.
    rewrite (proj2 (Z.eqb_neq i j) H1), (proj2 (Z.eqb_neq i j') H2).
    destruct (Z.eqb_spec k i) as [->|Ki].
    - rewrite (proj2 (Z.eqb_neq i j) H1), (proj2 (Z.eqb_neq i j') H2). cbn [orb].
      rewrite (proj2 (Z.eqb_neq j' i)), (proj2 (Z.eqb_neq j' j)), Z.eqb_refl, map_gain_gain, map_app by congruence. reflexivity.
    - destruct (Z.eqb_spec k j) as [->|Kj].
      + cbn [orb]. rewrite (proj2 (Z.eqb_neq j j') H3). reflexivity.
      + cbn [orb]. destruct (Z.eqb_spec k j') as [->|Kj']; [|reflexivity].
        rewrite (proj2 (Z.eqb_neq j' i)), (proj2 (Z.eqb_neq j' j)), Z.eqb_refl by congruence.
        now rewrite rowP_gain.
  Qed.

  Lemma single_sim cur base m L v k : Rel cur base full m L -> repr cur base v [k] ->
    Rel cur base full (functorSingle m v) (stepE L (k, k)).
  Proof.
    intros R H. unfold functorSingle. rewrite (view_rows _ _ _ _ _ _ R H). cbn [flat_map]. rewrite app_nil_r.
    replace (gainOthers [] (L k)) with (flat_map (stepE L (k, k)) [k]).
    2:{ cbn [flat_map]. rewrite app_nil_r. unfold stepE. now rewrite !Z.eqb_refl. }
    pose proof (r_size _ _ _ _ _ R) as HL.
    apply (set_view _ _ _ L); auto.
    - intros k'. unfold stepE. rewrite Z.eqb_refl. destruct (Z.eqb_spec k' k) as [->|]; [|apply HL]. rewrite length_gainOthers. apply HL.
    - intros k' Hk'. unfold stepE. rewrite Z.eqb_refl. destruct (Z.eqb_spec k' k) as [->|]; [|reflexivity]. exfalso. apply Hk'. now left.
  Qed.
End Sim.
