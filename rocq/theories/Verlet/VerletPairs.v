(** Lists per pair of cells. *)
From Coq Require Import Reals Lra.
From Verif.Base Require Import ZRange Occ OptionM Lists.
From Verif.Grid Require Import IndexModel IndexSpec IndexProofs CellBlockModel CellBlockSpec CellBlockExact.
From Verif.Traversal Require Import ColorModel ColorProofs CellSpec CellLemmas C08Model C08Proofs C08Bases C04Model C18Model C18Proofs.
From Verif.Functor Require Import CellFunctorModel FunctorSpec CellFunctorProofs SortModel SortSpec SortProofs.
From Verif.Container Require Import LinkedCellsModel LinkedCellsSpec LinkedCellsBuild LinkedCellsCount LinkedCellsDir LinkedCellsGeo LinkedCellsProofs.
From Verif.Verlet Require Import VerletModel VerletSpec VerletGen VerletStore VerletCells VerletBase VerletTraverse VerletProofs.
Open Scope Z_scope.

Lemma bool_cases (x : bool) : x = true \/ x = false.
Proof. destruct x; auto. Qed.

(** How often [l] holds the pair (a, c). *)
Definition dirCount {P} (pid : P -> Z) (l : list (P * P)) (a c : P) : nat :=
  occ (fun '(p, q) => (pid p =? pid a) && (pid q =? pid c)) l.

Lemma received_dir {P} (pid : P -> Z) nn (l : list (P * P)) a c : pid a <> pid c ->
  received pid (pushCalls nn l) a c = (dirCount pid l a c + (if nn then dirCount pid l c a else 0))%nat.
Proof.
  intros Hne. unfold received, dirCount, pushCalls. rewrite occ_map. induction l as [|[p q] l IH]; [now destruct nn|].
  rewrite !occ_cons, IH. unfold contributes at 1. cbn [fstP sndP n3].
  destruct (Z.eqb_spec (pid p) (pid a)), (Z.eqb_spec (pid q) (pid c)), (Z.eqb_spec (pid p) (pid c)), (Z.eqb_spec (pid q) (pid a)), nn;
    cbn [andb orb]; try lia; congruence.
Qed.

Lemma dirCount_zero {P} (pid : P -> Z) (l : list (P * P)) a c :
  (forall p q, In (p, q) l -> pid p = pid a -> pid q = pid c -> False) -> dirCount pid l a c = 0%nat.
Proof.
  intros H. apply occ_zero. intros [p q] Hin. apply andb_false_iff. destruct (Z.eqb_spec (pid p) (pid a)); [|now left].
  right. apply Z.eqb_neq. intros E. eapply H; eauto.
Qed.

(** The offsets of the 27 cells around a cell and of the 14 cells forward of it. *)
Definition boxOffs : list I3 :=
  flat_map (fun x => flat_map (fun y => map (fun z => mkI3 x y z) (zrange (-1) 2)) (zrange (-1) 2)) (zrange (-1) 2).
Definition lexNonnegb (o : I3) : bool :=
  (0 <? iz o) || ((iz o =? 0) && ((0 <? iy o) || ((iy o =? 0) && (0 <=? ix o)))).
Definition partnerOffs (newton3 : bool) : list I3 := if newton3 then filter lexNonnegb boxOffs else boxOffs.

Lemma partnerOffs_length n3 : length (partnerOffs n3) = if n3 then 14%nat else 27%nat.
Proof. destruct n3; reflexivity. Qed.

Lemma in_partnerOffs n3 o : -1 <= ix o <= 1 -> -1 <= iy o <= 1 -> -1 <= iz o <= 1 ->
  (n3 = true -> lexNonneg (ix o) (iy o) (iz o)) -> In o (partnerOffs n3).
Proof.
  intros X Y Z L. assert (B : In o boxOffs).
  { unfold boxOffs. apply in_flat_map. exists (ix o). split; [apply in_zrange; lia|]. apply in_flat_map. exists (iy o).
    split; [apply in_zrange; lia|]. apply in_map_iff. exists (iz o). split; [now destruct o|apply in_zrange; lia]. }
  unfold partnerOffs. destruct n3; [|exact B]. apply filter_In. split; [exact B|]. specialize (L eq_refl). unfold lexNonneg in L.
  unfold lexNonnegb. rewrite orb_true_iff, andb_true_iff, orb_true_iff, andb_true_iff, Z.ltb_lt, Z.eqb_eq, Z.ltb_lt, Z.eqb_eq, Z.leb_le. exact L.
Qed.

Lemma nearR_box len il x y z : -1 <= x <= 1 -> -1 <= y <= 1 -> -1 <= z <= 1 ->
  nearR len il (Z.abs x) (Z.abs y) (Z.abs z) = true.
Proof.
  intros X Y Z. unfold nearR. cbv zeta.
  replace (Z.max 0 (Z.abs x - 1)) with 0 by lia. replace (Z.max 0 (Z.abs y - 1)) with 0 by lia.
  replace (Z.max 0 (Z.abs z - 1)) with 0 by lia. destruct (Rle_dec _ _) as [H|H]; [reflexivity|]. exfalso. apply H.
  unfold dot. cbn [rx ry rz]. rewrite !Rmult_0_l, !Rplus_0_l. pose proof (Rle_0_sqr il). exact H0.
Qed.

Lemma neighborCells_one len il n3 : vlpNeighborCells (nearR len il) (mkI3 1 1 1) n3 = length (partnerOffs n3).
Proof.
  rewrite partnerOffs_length. unfold vlpNeighborCells. cbn [ix iy iz].
  change (flat_map _ (zrange (- (1)) (1 + 1))) with boxOffs.
  assert (E : filter (fun v => nearR len il (Z.abs (ix v)) (Z.abs (iy v)) (Z.abs (iz v))) boxOffs = boxOffs).
  { assert (H : forall o, In o boxOffs -> nearR len il (Z.abs (ix o)) (Z.abs (iy o)) (Z.abs (iz o)) = true).
    { intros o Ho. unfold boxOffs in Ho. apply in_flat_map in Ho as (x & X & Ho). apply in_flat_map in Ho as (y & Y & Ho).
      apply in_map_iff in Ho as (z & <- & Z). apply in_zrange in X, Y, Z. cbn [ix iy iz]. apply nearR_box; lia. }
    clear -H. induction boxOffs as [|o l IH]; [reflexivity|]. cbn [filter]. rewrite H by now left. f_equal. apply IH.
    intros o' Ho'. apply H. now right. }
  rewrite E. destruct n3; reflexivity.
Qed.

Section Pairs.
  Context {P : Type}.
  Variables (pid : P -> Z) (isHalo : P -> bool) (old now : P -> R3) (view : R3 -> list P -> list P).
  Variables (cf : CFSettings) (lay : Layout) (cut skin csf : R) (bMin bMax : R3) (ps : list P).
  Let il := (cut + skin)%R.
  Let b := rebuild rndExact il csf bMin bMax.
  Let dims := blockDims b.
  Let len := blockLength b.
  Let ov := blockOverlap rndExact il b.
  Let near := nearR len il.
  Let h := mkI3 (cellsPerInteractionLength rndExact csf) (cellsPerInteractionLength rndExact csf) (cellsPerInteractionLength rndExact csf).
  Let n3_ := useNewton3 cf.
  Hypothesis Hgrid : validGrid il csf bMin bMax.
  Hypothesis Hview : forall dir l, isSortedView old dir l (view dir l).
  Hypothesis Hids : distinctIds pid ps.
  Hypothesis Hps : validParticles isHalo old b bMin bMax ps.
  Hypothesis Hcut : (0 < cut)%R.
  Hypothesis Hskin : (0 <= skin)%R.
  Hypothesis Hmoved : movedLess old now skin ps.
  Hypothesis Hn : useNewton3 cf || bidirectional cf = true.
  Hypothesis Hcsf : (1 <= csf)%R.

  Let at__ := at_ old il csf bMin bMax.

  Lemma ov_one : ov = mkI3 1 1 1.
  Proof.
    destruct (lc_haloCovers il csf bMin bMax Hgrid) as [Hh Hp]. fold b in Hh, Hp. fold ov in Hh, Hp.
    unfold haloCovers in Hh. unfold cellsPerInteractionLength in Hh. destruct (Rle_dec 1 csf) as [_|H]; [|contradiction].
    cbn [ix iy iz] in Hh. unfold positive in Hp. apply i3_ext; cbn [ix iy iz]; lia.
  Qed.

  Variable cells : list (Cell P).
  Hypothesis Hadd : lcAddAll isHalo rndExact b old (lcEmpty b) ps = Some cells.
  Hypothesis Hb : built rndExact b old ps cells.
  Let pushes := flat_map (genPushes old il n3_) (lcInteract isHalo view old cf il len cells (c18CallsDir near dims ov)).
  Let nc := vlpNeighborCells near ov n3_.

  Definition partners (c : nat) : list nat :=
    map (fun o => Z.to_nat (threeToOneD (i3add (oneToThreeD (Z.of_nat c) dims) o) dims)) (partnerOffs n3_).

  Lemma partners_length c : (length (partners c) <= nc)%nat.
  Proof. unfold partners, nc. rewrite map_length. rewrite ov_one. unfold near. rewrite neighborCells_one. reflexivity. Qed.

  Lemma all_ p : In p (allParticles cells) <-> In p ps.
  Proof. apply (all_in isHalo old view il csf bMin bMax ps Hgrid Hview Hps cells Hb). Qed.
  Lemma ids_ : distinctIds pid (allParticles cells).
  Proof. exact (all_ids pid old il csf bMin bMax ps Hids cells Hb). Qed.
  Lemma len_ : length cells = Z.to_nat (numCells dims).
  Proof. exact (cells_length old view il csf bMin bMax ps Hview cells Hb). Qed.
  Lemma has_ k p : inGrid dims k -> cellHas cells (Z.to_nat (threeToOneD k dims)) p <-> In p ps /\ at__ k p.
  Proof. exact (cellHas_k old view il csf bMin bMax ps Hview cells Hb k p). Qed.
  Lemma push_ p q : In (p, q) pushes -> In p ps /\ In q ps /\
      exists k1 k2, inGrid dims k1 /\ inGrid dims k2 /\ at__ k1 p /\ at__ k2 q /\
        - ix ov <= ix k2 - ix k1 <= ix ov /\ - iy ov <= iy k2 - iy k1 <= iy ov /\ - iz ov <= iz k2 - iz k1 <= iz ov /\
        (n3_ = true -> 0 <= iz k2 - iz k1 /\ lexNonneg (ix k2 - ix k1) (iy k2 - iy k1) (iz k2 - iz k1)).
  Proof.
    exact (c_pushes pid isHalo old now view cf cut skin csf bMin bMax ps Hgrid Hview Hids Hps Hcut Hskin Hmoved Hn cells Hadd Hb p q).
  Qed.
  Lemma every_ : everyPairOnce pid isHalo now cut ps (pushCalls n3_ pushes).
  Proof. exact (c_every pid isHalo old now view cf cut skin csf bMin bMax ps Hgrid Hview Hids Hps Hcut Hskin Hmoved Hn cells Hadd Hb). Qed.

  Lemma push_partner i j : In (i, j) pushes -> exists ci cj, cellHas cells ci i /\ cellHas cells cj j /\ In cj (partners ci).
  Proof.
    intros H. destruct (push_ i j H) as (Ii & Ij & k1 & k2 & G1 & G2 & A1 & A2 & X & Y & Z & L). rewrite ov_one in X, Y, Z. cbn [ix iy iz] in X, Y, Z.
    exists (Z.to_nat (threeToOneD k1 dims)), (Z.to_nat (threeToOneD k2 dims)).
    split; [now apply has_|]. split; [now apply has_|]. unfold partners. apply in_map_iff. exists (i3sub k2 k1). split.
    - pose proof (threeToOneD_range dims k1 G1). rewrite Z2Nat.id by lia.
      rewrite oneToThreeD_threeToOneD by assumption. do 2 f_equal. apply i3_ext; unfold i3add, i3sub; cbn [ix iy iz]; lia.
    - apply in_partnerOffs; unfold i3sub; cbn [ix iy iz]; [lia|lia|lia|]. intros E. exact (proj2 (L E)).
  Qed.

  Lemma vlp_built m : exists st, pushAll (vlpPush pid (vlcMap pid cells m)) (vlpInit nc cells) pushes = Some st /\
    vlpGood cells nc partners st /\ Permutation (vlpFlat st) pushes.
  Proof. exact (vlpBuild_spec pid cells ids_ nc partners partners_length m pushes push_partner). Qed.

  Section State.
    Variable st : VlpState P.
    Hypothesis Hgood : vlpGood cells nc partners st.
    Hypothesis Hflat : Permutation (vlpFlat st) pushes.

    (** The traversals that process all lists of a cell see the lists of the cell
        one after another. *)
    Let lists := map (@concat (NList P)) (vlpLists st).

    Lemma vlp_lists : length lists = length cells /\
      (forall c ls p, nth_error lists c = Some ls -> In p (map fst ls) -> cellHas cells c p) /\
      Permutation (pairsOf (concat lists)) pushes.
    Proof.
      destruct Hgood as (L1 & L2 & Hg). unfold lists. split; [now rewrite map_length|]. split.
      - intros c ls p E Hp. rewrite nth_error_map in E. destruct (nth_error (vlpLists st) c) as [l|] eqn:El; [|discriminate].
        injection E as <-. destruct (nth_error (vlpLocal st) c) as [loc|] eqn:Eloc.
        + destruct (Hg c loc l Eloc El) as [_ (_ & Hk & _)]. rewrite concat_map in Hp. apply in_concat in Hp as (x & Hx & Hp).
          apply in_map_iff in Hx as (y & <- & Hy). destruct (Hk y Hy) as (cell & Ec & Ek). exists cell. split; [exact Ec|]. now rewrite <- Ek.
        + apply nth_error_None in Eloc. assert (c < length (vlpLists st))%nat by (apply nth_error_Some; congruence). lia.
      - rewrite <- Hflat. unfold vlpFlat. rewrite <- !flat_map_concat_map. 
        assert (E : forall L : list (list (list (NList P))), concat (concat L) = flat_map (@concat _) L).
        { induction L as [|x L IH]; [reflexivity|]. cbn [concat flat_map]. now rewrite concat_app, IH. }
        rewrite E. reflexivity.
    Qed.

    Lemma vlp_process groups : vlpTraverse pid lay n3_ cells st dims groups = vlcTraverse pid lay n3_ cells lists dims groups.
    Proof.
      unfold vlpTraverse, vlcTraverse. induction groups as [|g l IH]; [reflexivity|]. cbn [mapM]. rewrite IH.
      assert (E : mapM (vlpProcess pid lay n3_ cells st dims) g = mapM (vlcProcess pid lay n3_ cells lists dims) g).
      { clear. induction g as [|k g IH]; [reflexivity|]. cbn [mapM]. rewrite IH. unfold vlpProcess, vlcProcess, lists.
        rewrite nth_error_map. destruct (nth_error (vlpLists st) _); reflexivity. }
      now rewrite E.
    Qed.

    (** ** c08 *)
    (** The list of one ordered pair of cells. *)
    Definition pairList (c1 c2 : Z) : list (P * P) :=
      match nth_error (vlpLocal st) (Z.to_nat c1), nth_error (vlpLists st) (Z.to_nat c1) with
      | Some loc, Some ls => match assoc loc (Z.to_nat c2) with
                             | Some n => match nth_error ls n with Some l => pairsOf l | None => [] end
                             | None => []
                             end
      | _, _ => []
      end.

    Lemma pairList_in c1 c2 p q : In (p, q) (pairList c1 c2) ->
      cellHas cells (Z.to_nat c1) p /\ cellHas cells (Z.to_nat c2) q /\ In (p, q) pushes.
    Proof.
      intros H. destruct Hgood as (L1 & L2 & Hg). unfold pairList in H.
      destruct (nth_error (vlpLocal st) (Z.to_nat c1)) as [loc|] eqn:El; [|destruct H].
      destruct (nth_error (vlpLists st) (Z.to_nat c1)) as [ls|] eqn:Es; [|destruct H].
      destruct (Hg _ loc ls El Es) as [(La & Lb & _) (_ & Hk & Hc)].
      destruct (assoc loc (Z.to_nat c2)) as [n|] eqn:Ea; [|destruct H]. destruct (nth_error ls n) as [l|] eqn:En; [|destruct H].
      split; [|split].
      - destruct (Hk l (nth_error_In _ _ En)) as (cell & Ec & Ek). exists cell. split; [exact Ec|]. rewrite <- Ek.
        eapply pairsOf_in. exact H.
      - destruct (Hc n l p q En H) as (c2' & Hc2 & Hq). apply assoc_some in Ea.
        now rewrite (seq_snd_unique loc La _ _ _ Ea Hc2).
      - eapply Permutation_in; [exact Hflat|]. unfold vlpFlat. rewrite pairsOf_concat. apply in_flat_map. exists l. split; [|exact H].
        apply in_concat. exists ls. split; eapply nth_error_In; eauto.
    Qed.

    Lemma pair_ok c1 c2 : 0 <= c1 < numCells dims -> vlpPair pid lay n3_ cells st c1 c2 = Some (pushCalls n3_ (pairList c1 c2)).
    Proof.
      intros R. pose proof (fun p q => pairList_in c1 c2 p q) as Hin. destruct Hgood as (L1 & L2 & Hg). unfold vlpPair, pairList in *.
      pose proof len_ as EL.
      destruct (nth_error (vlpLocal st) (Z.to_nat c1)) as [loc|] eqn:El; [|apply nth_error_None in El; lia].
      destruct (nth_error (vlpLists st) (Z.to_nat c1)) as [ls|] eqn:Es; [|apply nth_error_None in Es; lia].
      destruct (Hg _ loc ls El Es) as [(La & Lb & Lc) (Hl & Hk & Hc)].
      destruct (assoc loc (Z.to_nat c2)) as [n|] eqn:Ea; [|reflexivity].
      assert (Hlt : (n < length ls)%nat).
      { rewrite Hl. pose proof (seq_snd_lt nc partners partners_length loc _ n La (assoc_some _ _ _ Ea)) as H1.
        pose proof (NoDup_incl_length Lb Lc) as H2. rewrite map_length in H2. pose proof (partners_length (Z.to_nat c1)). lia. }
      destruct (nth_error ls n) as [l|] eqn:En; [|apply nth_error_None in En; lia].
      apply cellListCalls_ok; [exact ids_| |].
      - intros p Hp. apply in_all. exists (Z.to_nat c1). destruct (Hk l (nth_error_In _ _ En)) as (cell & Ec & Ek). exists cell.
        split; [exact Ec|]. now rewrite <- Ek.
      - intros p q Hpq. apply in_all. exists (Z.to_nat c2). now apply (Hin p q).
    Qed.

    Lemma pair_count c1 c2 a c : 0 <= c1 < numCells dims -> 0 <= c2 -> In a ps -> In c ps ->
      cellHas cells (Z.to_nat c1) a -> cellHas cells (Z.to_nat c2) c ->
      dirCount pid (pairList c1 c2) a c = dirCount pid pushes a c.
    Proof.
      intros R R2 Ia Ic Ha Hc. destruct Hgood as (L1 & L2 & Hg). pose proof len_ as EL.
      assert (Epush : dirCount pid pushes a c = dirCount pid (flat_map (flat_map pairsOf) (vlpLists st)) a c).
      { unfold dirCount. apply occ_perm. rewrite <- Hflat. unfold vlpFlat. rewrite pairsOf_concat.
        assert (E : forall L : list (list (list (NList P))), flat_map pairsOf (concat L) = flat_map (flat_map pairsOf) L).
        { induction L as [|x L IH]; [reflexivity|]. cbn [concat flat_map]. now rewrite flat_map_app, IH. }
        rewrite E. reflexivity. }
      rewrite Epush. clear Epush. rewrite <- (seq_nth_map (flat_map pairsOf)).
      assert (Hpa : forall c' l x q, nth_error (vlpLists st) c' = Some l -> In (x, q) (flat_map pairsOf l) -> cellHas cells c' x).
      { intros c' l x q E Hx. destruct (nth_error (vlpLocal st) c') as [loc|] eqn:El.
        - destruct (Hg c' loc l El E) as [_ (_ & Hk & _)]. apply in_flat_map in Hx as (y & Hy & Hx).
          destruct (Hk y Hy) as (cell & Ec & Ek). exists cell. split; [exact Ec|]. rewrite <- Ek. eapply pairsOf_in; eauto.
        - apply nth_error_None in El. assert (c' < length (vlpLists st))%nat by (apply nth_error_Some; congruence). lia. }
      assert (Hida : forall x, In x (allParticles cells) -> pid x = pid a -> x = a).
      { intros x Hx E. apply (ids_inj pid (allParticles cells)); auto using ids_. now apply all_. }
      assert (Hidc : forall x, In x (allParticles cells) -> pid x = pid c -> x = c).
      { intros x Hx E. apply (ids_inj pid (allParticles cells)); auto using ids_. now apply all_. }
      unfold dirCount at 2. rewrite (occ_flat_map_unique _ _ _ (Z.to_nat c1)); [|apply seq_NoDup|apply in_seq; lia|].
      - unfold pairList. destruct (nth_error (vlpLocal st) (Z.to_nat c1)) as [loc|] eqn:El; [|apply nth_error_None in El; lia].
        destruct (nth_error (vlpLists st) (Z.to_nat c1)) as [ls|] eqn:Es; [|apply nth_error_None in Es; lia].
        destruct (Hg _ loc ls El Es) as [(La & Lb & Lc) (Hl & Hk & Hcc)].
        rewrite <- (seq_nth_map pairsOf ls).
        assert (Hz : forall n, (forall x, In (x, n) loc -> x <> Z.to_nat c2) ->
          occ (fun '(p, q) => (pid p =? pid a) && (pid q =? pid c)) (match nth_error ls n with Some x => pairsOf x | None => [] end) = 0%nat).
        { intros n Hnn. destruct (nth_error ls n) as [x|] eqn:En; [|reflexivity]. apply (dirCount_zero pid). intros p q Hpq E1 E2.
          destruct (Hcc n x p q En Hpq) as (c2' & Hc2 & Hq). apply (Hnn c2' Hc2).
          assert (q = c) by (apply Hidc; [apply in_all; eauto|exact E2]). subst q.
          eapply (cellHas_unique pid cells ids_); eauto. }
        destruct (assoc loc (Z.to_nat c2)) as [n|] eqn:Ea.
        + rewrite (occ_flat_map_unique _ _ _ n); [reflexivity|apply seq_NoDup| |].
          * apply in_seq. rewrite Hl. pose proof (seq_snd_lt nc partners partners_length loc _ n La (assoc_some _ _ _ Ea)) as H1.
            pose proof (NoDup_incl_length Lb Lc) as H2. rewrite map_length in H2. pose proof (partners_length (Z.to_nat c1)). lia.
          * intros n' _ Hne. apply Hz. intros x Hx ->. apply Hne. pose proof (assoc_in _ _ _ Lb Hx) as E'. congruence.
        + cbn [dirCount]. symmetry. apply occ_flat_map_zero. intros n _. apply Hz. intros x Hx ->.
          apply assoc_none in Ea. apply Ea. apply in_map_iff. eexists. split; [|exact Hx]. reflexivity.
      - intros c' Hc' Hne. destruct (nth_error (vlpLists st) c') as [l|] eqn:E; [|reflexivity].
        apply (dirCount_zero pid). intros p q Hpq E1 E2. pose proof (Hpa c' l p q E Hpq) as Hp.
        assert (p = a) by (apply Hida; [apply in_all; eauto|exact E1]). subst p. apply Hne.
        eapply (cellHas_unique pid cells ids_); eauto.
    Qed.

    (** What the c08 handler does for the pair of cells {c1, c2}. *)
    Definition pairTask (call : Z * Z) : list (P * P) :=
      let c1 := Z.min (fst call) (snd call) in let c2 := Z.max (fst call) (snd call) in
      pairList c1 c2 ++ (if n3_ then [] else if c1 =? c2 then [] else pairList c2 c1).

    Lemma c08Pair_ok call : 0 <= fst call < numCells dims -> 0 <= snd call < numCells dims ->
      vlpC08Pair pid lay n3_ cells st call = Some (pushCalls n3_ (pairTask call)).
    Proof.
      intros R1 R2. unfold vlpC08Pair, pairTask. rewrite pair_ok by lia. rewrite pushCalls_app.
      destruct (bool_cases n3_) as [En|En].
      - rewrite !En. cbn [pushCalls map]. now rewrite app_nil_r.
      - destruct (_ =? _); [rewrite !En; cbn [pushCalls map]; now rewrite app_nil_r|]. rewrite pair_ok by lia. now rewrite !En.
    Qed.

    Lemma pairTask_in call p q : In (p, q) (pairTask call) -> In (p, q) pushes /\
      ((cellHas cells (Z.to_nat (fst call)) p /\ cellHas cells (Z.to_nat (snd call)) q) \/
       (cellHas cells (Z.to_nat (snd call)) p /\ cellHas cells (Z.to_nat (fst call)) q)).
    Proof.
      intros H. unfold pairTask in H. apply in_app_iff in H as [H|H].
      - apply pairList_in in H as (H1 & H2 & H3). split; [exact H3|].
        destruct (Z.min_spec (fst call) (snd call)) as [[? E]|[? E]]; rewrite E in H1;
          destruct (Z.max_spec (fst call) (snd call)) as [[? E']|[? E']]; rewrite E' in H2; try lia; auto.
      - destruct (bool_cases n3_) as [En|En]; rewrite En in H; [destruct H|]. destruct (_ =? _); [destruct H|]. apply pairList_in in H as (H1 & H2 & H3). split; [exact H3|].
        destruct (Z.min_spec (fst call) (snd call)) as [[? E]|[? E]]; rewrite E in H2;
          destruct (Z.max_spec (fst call) (snd call)) as [[? E']|[? E']]; rewrite E' in H1; try lia; auto.
    Qed.

    (** With Newton 3 the lists are stored at the cell with the smaller index. *)
    Lemma n3_order p q k1 k2 : n3_ = true -> In (p, q) pushes -> inGrid dims k1 -> inGrid dims k2 -> at__ k1 p -> at__ k2 q ->
      threeToOneD k1 dims <= threeToOneD k2 dims.
    Proof.
      intros E H G1 G2 A1 A2. destruct (push_ p q H) as (_ & _ & k1' & k2' & G1' & G2' & A1' & A2' & X & Y & Z & L).
      assert (k1' = k1) by (apply (at_unique old il csf bMin bMax k1' k1 p); assumption).
      assert (k2' = k2) by (apply (at_unique old il csf bMin bMax k2' k2 q); assumption). subst k1' k2'.
      destruct (L E) as [Z0 Hlex].
      assert (F : gridFits2x dims ov) by exact (v_fits2 old view il csf bMin bMax ps Hgrid Hview).
      pose proof (proj2 (flat_offset_sign dims ov _ _ (iz k2 - iz k1) F X Y (conj Z0 (proj2 Z))) Hlex) as Hs.
      unfold threeToOneD in *. cbn [ix iy iz] in Hs. nia.
    Qed.

    Lemma has_unique k1 c p : inGrid dims k1 -> 0 <= c -> at__ k1 p -> cellHas cells (Z.to_nat c) p -> c = threeToOneD k1 dims.
    Proof.
      intros G R A H. pose proof (threeToOneD_range dims k1 G).
      assert (Z.to_nat c = Z.to_nat (threeToOneD k1 dims)); [|lia]. eapply (cellHas_unique pid cells ids_); [exact H|].
      apply has_; [exact G|]. split; [|exact A]. apply all_. apply in_all. eauto.
    Qed.

    Lemma pl_count ka kc a c c1 c2 : inGrid dims ka -> inGrid dims kc -> In a ps -> In c ps -> at__ ka a -> at__ kc c ->
      0 <= c1 < numCells dims -> 0 <= c2 < numCells dims ->
      dirCount pid (pairList c1 c2) a c =
        if (c1 =? threeToOneD ka dims) && (c2 =? threeToOneD kc dims) then dirCount pid pushes a c else 0%nat.
    Proof.
      intros Ga Gc Ia Ic Aa Ac R1 R2. destruct (andb _ _) eqn:E.
      - apply andb_true_iff in E as [E1 E2]. apply Z.eqb_eq in E1, E2. subst c1 c2.
        apply pair_count; auto; [lia|now apply has_|now apply has_].
      - apply dirCount_zero. intros p q H E1 E2. apply pairList_in in H as (H1 & H2 & H3). destruct (push_ p q H3) as (Ip & Iq & _).
        assert (p = a) by (apply (ids_inj pid ps); auto). assert (q = c) by (apply (ids_inj pid ps); auto). subst p q.
        apply has_unique with (k1 := ka) in H1; [|assumption|lia|assumption].
        apply has_unique with (k1 := kc) in H2; [|assumption|lia|assumption]. subst c1 c2. now rewrite !Z.eqb_refl in E.
    Qed.

    Lemma pairTask_count ka kc a c call : inGrid dims ka -> inGrid dims kc -> In a ps -> In c ps -> at__ ka a -> at__ kc c -> a <> c ->
      0 <= fst call < numCells dims -> 0 <= snd call < numCells dims ->
      received pid (pushCalls n3_ (pairTask call)) a c =
        if samePair (threeToOneD ka dims) (threeToOneD kc dims) call then received pid (pushCalls n3_ pushes) a c else 0%nat.
    Proof.
      intros Ga Gc Ia Ic Aa Ac Hne R1 R2.
      assert (Hid : pid a <> pid c) by (intros E; apply Hne; apply (ids_inj pid ps); auto).
      rewrite !received_dir by exact Hid. unfold pairTask.
      assert (Happ : forall l1 l2 x y, dirCount pid (l1 ++ l2) x y = (dirCount pid l1 x y + dirCount pid l2 x y)%nat)
        by (intros; unfold dirCount; apply occ_app).
      assert (Hmin : 0 <= Z.min (fst call) (snd call) < numCells dims) by lia.
      assert (Hmax : 0 <= Z.max (fst call) (snd call) < numCells dims) by lia.
      pose proof (pl_count ka kc a c _ _ Ga Gc Ia Ic Aa Ac Hmin Hmax) as E1.
      pose proof (pl_count ka kc a c _ _ Ga Gc Ia Ic Aa Ac Hmax Hmin) as E2.
      pose proof (pl_count kc ka c a _ _ Gc Ga Ic Ia Ac Aa Hmin Hmax) as E3.
      unfold samePair. set (fa := threeToOneD ka dims) in *. set (fc := threeToOneD kc dims) in *.
      destruct (bool_cases n3_) as [En|En]; rewrite !En.
      - assert (Z1 : fc < fa -> dirCount pid pushes a c = 0%nat).
        { intros L. apply dirCount_zero. intros p q H F1 F2. destruct (push_ p q H) as (Ip & Iq & _).
          assert (p = a) by (apply (ids_inj pid ps); auto). assert (q = c) by (apply (ids_inj pid ps); auto). subst p q.
          pose proof (n3_order a c ka kc En H Ga Gc Aa Ac). unfold fa, fc in L. lia. }
        assert (Z2 : fa < fc -> dirCount pid pushes c a = 0%nat).
        { intros L. apply dirCount_zero. intros p q H F1 F2. destruct (push_ p q H) as (Ip & Iq & _).
          assert (p = c) by (apply (ids_inj pid ps); auto). assert (q = a) by (apply (ids_inj pid ps); auto). subst p q.
          pose proof (n3_order c a kc ka En H Gc Ga Ac Aa). unfold fa, fc in L. lia. }
        rewrite app_nil_r, E1, E3.
        destruct (Z.min_spec (fst call) (snd call)) as [[? Q]|[? Q]]; rewrite Q;
          destruct (Z.max_spec (fst call) (snd call)) as [[? Q']|[? Q']]; rewrite Q'; try lia;
          destruct (Z.eqb_spec (fst call) fa), (Z.eqb_spec (snd call) fc), (Z.eqb_spec (fst call) fc), (Z.eqb_spec (snd call) fa);
          cbn [andb orb]; try lia; try (rewrite Z1 by lia); try (rewrite Z2 by lia); lia.
      - rewrite Happ, E1.
        match goal with |- context [dirCount pid (if ?x then _ else _) a c] => destruct x eqn:Q0 end;
          [apply Z.eqb_eq in Q0; cbn [dirCount occ]|apply Z.eqb_neq in Q0; rewrite E2];
        destruct (Z.min_spec (fst call) (snd call)) as [[? Q]|[? Q]]; rewrite Q in *;
          destruct (Z.max_spec (fst call) (snd call)) as [[? Q']|[? Q']]; rewrite Q' in *; try lia;
          destruct (Z.eqb_spec (fst call) fa), (Z.eqb_spec (snd call) fc), (Z.eqb_spec (fst call) fc), (Z.eqb_spec (snd call) fa);
          cbn [andb orb]; change (dirCount pid [] a c) with 0%nat; lia.
    Qed.

    Lemma calls_count ka kc a c calls : inGrid dims ka -> inGrid dims kc -> In a ps -> In c ps -> at__ ka a -> at__ kc c -> a <> c ->
      inBounds dims calls ->
      received pid (flat_map (fun call => pushCalls n3_ (pairTask call)) calls) a c =
        (timesProcessed dims calls ka kc * received pid (pushCalls n3_ pushes) a c)%nat.
    Proof.
      intros Ga Gc Ia Ic Aa Ac Hne. unfold timesProcessed. induction calls as [|call l IH]; intros Hin; [reflexivity|].
      cbn [flat_map]. unfold received at 1. rewrite occ_app, occ_cons.
      specialize (IH ltac:(intros c1 c2 H; apply Hin; now right)).
      destruct (Hin (fst call) (snd call)) as [R1 R2]; [left; now destruct call|].
      pose proof (pairTask_count ka kc a c call Ga Gc Ia Ic Aa Ac Hne R1 R2) as E.
      change (received pid (pushCalls n3_ (pairTask call)) a c + received pid (flat_map (fun call => pushCalls n3_ (pairTask call)) l) a c =
        ((if samePair (threeToOneD ka dims) (threeToOneD kc dims) call then 1 else 0) +
         occ (samePair (threeToOneD ka dims) (threeToOneD kc dims)) l) * received pid (pushCalls n3_ pushes) a c)%nat.
      rewrite E, IH. destruct (samePair _ _ call); lia.
    Qed.

    Lemma base_ok task : inBounds dims task ->
      vlpC08Base pid lay n3_ cells st task = Some (flat_map (fun call => pushCalls n3_ (pairTask call)) task).
    Proof.
      intros Hin. unfold vlpC08Base. rewrite (mapM_some _ (fun call => pushCalls n3_ (pairTask call))).
      - now rewrite flat_map_concat_map.
      - intros [c1 c2] H. destruct (Hin c1 c2 H). now apply c08Pair_ok.
    Qed.

    Lemma vlp_c08 : exists calls, vlpC08Traverse pid lay n3_ cells st (c08Tasks near dims ov) = Some calls /\
      everyPairOnce pid isHalo now cut ps (concat (concat calls)) /\ Forall noSharedWrites calls.
    Proof.
      assert (F : gridFits dims ov) by exact (v_fits old view il csf bMin bMax ps Hgrid Hview).
      pose proof (c08_inBounds near dims ov F) as Hin.
      set (bt := flat_map (fun call => pushCalls n3_ (pairTask call))).
      assert (Ht : forall color task, In color (c08Tasks near dims ov) -> In task color -> inBounds dims task).
      { intros color task H1 H2 c1 c2 H. apply Hin. unfold c08Calls. apply in_concat. exists task. split; [|exact H].
        apply in_concat. eauto. }
      exists (map (map bt) (c08Tasks near dims ov)). split; [|split].
      - unfold vlpC08Traverse. apply mapM_some. intros color H1. apply mapM_some. intros task H2. apply base_ok. eauto.
      - intros a c Ia Ic Hne.
        destruct (v_at isHalo old il csf bMin bMax ps Hgrid Hps a Ia) as (ka & Ga & Aa & Oa).
        destruct (v_at isHalo old il csf bMin bMax ps Hgrid Hps c Ic) as (kc & Gc & Ac & Oc).
        fold b in Ga, Gc, Oa, Oc. fold dims in Ga, Gc, Oa, Oc. fold h in Oa, Oc.
        assert (E : concat (concat (map (map bt) (c08Tasks near dims ov))) = bt (c08Calls near dims ov)).
        { unfold c08Calls. clear. induction (c08Tasks near dims ov) as [|x l IH]; [reflexivity|]. cbn [map concat]. rewrite !concat_app.
          unfold bt at 3. rewrite flat_map_app. fold bt. rewrite IH. f_equal. apply concat_flat_map. }
        rewrite E. unfold bt. rewrite (calls_count ka kc a c _ Ga Gc Ia Ic Aa Ac Hne Hin).
        destruct (every_ a c Ia Ic Hne) as [H1 H2]. pose proof (c08_at_most_once near dims ov ka kc F Ga Gc) as H3. split; [nia|].
        intros Ho Hd. rewrite H2 by assumption. rewrite Nat.mul_1_r.
        apply (c08_exactly_once near dims ov h ka kc F); auto.
        + exact (v_halo il csf bMin bMax Hgrid).
        + tauto.
        + apply (v_reach isHalo old il csf bMin bMax ps Hgrid Hps a c ka kc Ia Ic Ga Gc Aa Ac).
          apply Rlt_le. eapply (moved_close old il ps now cut skin); eauto.
      - apply Forall_forall. intros calls Hc. apply in_map_iff in Hc as (color & <- & Hcolor).
        pose proof (proj1 (Forall_forall _ _) (c08_raceFree near dims ov F) color Hcolor) as Hr.
        intros i j t1 t2 p Hij E1 E2 W1 W2. rewrite nth_error_map in E1, E2.
        destruct (nth_error color i) as [k1|] eqn:N1; [|discriminate]. destruct (nth_error color j) as [k2|] eqn:N2; [|discriminate].
        injection E1 as <-. injection E2 as <-.
        assert (A : forall k, In k color -> writes (bt k) p -> In p ps /\ forall kp, inGrid dims kp -> at__ kp p -> accesses k (threeToOneD kp dims)).
        { intros k Hk (f & Hf & Hw). unfold bt in Hf. apply in_flat_map in Hf as (call & Hcall & Hf). unfold pushCalls in Hf.
          apply in_map_iff in Hf as ([x y] & <- & Hxy). cbn [fstP sndP n3] in Hw. apply pairTask_in in Hxy as [Hp Hc].
          destruct (push_ x y Hp) as (Ix & Iy & _).
          destruct (Ht color k Hcolor Hk (fst call) (snd call)) as [R1 R2]; [now destruct call|].
          assert (Hp' : In p ps /\ (cellHas cells (Z.to_nat (fst call)) p \/ cellHas cells (Z.to_nat (snd call)) p)).
          { destruct Hw as [<-|[_ <-]]; tauto. }
          split; [tauto|]. intros kp G A. exists call. split; [exact Hcall|].
          destruct Hp' as [_ [H|H]]; [left|right]; symmetry; eapply has_unique; eauto; lia. }
        destruct (A k1 (nth_error_In _ _ N1) W1) as [Ip A1]. destruct (A k2 (nth_error_In _ _ N2) W2) as [_ A2].
        destruct (v_at isHalo old il csf bMin bMax ps Hgrid Hps p Ip) as (kp & G & At & _).
        exact (Hr i j k1 k2 Hij N1 N2 _ (A1 kp G At) (A2 kp G At)).
    Qed.
  End State.
End Pairs.
