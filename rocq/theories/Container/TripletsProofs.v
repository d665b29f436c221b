(** The three-body c01 traversal of the linked cells: every triplet within the
    interaction length is handed to the functor exactly once. *)
From Coq Require Import Reals Lra.
From Flocq Require Import Core.
From Verif.Base Require Import ZRange Occ Lists.
From Verif.Grid Require Import IndexModel IndexSpec IndexProofs CellBlockModel CellBlockSpec CellBlockExact.
From Verif.Traversal Require Import CellSpec CellLemmas C01Model C01Spec C01Proofs.
From Verif.Functor Require Import CellFunctorModel FunctorSpec SortModel SortSpec SortProofs
  CellFunctor3BModel Functor3BSpec CellFunctor3BCounts.
From Verif.Container Require Import LinkedCellsModel LinkedCellsSpec LinkedCellsBuild LinkedCellsGeo LinkedCellsProofs
  CellCallsModel CellCallsSpec CellCallsCount.
Local Open Scope Z_scope.

(** The calls without the sorting directions. *)
Definition drop (c : CellCall) : Call3B :=
  match c with OneCell k => CCell k | TwoCells k1 k2 _ => CPair k1 k2 | ThreeCells k1 k2 k3 _ => CTriple k1 k2 k3 end.

Lemma i3_dec (x y : I3) : {x = y} + {x <> y}.
Proof. decide equality; apply Z.eq_dec. Defined.

Section Calls.
  Variables (near : Z -> Z -> Z -> bool) (ov dims : I3) (len : R3).

  Lemma triwise_dir : map fst (c01TriwiseDir near ov dims) = c01TriwiseOffsets near ov dims.
  Proof.
    unfold c01TriwiseDir, c01TriwiseOffsets. cbn [map fst]. f_equal.
    generalize (cube ov) at 2 4 as L. induction L as [|o1 L IH]; [reflexivity|]. cbn [flat_map]. rewrite map_app, IH. f_equal.
    destruct (negb (near3 near (mkI3 0 0 0) o1)); [reflexivity|].
    generalize (cube ov). intros K. induction K as [|o2 K IH2]; [reflexivity|]. cbn [flat_map]. rewrite map_app, IH2. f_equal.
    destruct (negb (near3 near o1 o2)); [reflexivity|]. destruct (negb (near3 near (mkI3 0 0 0) o2)); [reflexivity|]. cbv zeta.
    now destruct (threeToOneD o2 dims <=? threeToOneD o1 dims).
  Qed.

  Lemma calls_drop : map drop (c01CallsDir3B near ov dims len) = c01Calls3B near ov dims.
  Proof.
    unfold c01CallsDir3B, c01Calls3B. induction (concat (c01Colors ov dims)) as [|a L IH]; [reflexivity|].
    cbn [flat_map]. rewrite map_app, IH. f_equal. unfold c01BaseDir3B, c01ProcessBaseCell3B. cbv zeta.
    rewrite <- triwise_dir, !map_map. apply map_ext. intros [[o1 o2] d]. cbn [fst].
    destruct (_ && _); [reflexivity|]. destruct (_ && _); [reflexivity|]. destruct (_ && _); [reflexivity|]. now destruct (_ && _).
  Qed.

  (** The direction of a call with three cells points from the first to the second. *)
  Lemma calls_dir k1 k2 k3 dir : gridFits2x dims ov -> In (ThreeCells k1 k2 k3 dir) (c01CallsDir3B near ov dims len) ->
    exists c1 c2, inGrid dims c1 /\ inGrid dims c2 /\ k1 = threeToOneD c1 dims /\ k2 = threeToOneD c2 dims /\
      dir = Some (sortingDirection len (i3sub c2 c1)).
  Proof.
    intros Hfit H. unfold c01CallsDir3B in H. apply in_flat_map in H as (a & Ha & H). apply c01_bases in Ha.
    unfold c01BaseDir3B in H. cbv zeta in H. apply in_map_iff in H as ([[f1 f2] o] & E & H).
    destruct ((threeToOneD a dims =? _) && (threeToOneD a dims =? _)) eqn:T1 in E; [discriminate|].
    destruct ((threeToOneD a dims =? threeToOneD a dims + f1) && _) eqn:T2 in E; [discriminate|].
    destruct (_ && (threeToOneD a dims =? threeToOneD a dims + f2)) eqn:T3 in E; [discriminate|].
    destruct (_ && (_ =? _)) eqn:T4 in E; [discriminate|]. injection E as <- <- <- <-.
    assert (N : f1 <> 0).
    { intros ->. rewrite Z.add_0_r, Z.eqb_refl in T1, T2. cbn in T1, T2. rewrite T1 in T2. discriminate. }
    unfold c01TriwiseDir in H. destruct H as [H|H]; [injection H as <- _ _; congruence|].
    apply in_flat_map in H as (o1 & Ho1 & H). destruct (negb (near3 near (mkI3 0 0 0) o1)) eqn:N1; [destruct H|].
    apply in_flat_map in H as (o2 & Ho2 & H). destruct (negb (near3 near o1 o2)); [destruct H|].
    destruct (negb (near3 near (mkI3 0 0 0) o2)); [destruct H|]. cbv zeta in H.
    destruct (_ <=? _) in H; [destruct H|]. destruct H as [H|[]]. injection H as <- <- E.
    destruct (Z.eqb_spec (threeToOneD o1 dims) 0); [contradiction|]. subst o.
    apply negb_false_iff in N1. apply in_cube in Ho1.
    destruct (reach_of_off near ov dims Hfit a o1 Ha Ho1 N1) as [G R].
    exists a, (i3add a o1). split; [|split; [exact G|split; [reflexivity|split; [now rewrite threeToOneD_add|]]]].
    - destruct Hfit as (Hp & _). unfold positive in Hp. unfold ownedCell, inGrid in *. lia.
    - f_equal. f_equal. apply i3_ext; unfold i3sub, i3add; cbn; ring.
  Qed.
End Calls.

Section LC3.
  Context {P : Type}.
  Variables (pid : P -> Z) (isHalo : P -> bool) (pos old : P -> R3) (view : R3 -> list P -> list P).
  Variables (il csf s : R) (bMin bMax : R3) (ps : list P).
  Let b := rebuild rndExact il csf bMin bMax.
  Let dims := blockDims b.
  Let len := blockLength b.
  Let ov := blockOverlap rndExact il b.
  Let near := nearR len il.
  Let h := mkI3 (cellsPerInteractionLength rndExact csf) (cellsPerInteractionLength rndExact csf) (cellsPerInteractionLength rndExact csf).
  Hypothesis Hgrid : validGrid il csf bMin bMax.
  Hypothesis Hview : forall dir l, isSortedView pos dir l (view dir l).
  Hypothesis Hids : distinctIds pid ps.
  Hypothesis Hps : validParticles isHalo old b bMin bMax ps.
  Hypothesis Hs : (0 <= s <= il)%R.
  Hypothesis Hmoved : movedAtMost old pos s ps.

  Definition lcAt (p : P) : Z := match get1DIndexOfPosition rndExact b (old p) with Some j => j | None => -1 end.
  Definition lcOwn (i : Z) : bool := cellCanContainOwnedParticles b i.
  Let calls := c01CallsDir3B near ov dims len.
  Let Hfit : gridFits2x dims ov.
  Proof. exact (lc_fits2 pos view il csf s bMin bMax ps Hgrid Hview). Qed.
  Let positiveDims : positive dims.
  Proof. destruct Hfit as (Hp & H1 & H2 & H3). unfold positive in *. lia. Qed.

  Lemma inCell_at i p : 0 <= i -> inCell rndExact b old i p = (lcAt p =? i).
  Proof.
    intros Hi. unfold inCell, lcAt. destruct (get1DIndexOfPosition rndExact b (old p)) as [j|]; [reflexivity|].
    symmetry. apply Z.eqb_neq. lia.
  Qed.
  Lemma at_cell p : In p ps -> exists k, inGrid dims k /\ lcAt p = threeToOneD k dims /\
    inBox (cellLo (getHaloBoxMin b) len k) (cellHi (getHaloBoxMin b) len k) (old p) /\ (isHalo p = false -> ownedCell dims h k).
  Proof.
    intros Ip. destruct (lc_cell isHalo old il csf bMin bMax ps Hgrid Hps p Ip) as (k & G & C & B & O).
    fold b in C, B. fold dims in G, C. exists k. split; [exact G|]. split; [|split; [exact B|exact O]].
    rewrite inCell_at in C by exact (proj1 (threeToOneD_range dims k G)). now apply Z.eqb_eq in C.
  Qed.
  Lemma at_owns p : In p ps -> lcOwn (lcAt p) = negb (isHalo p).
  Proof.
    intros Ip. pose proof (lc_placed isHalo old il csf bMin bMax ps Hgrid Hps) as H. rewrite Forall_forall in H.
    destruct (H p Ip) as (i & E & _ & O). unfold lcOwn, lcAt. fold b in E, O. now rewrite E.
  Qed.
  Lemma lc_stored cells k : built rndExact b old ps cells -> inGrid dims k -> stored ps lcAt lcOwn cells (threeToOneD k dims).
  Proof.
    intros Hb G. apply threeToOneD_range in G. unfold stored. rewrite (built_nth rndExact b old ps cells _ Hb G).
    f_equal. unfold cellWith, cellAt, content, lcOwn. f_equal. apply filter_ext. intros p. apply inCell_at. lia.
  Qed.

  Let sound c : In c calls -> exists a, ownedCell dims ov a /\
      (drop c = CCell (threeToOneD a dims) \/
       (exists b, inGrid dims b /\ a <> b /\ withinReach near ov a b /\
                  drop c = CPair (threeToOneD a dims) (threeToOneD b dims)) \/
       (exists b d, inGrid dims b /\ inGrid dims d /\ a <> b /\ a <> d /\ b <> d /\ reach3 near ov a b d /\
                  drop c = CTriple (threeToOneD a dims) (threeToOneD b dims) (threeToOneD d dims))).
  Proof.
    intros H. apply (c01_3b_sound near ov dims Hfit). rewrite <- (calls_drop near ov dims len). now apply in_map.
  Qed.
  Let owned_grid a : ownedCell dims ov a -> inGrid dims a.
  Proof. destruct Hfit as (Hp & _). unfold positive in Hp. unfold ownedCell, inGrid in *. lia. Qed.
  Let flat_ne x y : inGrid dims x -> inGrid dims y -> x <> y -> threeToOneD x dims <> threeToOneD y dims.
  Proof. intros Gx Gy N E. apply N. now apply (threeToOneD_inj dims). Qed.

  Lemma calls_well cells : built rndExact b old ps cells -> Forall (wellCalled pos il ps lcAt lcOwn cells) calls.
  Proof.
    intros Hb. apply Forall_forall. intros c Hc. destruct (sound c Hc) as (a & Oa & S). pose proof (owned_grid a Oa) as Ga.
    destruct c as [k|k1 k2 dir|k1 k2 k3 dir]; cbn [drop wellCalled] in *.
    - destruct S as [S|[(? & _ & _ & _ & S)|(? & ? & _ & _ & _ & _ & _ & _ & S)]]; try discriminate. injection S as ->. now apply lc_stored.
    - destruct S as [S|[(x & Gx & N & _ & S)|(? & ? & _ & _ & _ & _ & _ & _ & S)]]; try discriminate. injection S as -> ->.
      split; [now apply lc_stored|]. split; [now apply lc_stored|]. split; [now apply flat_ne|].
      assert (D : dir = None); [|subst dir; exact I].
      clear -Hc. unfold calls, c01CallsDir3B in Hc. apply in_flat_map in Hc as (y & _ & H). unfold c01BaseDir3B in H. cbv zeta in H.
      apply in_map_iff in H as ([[f1 f2] o] & E & _).
      destruct (_ && _) in E; [discriminate|]. destruct (_ && _) in E; [congruence|]. destruct (_ && _) in E; [congruence|].
      destruct (_ && _) in E; [congruence|discriminate].
    - destruct S as [S|[(? & _ & _ & _ & S)|(x & y & Gx & Gy & N1 & N2 & N3 & _ & S)]]; try discriminate. injection S as E1 E2 E3.
      destruct (calls_dir near ov dims len k1 k2 k3 dir Hfit Hc) as (c1 & c2 & G1 & G2 & F1 & F2 & ->).
      rewrite E1, E2, E3. split; [now apply lc_stored|]. split; [now apply lc_stored|]. split; [now apply lc_stored|].
      split; [now apply flat_ne|]. split; [now apply flat_ne|]. split; [now apply flat_ne|].
      assert (X1 : a = c1) by (apply (threeToOneD_inj dims); auto; congruence).
      assert (X2 : x = c2) by (apply (threeToOneD_inj dims); auto; congruence). subst a x.
      assert (Hd : (dot (sortingDirection len (i3sub c2 c1)) (sortingDirection len (i3sub c2 c1)) <= 1)%R) by apply normalize_le_1.
      split; [exact Hd|]. intros p q Hp Hq. apply content_in in Hp as [Ip Ep]. apply content_in in Hq as [Iq Eq].
      unfold movedAtMost in Hmoved. rewrite Forall_forall in Hmoved.
      apply Rle_trans with s; [|lra].
      apply (behind_le pos old s (sortingDirection len (i3sub c2 c1)) (cellLo (getHaloBoxMin b) len c1) (cellHi (getHaloBoxMin b) len c1)
        (cellLo (getHaloBoxMin b) len c2) (cellHi (getHaloBoxMin b) len c2) p q); auto.
      + apply sortingDirection_points. destruct Hgrid as (_ & _ & Hbox & _). now apply len_pos.
      + apply (lc_geo isHalo old il csf bMin bMax ps Hgrid Hps p c1 Ip G1). fold b dims.
        rewrite inCell_at by exact (proj1 (threeToOneD_range dims c1 G1)). now apply Z.eqb_eq.
      + apply (lc_geo isHalo old il csf bMin bMax ps Hgrid Hps q c2 Iq G2). fold b dims.
        rewrite inCell_at by exact (proj1 (threeToOneD_range dims c2 G2)). now apply Z.eqb_eq.
  Qed.

  (** How often the three cells are processed for the first. *)
  Let cf lay threshold := mkCF lay false false threshold.
  Lemma handles_occ lay threshold a b' d ka kb kd :
    inGrid dims ka -> inGrid dims kb -> inGrid dims kd ->
    lcAt a = threeToOneD ka dims -> lcAt b' = threeToOneD kb dims -> lcAt d = threeToOneD kd dims ->
    (occ (handles3 (cf lay threshold) lcAt a b' d) calls <= 1)%nat /\
    (ownedCell dims ov ka -> withinReach near ov ka kb -> withinReach near ov ka kd -> withinReach near ov kb kd ->
     occ (handles3 (cf lay threshold) lcAt a b' d) calls = 1%nat).
  Proof.
    intros Ga Gb Gd Ea Eb Ed.
    (* the predicate on the calls of C14 that applies *)
    assert (Hnear0 : near 0 0 0 = true).
    { unfold near, nearR. destruct (Rle_dec _ _) as [H|H]; [reflexivity|]. exfalso. apply H. change (Z.max 0 (0 - 1)) with 0. unfold dot. cbn [rx ry rz].
      rewrite !Rmult_0_l, !Rplus_0_r. apply Rle_0_sqr. }
    assert (Gen : forall Q : Call3B -> bool,
      (forall c, In c calls -> handles3 (cf lay threshold) lcAt a b' d c = Q (drop c)) ->
      occ (handles3 (cf lay threshold) lcAt a b' d) calls = occ Q (c01Calls3B near ov dims)).
    { intros Q HQ. rewrite <- (calls_drop near ov dims len), occ_map. now apply occ_ext. }
    assert (Ow : forall Q : Call3B -> bool, (forall c, In c calls -> handles3 (cf lay threshold) lcAt a b' d c = Q (drop c)) ->
      (forall c, In c calls -> Q (drop c) = true -> occ Q (c01Calls3B near ov dims) = 1%nat) ->
      (occ (handles3 (cf lay threshold) lcAt a b' d) calls <= 1)%nat).
    { intros Q HQ HQ1.       destruct (existsb (fun c => Q (drop c)) calls) eqn:Ex.
      - apply existsb_exists in Ex as (c & Hc & Qc). rewrite (Gen Q HQ), (HQ1 c Hc Qc). apply Nat.le_refl.
      - rewrite occ_zero; [apply Nat.le_0_l|]. intros c Hc. rewrite (HQ c Hc).
        destruct (Q (drop c)) eqn:Qc; [|reflexivity]. rewrite <- Ex. symmetry. apply existsb_exists. eauto. }
    assert (Two : forall ko, inGrid dims ko -> ka <> ko -> (kb = ka /\ kd = ko \/ kb = ko /\ kd = ka \/ kb = ko /\ kd = ko) ->
      (occ (handles3 (cf lay threshold) lcAt a b' d) calls <= 1)%nat /\
      (ownedCell dims ov ka -> withinReach near ov ka ko -> occ (handles3 (cf lay threshold) lcAt a b' d) calls = 1%nat)).
    { intros ko Go No Hc3. pose proof (flat_ne ka ko Ga Go No) as Nf.
      assert (HQ : forall c, In c calls -> handles3 (cf lay threshold) lcAt a b' d c = isPair (threeToOneD ka dims) (threeToOneD ko dims) (drop c)).
      { intros c Hc. destruct (sound c Hc) as (x & Ox & S). pose proof (owned_grid x Ox) as Gx. cbn [useNewton3 cf].
        unfold handles3. rewrite Ea, Eb, Ed. clear -Hc3 Nf S flat_ne Gx.
        assert (Hc3' : threeToOneD kb dims = threeToOneD ka dims /\ threeToOneD kd dims = threeToOneD ko dims \/
          threeToOneD kb dims = threeToOneD ko dims /\ threeToOneD kd dims = threeToOneD ka dims \/
          threeToOneD kb dims = threeToOneD ko dims /\ threeToOneD kd dims = threeToOneD ko dims) by (destruct Hc3 as [[-> ->]|[[-> ->]|[-> ->]]]; auto).
        clear Hc3. destruct c as [k|k1 k2 dir|k1 k2 k3 dir]; cbn [drop isPair isOneOf].
        - destruct (_ && _) eqn:T; [exfalso|reflexivity]. rewrite !andb_true_iff, !Z.eqb_eq in T. lia.
        - cbn [drop] in S. destruct S as [S|[(y & Gy & N & _ & S)|(? & ? & _ & _ & _ & _ & _ & _ & S)]]; try discriminate. injection S as -> ->.
          pose proof (flat_ne x y Gx Gy N) as Nxy. unfold isOneOf.
          set (fa := threeToOneD ka dims) in *. set (fb := threeToOneD kb dims) in *. set (fd := threeToOneD kd dims) in *.
          set (fo := threeToOneD ko dims) in *. set (fx := threeToOneD x dims) in *. set (fy := threeToOneD y dims) in *.
          clearbody fa fb fd fo fx fy. clear -Hc3' Nf Nxy.
          destruct (Z.eqb_spec fa fx), (Z.eqb_spec fa fy), (Z.eqb_spec fb fx), (Z.eqb_spec fb fy), (Z.eqb_spec fd fx), (Z.eqb_spec fd fy),
            (Z.eqb_spec fa fb), (Z.eqb_spec fb fd), (Z.eqb_spec fx fa), (Z.eqb_spec fy fo); cbn; try reflexivity; exfalso; lia.
        - cbn [drop] in S. destruct S as [S|[(? & _ & _ & _ & S)|(y & z & Gy & Gz & N1 & N2 & N3 & _ & S)]]; try discriminate. injection S as -> -> ->.
          pose proof (flat_ne x y Gx Gy N1) as M1. pose proof (flat_ne x z Gx Gz N2) as M2. pose proof (flat_ne y z Gy Gz N3) as M3.
          cbn [useNewton3]. rewrite andb_false_l, orb_false_r.
          match goal with |- ?e = false => destruct e eqn:T; [exfalso|reflexivity] end.
          rewrite andb_true_iff, orb_true_iff, !andb_true_iff, !Z.eqb_eq in T. lia. }
      split.
      - apply (Ow _ HQ). intros c Hc Qc. destruct (sound c Hc) as (x & Ox & S). destruct (drop c) as [|x1 x2|]; cbn [isPair] in Qc; try discriminate.
        destruct S as [S|[(y & Gy & N & R & S)|(? & ? & _ & _ & _ & _ & _ & _ & S)]]; try discriminate. injection S as -> ->.
        rewrite andb_true_iff, !Z.eqb_eq in Qc. destruct Qc as [Q1 Q2].
        apply (threeToOneD_inj dims) in Q1; auto. apply (threeToOneD_inj dims) in Q2; auto. subst x y.
        now apply c01_pair_once.
      - intros Oa R. rewrite (Gen _ HQ). now apply c01_pair_once. }
    destruct (i3_dec ka kb) as [<-|Nab]; [destruct (i3_dec ka kd) as [<-|Nad]|].
    - (* one cell *)
      assert (HQ : forall c, In c calls -> handles3 (cf lay threshold) lcAt a b' d c = isCell (threeToOneD ka dims) (drop c)).
      { intros c Hc. destruct (sound c Hc) as (x & Ox & S). pose proof (owned_grid x Ox) as Gx. unfold handles3. rewrite Ea, Eb, Ed.
        destruct c as [k|k1 k2 dir|k1 k2 k3 dir]; cbn [drop isCell].
        - rewrite (Z.eqb_sym k). destruct (_ =? _); reflexivity.
        - rewrite Z.eqb_refl. cbn [andb negb]. now rewrite andb_false_r, andb_false_l.
        - cbn [drop] in S. destruct S as [S|[(? & _ & _ & _ & S)|(y & z & Gy & Gz & N1 & N2 & N3 & _ & S)]]; try discriminate. injection S as -> -> ->.
          pose proof (flat_ne x y Gx Gy N1) as M1. pose proof (flat_ne x z Gx Gz N2) as M2.
          cbn [useNewton3 cf]. rewrite andb_false_l, orb_false_r.
          match goal with |- ?e = false => destruct e eqn:T; [exfalso|reflexivity] end.
          rewrite andb_true_iff, orb_true_iff, !andb_true_iff, !Z.eqb_eq in T. lia. }
      split.
      + apply (Ow _ HQ). intros c Hc Qc. destruct (sound c Hc) as (x & Ox & S). destruct (drop c) as [k| |]; cbn [isCell] in Qc; try discriminate.
        destruct S as [S|[(? & _ & _ & _ & S)|(? & ? & _ & _ & _ & _ & _ & _ & S)]]; try discriminate. injection S as ->.
        apply Z.eqb_eq, (threeToOneD_inj dims) in Qc; auto. subst x. now apply c01_cell_once.
      + intros Oa _ _ _. rewrite (Gen _ HQ). now apply c01_cell_once.
    - destruct (Two kd Gd Nad) as [T1 T2]; [auto|]. split; [exact T1|]. intros Oa _ R _. now apply T2.
    - destruct (i3_dec ka kd) as [<-|Nad]; [|destruct (i3_dec kb kd) as [<-|Nbd]].
      + destruct (Two kb Gb Nab) as [T1 T2]; [auto|]. split; [exact T1|]. intros Oa R _ _. now apply T2.
      + destruct (Two kb Gb Nab) as [T1 T2]; [auto|]. split; [exact T1|]. intros Oa R _ _. now apply T2.
      + (* three cells *)
        pose proof (flat_ne ka kb Ga Gb Nab) as F1. pose proof (flat_ne ka kd Ga Gd Nad) as F2. pose proof (flat_ne kb kd Gb Gd Nbd) as F3.
        assert (HQ : forall c, In c calls -> handles3 (cf lay threshold) lcAt a b' d c =
          isTriple (threeToOneD ka dims) (threeToOneD kb dims) (threeToOneD kd dims) (drop c)).
        { intros c Hc. unfold handles3. rewrite Ea, Eb, Ed. destruct c as [k|k1 k2 dir|k1 k2 k3 dir]; cbn [drop isTriple].
          - destruct (_ && _) eqn:T; [exfalso|reflexivity]. rewrite !andb_true_iff, !Z.eqb_eq in T. lia.
          - match goal with |- ?e = false => destruct e eqn:T; [exfalso|reflexivity] end. unfold isOneOf in T.
            rewrite !andb_true_iff, !orb_true_iff, !Z.eqb_eq in T. lia.
          - cbn [useNewton3 cf]. rewrite andb_false_l, orb_false_r. rewrite (Z.eqb_sym k1). f_equal.
            rewrite (Z.eqb_sym k2 (threeToOneD kb dims)), (Z.eqb_sym k3 (threeToOneD kd dims)), (Z.eqb_sym k2), (Z.eqb_sym k3).
            f_equal. apply andb_comm. }
        split.
        * apply (Ow _ HQ). intros c Hc Qc. destruct (sound c Hc) as (x & Ox & S). pose proof (owned_grid x Ox) as Gx.
          destruct (drop c) as [|? ?|x1 x2 x3]; cbn [isTriple] in Qc; try discriminate.
          destruct S as [S|[(? & _ & _ & _ & S)|(y & z & Gy & Gz & N1 & N2 & N3 & R & S)]]; try discriminate. injection S as -> -> ->.
          rewrite andb_true_iff, orb_true_iff, !andb_true_iff, !Z.eqb_eq in Qc. destruct Qc as [Q1 [[Q2 Q3]|[Q2 Q3]]];
            apply (threeToOneD_inj dims) in Q1; auto; apply (threeToOneD_inj dims) in Q2; auto; apply (threeToOneD_inj dims) in Q3; auto; subst x y z.
          -- now apply c01_triple_once.
          -- apply c01_triple_once; auto. destruct R as (R1 & R2 & R3). split; [exact R2|]. split; [exact R1|].
             rewrite <- R3. f_equal; rewrite <- Z.abs_opp; f_equal; ring.
        * intros Oa R1 R2 R3. rewrite (Gen _ HQ). apply c01_triple_once; auto. split; [exact R1|]. split; [exact R2|]. apply R3.
  Qed.

  Lemma lc_triplets lay threshold :
    exists cells, lcAddAll isHalo rndExact b old (lcEmpty b) ps = Some cells /\
    forall a c d, In a ps -> In c ps -> In d ps -> a <> c -> a <> d -> c <> d ->
      (received3 pid (lcInteract3 isHalo view pos lay threshold il cells calls) a c d <= 1)%nat /\
      (isHalo a = false -> pairwiseWithin pos (il - s) a c d ->
       received3 pid (lcInteract3 isHalo view pos lay threshold il cells calls) a c d = 1%nat).
  Proof.
    destruct (lc_build isHalo old il csf bMin bMax ps Hgrid Hps) as (cells & E & Hb). exists cells. split; [exact E|].
    intros a c d Ia Ic Id N1 N2 N3. unfold lcInteract3.
    destruct (triple_total pid isHalo pos view (cf lay threshold) il (normalize (mkR3 1 1 1)) ps lcAt lcOwn cells Hview (normalize_le_1 _)
      Hids at_owns eq_refl a c d Ia Ic Id N1 N2 N3 calls (calls_well cells Hb)) as [T1 T2].
    destruct (at_cell a Ia) as (ka & Ga & Ea & Ba & Oa). destruct (at_cell c Ic) as (kc & Gc & Ec & Bc & Oc). destruct (at_cell d Id) as (kd & Gd & Ed & Bd & Od).
    destruct (handles_occ lay threshold a c d ka kc kd Ga Gc Gd Ea Ec Ed) as [O1 O2]. unfold cf in *.
    split; [lia|]. intros Ho (D1 & D2 & D3).
    rewrite T2; [|exact Ho|unfold allWithin; lra].
    apply O2.
    - specialize (Oa Ho). destruct (lc_haloCovers il csf bMin bMax Hgrid) as ((C1 & C2 & C3) & _).
      fold b in C1, C2, C3. fold ov in C1, C2, C3. unfold ownedCell, h in *. cbn [ix iy iz] in *. lia.
    - now apply (lc_reach pos old il csf s bMin bMax ps Hgrid Hmoved a c).
    - now apply (lc_reach pos old il csf s bMin bMax ps Hgrid Hmoved a d).
    - now apply (lc_reach pos old il csf s bMin bMax ps Hgrid Hmoved c d).
  Qed.
End LC3.
