(** lc_c01_combined_SoA: the combined buffers always hold the slices of the current
    base cell, and the interactions are those of lc_c01. *)
From Verif.Base Require Import ZRange Occ.
From Verif.Grid Require Import IndexModel IndexSpec IndexProofs.
From Verif.Functor Require Import CellFunctorModel FunctorSpec.
From Verif.Traversal Require Import ColorModel ColorProofs CellSpec CellLemmas C18Proofs C01Model C01Spec C01Proofs.
From Verif.Utils Require Import SoAModel.
From Verif.Container Require Import CombinedC01Model CombinedC01Slices.

Lemma flat_map_app_perm {A B} (f g : A -> list B) l :
  Permutation (flat_map (fun x => f x ++ g x) l) (flat_map f l ++ flat_map g l).
Proof.
  induction l as [|x l IH]; [reflexivity|]. cbn [flat_map]. rewrite <- !app_assoc. apply Permutation_app_head.
  rewrite IH, !app_assoc. apply Permutation_app_tail. apply Permutation_app_comm.
Qed.

Lemma flat_map_perm_ext {A B} (f g : A -> list B) l :
  (forall x, In x l -> Permutation (f x) (g x)) -> Permutation (flat_map f l) (flat_map g l).
Proof.
  induction l as [|x l IH]; intros H; [reflexivity|]. cbn [flat_map]. apply Permutation_app.
  - apply H. now left.
  - apply IH. intros y Hy. apply H. now right.
Qed.

Lemma zrange_snoc n : zrange 0 (Z.of_nat (S n)) = zrange 0 (Z.of_nat n) ++ [Z.of_nat n].
Proof.
  unfold zrange. replace (Z.to_nat (Z.of_nat (S n) - 0)) with (S n) by lia.
  replace (Z.to_nat (Z.of_nat n - 0)) with n by lia. rewrite seq_S, map_app. reflexivity.
Qed.

Lemma map_zrange_cons {A} (f : Z -> A) n : map f (zrange 0 (Z.of_nat (S n))) = f 0 :: map (fun t => f (t + 1)) (zrange 0 (Z.of_nat n)).
Proof.
  unfold zrange. replace (Z.to_nat (Z.of_nat (S n) - 0)) with (S n) by lia.
  replace (Z.to_nat (Z.of_nat n - 0)) with n by lia. cbn [seq map]. change (0 + Z.of_nat 0) with 0. f_equal.
  rewrite <- seq_shift, !map_map. apply map_ext. intros k. f_equal. lia.
Qed.

Lemma mod_inj n c p q : 0 < n -> 0 <= p < n -> 0 <= q < n -> (c + p) mod n = (c + q) mod n -> p = q.
Proof.
  intros Hn Hp Hq E. apply (f_equal (fun v => (v - c) mod n)) in E. rewrite !Zminus_mod_idemp_l in E.
  replace (c + p - c) with p in E by ring. replace (c + q - c) with q in E by ring.
  now rewrite !Z.mod_small in E by lia.
Qed.

Section Ring.
  Context {P : Type}.
  Variable isHalo : P -> bool.
  Variable view : list P -> list P.
  Variable far : P -> P -> bool.
  Variable zeroP : P.
  Variable cf : CFSettings.
  Variable near : Z -> Z -> Z -> bool.
  Variables ov dims : I3.
  Variable cells : list (Cell P).
  Hypothesis Hfit : gridFits2x dims ov.
  Hypothesis Haxis : near (ix ov) 0 0 = true.
  Hypothesis Hmono : monotoneX near.
  Hypothesis Hlay : layout cf = SoA.
  Hypothesis Hn3 : useNewton3 cf = false.
  Hypothesis Hbi : bidirectional cf = false.

  Notation n := (cOffSize ov).
  Notation rows := (cellRows cells).
  Notation off := (cOff near ov dims).
  Definition sliceRows (base j : Z) : list P := flat_map (fun o => rows (base + o)) (off j).

  Lemma n_pos : 0 < n /\ n = 2 * ix ov + 1 /\ 0 < ix ov.
  Proof. destruct Hfit as ((H & _) & _). unfold cOffSize. lia. Qed.

  Lemma appendCells_at base offs : forall (b : Z -> list P) s j,
    appendCells cells base offs b s j = if j =? s then b s ++ flat_map (fun o => rows (base + o)) offs else b j.
  Proof.
    unfold appendCells. induction offs as [|o offs IH]; intros b s j; cbn [fold_left flat_map].
    - destruct (Z.eqb_spec j s) as [->|]; [now rewrite app_nil_r|reflexivity].
    - rewrite IH. unfold setBuf. rewrite Z.eqb_refl. destruct (Z.eqb_spec j s) as [->|]; [now rewrite <- app_assoc|reflexivity].
  Qed.

  Lemma newSize_length base offs :
    fold_left (fun m o => (m + length (rows (base + o)))%nat) offs O = length (flat_map (fun o => rows (base + o)) offs).
  Proof.
    assert (G : forall offs k, fold_left (fun m o => (m + length (rows (base + o)))%nat) offs k =
      (k + length (flat_map (fun o => rows (base + o)) offs))%nat).
    { clear. induction offs as [|o offs IH]; intros k; cbn [fold_left flat_map]; [cbn [length]; lia|]. rewrite IH, app_length. lia. }
    apply (G offs O).
  Qed.

  (** Slice [j] of the next base cell against slice [j + 1] of this one. *)
  Lemma off_at j : 0 <= j < n -> off j = map (flatYZ dims (j - ix ov)) (rowsAll near ov dims (Z.abs (j - ix ov))).
  Proof.
    intros Hj. pose proof n_pos. destruct (rows_spec near ov dims Hfit Haxis) as (_ & _ & E).
    specialize (E (j - ix ov) ltac:(lia)). replace (j - ix ov + ix ov) with j in E by ring. exact E.
  Qed.

  Lemma flatYZ_step i yz : flatYZ dims (i + 1) yz = flatYZ dims i yz + 1.
  Proof. unfold flatYZ, threeToOneD. cbn [ix iy iz]. ring. Qed.

  Lemma rows_shift base i l : flat_map (fun o => rows (base + o)) (map (flatYZ dims (i + 1)) l) =
    flat_map (fun o => rows (base + 1 + o)) (map (flatYZ dims i) l).
  Proof.
    induction l as [|yz l IH]; [reflexivity|]. cbn [map flat_map]. rewrite IH, flatYZ_step. do 2 f_equal. ring.
  Qed.

  Lemma shrink base j : 0 <= j < ix ov -> exists e, sliceRows base (j + 1) = sliceRows (base + 1) j ++ e.
  Proof.
    intros Hj. pose proof n_pos. unfold sliceRows. rewrite !off_at by lia.
    destruct (rows_spec near ov dims Hfit Haxis) as (_ & Hpre & _).
    destruct (Hpre (Z.abs (j + 1 - ix ov)) (Z.abs (j - ix ov)) ltac:(lia) ltac:(lia)) as (e & ->).
    replace (j + 1 - ix ov) with (j - ix ov + 1) by ring.
    rewrite rows_shift, map_app, flat_map_app. now eexists.
  Qed.

  Lemma grow base j : ix ov <= j < 2 * ix ov ->
    sliceRows (base + 1) j = sliceRows base (j + 1) ++ flat_map (fun o => rows (base + 1 + o)) (skipn (length (off (j + 1))) (off j)).
  Proof.
    intros Hj. pose proof n_pos. unfold sliceRows. rewrite !off_at by lia.
    destruct (rows_spec near ov dims Hfit Haxis) as (_ & Hpre & _).
    destruct (Hpre (Z.abs (j - ix ov)) (Z.abs (j + 1 - ix ov)) ltac:(lia) ltac:(lia)) as (e & ->).
    replace (j + 1 - ix ov) with (j - ix ov + 1) by ring.
    rewrite rows_shift, map_app, map_length, skipn_app, skipn_all2, flat_map_app by (rewrite map_length; lia).
    rewrite map_length, Nat.sub_diag. reflexivity.
  Qed.

  (** * Loops around the ring *)
  Lemma ringLoop_eq c : forall k fuel slice m i, (k <= fuel)%nat -> 0 <= m -> m + Z.of_nat k <= n -> (Z.of_nat k < n) ->
    slice = (c + m) mod n ->
    ringLoop ov fuel slice ((c + (m + Z.of_nat k)) mod n) i =
    map (fun t => ((c + (m + t)) mod n, i + t)) (zrange 0 (Z.of_nat k)).
  Proof.
    pose proof n_pos as (Hn & _). induction k as [|k IH]; intros fuel slice m i Hf Hm Hk Hlt ->.
    - replace (m + Z.of_nat 0) with m by lia. destruct fuel; cbn [ringLoop]; [reflexivity|]. now rewrite Z.eqb_refl.
    - destruct fuel as [|fuel]; [lia|]. cbn [ringLoop].
      destruct (Z.eqb_spec ((c + m) mod n) ((c + (m + Z.of_nat (S k))) mod n)) as [E|_].
      + exfalso. apply (f_equal (fun v => (v - (c + m)) mod n)) in E. rewrite !Zminus_mod_idemp_l in E.
        replace (c + m - (c + m)) with 0 in E by ring.
        replace (c + (m + Z.of_nat (S k)) - (c + m)) with (Z.of_nat (S k)) in E by ring.
        rewrite Z.mod_small, Z.mod_small in E by lia. lia.
      + rewrite map_zrange_cons. f_equal; [f_equal; [do 2 f_equal|]; lia|].
        replace (m + Z.of_nat (S k)) with (m + 1 + Z.of_nat k) by lia.
        rewrite (IH fuel _ (m + 1) (i + 1)); [|lia|lia|lia|lia|].
        * apply map_ext. intros t. f_equal; [|ring]. f_equal. ring.
        * rewrite Zplus_mod_idemp_l. f_equal. ring.
  Qed.

  (** A loop that changes the buffer of every slice it visits. *)
  Lemma loop_at (step : (Z -> list P) -> Z * Z -> Z -> list P) (g : Z -> list P -> list P) c k i :
    (forall b e j, step b e j = if j =? fst e then g (snd e) (b (fst e)) else b j) -> 0 <= k ->
    forall m, k + Z.of_nat m <= n -> forall b p, 0 <= p < n ->
    fold_left step (map (fun t => ((c + (k + t)) mod n, i + t)) (zrange 0 (Z.of_nat m))) b ((c + p) mod n) =
    if (k <=? p) && (p <? k + Z.of_nat m) then g (i + (p - k)) (b ((c + p) mod n)) else b ((c + p) mod n).
  Proof.
    pose proof n_pos as (Hn & _). intros Hstep Hk. induction m as [|m IH]; intros Hm b p Hp.
    - cbn [Z.of_nat]. destruct (Z.leb_spec k p), (Z.ltb_spec p (k + 0)); cbn [andb]; try lia; reflexivity.
    - rewrite zrange_snoc, map_app, fold_left_app. cbn [map fold_left]. rewrite Hstep. cbn [fst snd].
      destruct (Z.eqb_spec ((c + p) mod n) ((c + (k + Z.of_nat m)) mod n)) as [E|E].
      + apply mod_inj in E; [|lia..]. subst p. rewrite IH by lia.
        replace (k + Z.of_nat m <? k + Z.of_nat m) with false by (symmetry; apply Z.ltb_irrefl).
        rewrite andb_false_r.
        replace (k <=? k + Z.of_nat m) with true by (symmetry; apply Z.leb_le; lia).
        replace (k + Z.of_nat m <? k + Z.of_nat (S m)) with true by (symmetry; apply Z.ltb_lt; lia).
        cbn [andb]. f_equal. ring.
      + rewrite IH by lia. assert (p <> k + Z.of_nat m) by (intros ->; now apply E).
        destruct (Z.leb_spec k p), (Z.ltb_spec p (k + Z.of_nat m)), (Z.ltb_spec p (k + Z.of_nat (S m))); cbn [andb]; try lia; reflexivity.
  Qed.

  (** * The buffers hold the slices of the current base cell *)
  Definition ringInv (base : Z) (r : Ring) : Prop :=
    0 <= cur r < n /\ forall j, 0 <= j < n -> buf r ((cur r + j) mod n) = sliceRows base j.

  Lemma init_inv base b : ringInv base (c01cInit near ov dims cells base b).
  Proof.
    pose proof n_pos as (Hn & _). split; [cbn [cur c01cInit]; lia|]. intros j Hj. cbn [cur c01cInit buf].
    replace (0 + j) with j by ring. rewrite Z.mod_small by lia.
    assert (G : forall l b, NoDup l -> In j l ->
      fold_left (fun b slice => appendCells cells base (off slice) (setBuf b slice []) slice) l b j = sliceRows base j).
    { assert (K : forall l b, ~ In j l ->
        fold_left (fun b slice => appendCells cells base (off slice) (setBuf b slice []) slice) l b j = b j).
      { induction l as [|x l IH]; intros b0 Hni; [reflexivity|]. cbn [fold_left]. rewrite IH by (intros H; apply Hni; now right).
        rewrite appendCells_at. unfold setBuf. destruct (Z.eqb_spec j x) as [->|]; [|reflexivity]. exfalso. apply Hni. now left. }
      induction l as [|x l IH]; intros b0 Hnd Hin; [destruct Hin|]. inversion Hnd; subst. cbn [fold_left].
      destruct (Z.eq_dec x j) as [->|Hne].
      - rewrite K by assumption. rewrite appendCells_at, Z.eqb_refl. unfold setBuf. now rewrite Z.eqb_refl.
      - apply IH; [assumption|]. destruct Hin; [contradiction|assumption]. }
    apply G; [apply NoDup_zrange|]. now apply in_zrange.
  Qed.

  Lemma resize_prefix (l e : list P) : resizeList P zeroP (length l) (l ++ e) = l.
  Proof.
    unfold resizeList. rewrite firstn_app, firstn_all, Nat.sub_diag, app_length. cbn [firstn].
    replace (length l - (length l + length e))%nat with 0%nat by lia. cbn [repeat]. now rewrite !app_nil_r.
  Qed.

  Lemma advance_inv base r : ringInv base r -> ringInv (base + 1) (c01cAdvance zeroP near ov dims cells (base + 1) r).
  Proof.
    pose proof n_pos as (Hn & En & Ho). intros (Hc & Hb).
    unfold c01cAdvance. set (ovn := Z.to_nat (ix ov)). assert (Eo : Z.of_nat ovn = ix ov) by (unfold ovn; lia).
    replace ((cur r + ix ov + 1) mod n) with ((cur r + (1 + Z.of_nat ovn)) mod n) by (f_equal; lia).
    rewrite (ringLoop_eq (cur r) ovn (Z.to_nat n) _ 1 0) by (try reflexivity; lia).
    rewrite map_length, length_zrange. replace (Z.of_nat (Z.to_nat (Z.of_nat ovn - 0))) with (ix ov) by lia.
    assert (Ec : cur r = (cur r + ((1 + Z.of_nat ovn) + Z.of_nat ovn)) mod n).
    { replace (cur r + (1 + Z.of_nat ovn + Z.of_nat ovn)) with (cur r + 1 * n) by lia. rewrite Z.mod_add by lia. now rewrite Z.mod_small. }
    pose proof (ringLoop_eq (cur r) ovn (Z.to_nat n) _ (1 + Z.of_nat ovn) (ix ov) ltac:(lia) ltac:(lia) ltac:(lia) ltac:(lia) eq_refl) as L2.
    rewrite <- Ec in L2. rewrite L2. clear L2.
    split; [cbn [cur]; apply Z.mod_pos_bound; lia|]. cbn [cur buf]. intros j Hj.
    rewrite Zplus_mod_idemp_l. replace (cur r + 1 + j) with (cur r + (j + 1)) by ring.
    rewrite appendCells_at. unfold setBuf at 1 2. rewrite Z.eqb_refl.
    destruct (Z.eq_dec j (2 * ix ov)) as [->|Hj2].
    { replace ((cur r + (2 * ix ov + 1)) mod n) with (cur r).
      2:{ rewrite Ec at 1. f_equal. lia. }
      rewrite Z.eqb_refl. cbn [app]. unfold sliceRows. replace (n - 1) with (2 * ix ov) by lia. reflexivity. }
    destruct (Z.eqb_spec ((cur r + (j + 1)) mod n) (cur r)) as [E|_].
    { exfalso. rewrite <- (Z.mod_small (cur r) n) in E at 2 by lia. replace (cur r) with (cur r + 0) in E at 2 by ring.
      apply mod_inj in E; lia. }
    rewrite (loop_at (c01cAppend near ov dims cells (base + 1))
      (fun i l => l ++ flat_map (fun o => rows (base + 1 + o)) (skipn (length (off ((i + 1) mod n))) (off i)))).
    2:{ intros b [sl i] q. unfold c01cAppend. rewrite appendCells_at. reflexivity. }
    2,3,4: lia.
    rewrite (loop_at (c01cReduce zeroP near ov dims cells (base + 1))
      (fun i l => resizeList P zeroP (length (flat_map (fun o => rows (base + 1 + o)) (off i))) l)).
    2:{ intros b [sl i] q. unfold c01cReduce. rewrite newSize_length. reflexivity. }
    2,3,4: lia.
    rewrite Hb by lia.
    destruct (Z_lt_le_dec j (ix ov)) as [Hlt|Hge].
    - replace (1 + Z.of_nat ovn <=? j + 1) with false by (symmetry; apply Z.leb_gt; lia). cbn [andb].
      replace (1 <=? j + 1) with true by (symmetry; apply Z.leb_le; lia).
      replace (j + 1 <? 1 + Z.of_nat ovn) with true by (symmetry; apply Z.ltb_lt; lia). cbn [andb].
      replace (0 + (j + 1 - 1)) with j by ring. fold (sliceRows (base + 1) j).
      destruct (shrink base j ltac:(lia)) as (e & ->). apply resize_prefix.
    - replace (1 + Z.of_nat ovn <=? j + 1) with true by (symmetry; apply Z.leb_le; lia).
      replace (j + 1 <? 1 + Z.of_nat ovn + Z.of_nat ovn) with true by (symmetry; apply Z.ltb_lt; lia). cbn [andb].
      replace (1 <=? j + 1) with true by (symmetry; apply Z.leb_le; lia).
      replace (j + 1 <? 1 + Z.of_nat ovn) with false by (symmetry; apply Z.ltb_ge; lia). cbn [andb].
      replace (ix ov + (j + 1 - (1 + Z.of_nat ovn))) with j by lia.
      rewrite (Z.mod_small (j + 1)) by lia. symmetry. apply grow. lia.
  Qed.

  (** * Interactions of a base cell *)
  Lemma ring_perm c : 0 <= c < n -> Permutation (zrange 0 n) (map (fun j => (c + j) mod n) (zrange 0 n)).
  Proof.
    intros Hc. pose proof n_pos as (Hn & _). symmetry. apply NoDup_Permutation_bis.
    - apply NoDup_map_inj; [|apply NoDup_zrange]. intros x y Hx Hy. rewrite in_zrange in Hx, Hy. apply mod_inj; lia.
    - rewrite map_length. lia.
    - intros x Hx. apply in_map_iff in Hx as (j & <- & _). apply in_zrange. now apply Z.mod_pos_bound.
  Qed.

  Lemma soaPair_app (l l1 l2 : list P) : Permutation (soaPair false l (l1 ++ l2)) (soaPair false l l1 ++ soaPair false l l2).
  Proof.
    unfold soaPair. rewrite <- flat_map_app_perm. erewrite flat_map_ext; [reflexivity|]. intros p. now rewrite map_app.
  Qed.

  Lemma soaPair_nil (l : list P) : soaPair false l [] = [].
  Proof. unfold soaPair. induction l as [|p l IH]; [reflexivity|]. exact IH. Qed.

  Lemma soaPair_flat {A} (l : list P) (g : A -> list P) t :
    Permutation (soaPair false l (flat_map g t)) (flat_map (fun o => soaPair false l (g o)) t).
  Proof.
    induction t as [|o t IH]; cbn [flat_map]; [now rewrite soaPair_nil|]. rewrite soaPair_app. now apply Permutation_app_head.
  Qed.

  Lemma off_zero j : 0 <= j < n -> In 0 (off j) -> j = ix ov.
  Proof.
    intros Hj H. pose proof n_pos. unfold cOff in H. replace j with (j - ix ov + ix ov) in H by ring.
    apply (c01_slice near ov dims Hfit Hmono) in H as (y & z & B & _ & E); [|lia].
    assert (E' : mkI3 (j - ix ov) y z = mkI3 0 0 0).
    { apply (flat_off_inj dims ov); auto. destruct Hfit as (Hp & _). unfold inReachBox, positive in *. cbn [ix iy iz]. lia. }
    injection E'. lia.
  Qed.

  Lemma off_mid : exists t, off (ix ov) = 0 :: t /\ ~ In 0 t.
  Proof.
    pose proof n_pos. destruct (rows_spec near ov dims Hfit Haxis) as (Hh & _).
    pose proof (off_at (ix ov) ltac:(lia)) as E. replace (ix ov - ix ov) with 0 in E by ring. change (Z.abs 0) with 0 in E.
    destruct (Hh 0 ltac:(lia)) as (t & Et). rewrite Et in E. cbn [map] in E.
    change (flatYZ dims 0 (0, 0)) with 0 in E. exists (map (flatYZ dims 0) t). split; [exact E|].
    destruct (c01_slice near ov dims Hfit Hmono 0 ltac:(lia)) as [Hnd _]. replace (0 + ix ov) with (ix ov) in Hnd by ring.
    unfold cOff in E. rewrite E in Hnd. now inversion Hnd.
  Qed.

  (** The functor calls lc_c01 makes for the base cell. *)
  Definition plainCalls (c : Cell P) (base : Z) : list (Call P) :=
    flat_map (fun o => if o =? 0 then processCell isHalo view far cf c else soaPair false (parts c) (rows (base + o)))
      (c01AllOffsets near ov dims).

  Lemma interact_owned base r c : nth_error cells (Z.to_nat base) = Some c -> mayOwn c = true -> ringInv base r ->
    Permutation (c01cInteract isHalo view far cf ov c r) (plainCalls c base).
  Proof.
    intros Ec Hown (Hc & Hb). pose proof n_pos as (Hn & En & Ho).
    unfold c01cInteract, plainCalls, c01AllOffsets. rewrite flat_map_flat_map.
    rewrite (ring_perm (cur r) Hc) at 1. rewrite flat_map_concat_map, map_map, <- flat_map_concat_map.
    fold n. apply flat_map_perm_ext. intros j Hj. rewrite in_zrange in Hj. rewrite Hb by exact Hj. fold (off j).
    destruct (Z.eqb_spec ((cur r + j) mod n) ((cur r + ix ov) mod n)) as [E|E].
    - apply mod_inj in E; [|lia..]. subst j. destruct off_mid as (t & Et & Hni).
      unfold sliceRows. rewrite Et. cbn [flat_map]. rewrite Z.eqb_refl.
      replace (rows (base + 0)) with (parts c) by (unfold cellRows; now rewrite Z.add_0_r, Ec).
      rewrite skipn_app, skipn_all, Nat.sub_diag. cbn [app skipn].
      rewrite Permutation_app_comm. apply Permutation_app_head. rewrite soaPair_flat.
      apply flat_map_perm_ext. intros o Hin. destruct (Z.eqb_spec o 0) as [->|]; [contradiction|reflexivity].
    - assert (Hni : ~ In 0 (off j)).
      { intros H. apply E. apply off_zero in H; [now subst j|exact Hj]. }
      transitivity (soaPair false (parts c) (sliceRows base j)).
      + unfold processCellPair, processCellPairSoA. rewrite Hown, Hlay, Hn3, Hbi. cbn [parts negb andb orb].
        destruct (parts c) as [|p l]; [reflexivity|]. destruct (sliceRows base j) as [|q m].
        * now rewrite soaPair_nil.
        * now rewrite app_nil_r.
      + unfold sliceRows. rewrite soaPair_flat. apply flat_map_perm_ext. intros o Hin.
        destruct (Z.eqb_spec o 0) as [->|]; [contradiction|reflexivity].
  Qed.

  Lemma interact_halo r c x : mayOwn c = false -> In x (c01cInteract isHalo view far cf ov c r) ->
    In (fstP x) (parts c) /\ n3 x = false.
  Proof.
    intros Hown Hin. unfold c01cInteract in Hin. apply in_flat_map in Hin as (sl & _ & Hin).
    destruct (sl =? _).
    - apply in_app_or in Hin as [Hin|Hin].
      + unfold soaPair in Hin. apply in_flat_map in Hin as (p & Hp & Hin). apply in_map_iff in Hin as (q & <- & _). auto.
      + unfold processCell in Hin. rewrite Hown in Hin. destruct (parts c); destruct Hin.
    - unfold processCellPair in Hin. rewrite Hown, Hn3, Hbi in Hin. cbn [negb andb orb parts] in Hin.
      destruct (parts c); [destruct Hin|]. destruct (buf r sl); destruct Hin.
  Qed.

  (** * Walking along x *)
  Fixpoint consecutive (prev : option I3) (bs : list I3) : Prop :=
    match bs with
    | [] => True
    | b :: rest => (ix b = ix ov \/ exists p, prev = Some p /\ b = mkI3 (ix p + 1) (iy p) (iz p)) /\ consecutive (Some b) rest
    end.

  Lemma line_consecutive y z rest m : (forall prev, consecutive prev rest) -> forall st prev,
    (st = O \/ prev = Some (mkI3 (ix ov + 1 * Z.of_nat st - 1) y z)) ->
    consecutive prev (map (fun x => mkI3 x y z) (map (fun k => ix ov + 1 * Z.of_nat k) (seq st m)) ++ rest).
  Proof.
    intros Hrest. induction m as [|m IH]; intros st prev H; [apply Hrest|]. cbn [seq map app consecutive ix]. split.
    - destruct H as [ -> | -> ]; [left; cbn [Z.of_nat]; ring|]. right. eexists. split; [reflexivity|]. cbn [ix iy iz]. f_equal. ring.
    - apply IH. right. do 2 f_equal. lia.
  Qed.

  Lemma lines_consecutive lines : forall prev, consecutive prev (flat_map (c01Line ov dims) lines).
  Proof.
    induction lines as [|[y z] lines IH]; intros prev; [exact I|]. cbn [flat_map]. unfold c01Line, zsteps. cbn [fst snd].
    apply line_consecutive; [exact IH|now left].
  Qed.

  Definition baseCalls (b : I3) (cs : list (Call P)) : Prop :=
    exists r, ringInv (threeToOneD b dims) r /\
      cs = match nth_error cells (Z.to_nat (threeToOneD b dims)) with
           | Some c => c01cInteract isHalo view far cf ov c r | None => [] end.

  Lemma run_bases bs : forall prev r, consecutive prev bs ->
    (forall p, prev = Some p -> ringInv (threeToOneD p dims) r) ->
    exists css, c01cRun isHalo view far zeroP cf near ov dims cells r bs = concat css /\ Forall2 baseCalls bs css.
  Proof.
    induction bs as [|b bs IH]; intros prev r Hc Hp; [exists []; split; [reflexivity|constructor]|].
    cbn [consecutive] in Hc. destruct Hc as [Hb Hc]. cbn [c01cRun].
    unfold c01cProcessBaseCell. set (r' := if ix b =? ix ov then _ else _).
    assert (Hr : ringInv (threeToOneD b dims) r').
    { unfold r'. destruct (Z.eqb_spec (ix b) (ix ov)) as [_|Hne]; [apply init_inv|].
      destruct Hb as [Hb|(p & -> & Hb)]; [contradiction|]. specialize (Hp p eq_refl).
      replace (threeToOneD b dims) with (threeToOneD p dims + 1); [now apply advance_inv|].
      rewrite Hb. unfold threeToOneD. cbn [ix iy iz]. ring. }
    destruct (IH (Some b) r' Hc) as (css & -> & Hf).
    { intros p E. injection E as <-. exact Hr. }
    eexists (_ :: css). split; [reflexivity|]. constructor; [|exact Hf]. exists r'. split; [exact Hr|reflexivity].
  Qed.

  Lemma thread_bases r lines : exists css,
    c01cThread isHalo view far zeroP cf near ov dims cells r lines = concat css /\
    Forall2 baseCalls (flat_map (c01Line ov dims) lines) css.
  Proof.
    unfold c01cThread. apply (run_bases _ None); [apply lines_consecutive|discriminate].
  Qed.

  Lemma threads_bases threads : exists css,
    concat (c01cThreads isHalo view far zeroP cf near ov dims cells threads) = concat css /\
    Forall2 baseCalls (flat_map (c01Line ov dims) (flat_map snd threads)) css.
  Proof.
    induction threads as [|[r lines] threads (css & E & Hf)]; [exists []; split; [reflexivity|constructor]|].
    destruct (thread_bases r lines) as (cs1 & E1 & Hf1). exists (cs1 ++ css). split.
    - unfold c01cThreads in *. cbn [map concat fst snd]. now rewrite E, E1, concat_app.
    - cbn [flat_map snd]. rewrite flat_map_app. now apply Forall2_app.
  Qed.

  Lemma lines_all : flat_map (c01Line ov dims) (c01Lines ov dims) = concat (c01Colors ov dims).
  Proof.
    unfold c01Lines, c01Colors, colorTraversal. cbn [ix iy iz].
    change (zrange 0 (1 * 1 * 1)) with [0]. cbn [map concat]. rewrite app_nil_r.
    replace (i3add (oneToThreeD 0 (mkI3 1 1 1)) ov) with ov.
    2:{ destruct ov as [a b c]. reflexivity. }
    unfold colorBases. cbn [ix iy iz]. rewrite flat_map_flat_map. apply flat_map_ext. intros z.
    rewrite flat_map_concat_map, map_map, <- flat_map_concat_map. reflexivity.
  Qed.
End Ring.
