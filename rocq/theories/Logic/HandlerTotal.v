(** Calls that are allowed never fail. *)
From Coq Require Import Reals Lra.
From Verif.Base Require Import ZRange Lists Occ.
From Verif.Grid Require Import IndexModel IndexSpec IndexProofs CellBlockModel CellBlockSpec CellBlockProofs CellBlockExact.
From Verif.Functor Require Import SortModel.
From Verif.Container Require Import LinkedCellsModel LinkedCellsSpec LinkedCellsGeo IteratorModel IteratorContainers IteratorSpec IteratorLemmas IteratorInstances IteratorRegion
  ParticleModel CollectModel CollectSpec CollectProofs CollectRun CollectContainers CollectTheorems UpdateModel UpdateProofs.
From Verif.Logic Require Import BalanceModel BalanceProofs HandlerModel HandlerSpec HandlerCont HandlerUpdate HandlerProofs HandlerExact.
Import ListNotations.
Local Open Scope Z_scope.

Section Total.
  Variables (cutoff spt : R) (freq : Z).
  Hypothesis Hopt : validOptions cutoff spt freq.
  Let il := il cutoff spt freq.
  Let skin := skin spt freq.
  Notation grid := (grid cutoff spt freq).
  Notation placed := (placed cutoff spt freq).
  Notation cellFor := (cellFor cutoff spt freq).
  Notation volumes := (volumes cutoff spt freq).
  Notation Inv := (Inv cutoff spt freq).
  Notation Ex := (Ex cutoff spt freq).

  Lemma lookup_grown csf lo hi x : validGrid il csf lo hi -> inGrownBox il lo hi x ->
    exists i, get1DIndexOfPosition rndExact (rebuild rndExact il csf lo hi) x = Some i /\ 0 <= i < numCells (blockDims (rebuild rndExact il csf lo hi)) /\
      (inBox lo hi x <-> cellCanContainOwnedParticles (rebuild rndExact il csf lo hi) i = true).
  Proof.
    intros Hg H. pose proof Hg as (G1 & G2 & HB & L1 & L2 & L3 & S1 & S2 & S3). pose proof HB as (B1 & B2 & B3).
    assert (HH : inBox (getHaloBoxMin (rebuild rndExact il csf lo hi)) (getHaloBoxMax (rebuild rndExact il csf lo hi)) x).
    { destruct (exact_halo_dim il csf _ _ G1 G2 B1 L1) as (X1 & X2 & _). destruct (exact_halo_dim il csf _ _ G1 G2 B2 L2) as (Y1 & Y2 & _).
      destruct (exact_halo_dim il csf _ _ G1 G2 B3 L3) as (Z1 & Z2 & _).
      unfold inGrownBox, inBox, growLow, growHigh in H. cbn [rx ry rz] in H. unfold inBox, getHaloBoxMin, getHaloBoxMax, rebuild. cbn [rx ry rz bX bY bZ]. lra. }
    destruct (exact3_lookup il csf lo hi G2 HB x S1 S2 S3 HH) as (k & E & K & B).
    exists (threeToOneD k (blockDims (rebuild rndExact il csf lo hi))). unfold get1DIndexOfPosition. rewrite E. split; [reflexivity|]. split; [apply threeToOneD_range; exact K|].
    apply (owned_cell il csf lo hi G2 HB k x K). apply (geo_bounds il csf lo hi G2 HB k x K). exact B.
  Qed.

  Lemma pushAt_total (cells : list (list Particle)) i p : (i < length cells)%nat -> exists c, pushAt cells i p = Some c.
  Proof. intros H. destruct (pushAt_spec cells i p H) as (c & E & _). exists c. exact E. Qed.

  Lemma owned_or_halo b i : cellCanContainOwnedParticles b i = negb (cellCanContainHaloParticles b i).
  Proof. reflexivity. Qed.

  Lemma addOwned_total lo hi c p : validKind cutoff spt freq lo hi (kind c) -> placed lo hi c -> pown p = 1 -> inBox lo hi (ppos p) ->
    exists c', addOwned cutoff spt freq lo hi c p = Some c'.
  Proof.
    destruct (spt_bounds cutoff spt freq Hopt) as (_ & S1 & S2 & _).
    intros V (Hs & _) O B. unfold addOwned. destruct (kind c) as [|csf].
    - destruct (pushAt_total (ccells c) 0 p) as (x & E); [unfold size, numberOfCells in Hs; lia|]. rewrite E. eexists; reflexivity.
    - destruct (lookup_grown csf lo hi (ppos p) V) as (i & E & Ri & Q); [apply box_grown; [fold il in S1; lra|exact B]|].
      unfold lcInsert. change (grid csf lo hi) with (rebuild rndExact il csf lo hi). rewrite E.
      assert (Hp : isHaloP p = false) by (unfold isHaloP, stHalo; rewrite O; reflexivity). rewrite Hp. apply Q in B. rewrite B.
      destruct (Z.ltb_spec i 0); [lia|]. cbn [orb negb].
      destruct (pushAt_total (ccells c) (Z.to_nat i) p) as (x & Ex); [unfold size, numberOfCells in Hs; change (grid csf lo hi) with (rebuild rndExact il csf lo hi) in Hs; lia|]. rewrite Ex. eexists; reflexivity.
  Qed.

  Lemma addHalo_total lo hi c p : validKind cutoff spt freq lo hi (kind c) -> placed lo hi c -> pown p = 2 -> ~ inBox lo hi (ppos p) -> inGrownBox il lo hi (ppos p) ->
    exists c', addHaloC cutoff spt freq lo hi c p = Some c'.
  Proof.
    intros V (Hs & _) O N B. unfold addHaloC. destruct (kind c) as [|csf].
    - destruct (dsHaloCell lo hi (ppos p)) as [i|] eqn:D; [|eexists; reflexivity].
      assert (i <= 6)%nat by (unfold dsHaloCell in D; repeat destruct (Rlt_dec _ _) in D; repeat destruct (Rle_dec _ _) in D; try discriminate; injection D as <-; lia).
      destruct (pushAt_total (ccells c) i p) as (x & E); [unfold size, numberOfCells in Hs; lia|]. rewrite E. eexists; reflexivity.
    - destruct (lookup_grown csf lo hi (ppos p) V B) as (i & E & Ri & Q).
      unfold lcInsert. change (grid csf lo hi) with (rebuild rndExact il csf lo hi). rewrite E.
      assert (Hp : isHaloP p = true) by (unfold isHaloP, stHalo; rewrite O; reflexivity). rewrite Hp.
      assert (H : cellCanContainHaloParticles (rebuild rndExact il csf lo hi) i = true).
      { destruct (cellCanContainHaloParticles _ i) eqn:Y; [reflexivity|exfalso]. apply N, Q. rewrite owned_or_halo, Y. reflexivity. }
      rewrite H. destruct (Z.ltb_spec i 0); [lia|]. cbn [orb negb].
      destruct (pushAt_total (ccells c) (Z.to_nat i) p) as (x & Ex); [unfold size, numberOfCells in Hs; change (grid csf lo hi) with (rebuild rndExact il csf lo hi) in Hs; lia|]. rewrite Ex. eexists; reflexivity.
  Qed.

  Lemma updateCells_total same p : forall is cells, (forall i, In i is -> 0 <= i < size cells) -> exists r, updateCells same p is cells = Some r.
  Proof.
    induction is as [|i is IH]; intros cells H; cbn [updateCells]; [eexists; reflexivity|].
    assert (Hi := H i (or_introl eq_refl)). unfold size in Hi.
    assert (A : exists c, at_ cells i = Some c).
    { unfold at_. destruct (Z.ltb_spec i 0); [lia|]. destruct (nth_error cells (Z.to_nat i)) eqn:E; [eexists; reflexivity|]. apply nth_error_None in E. lia. }
    destruct A as (c & ->). destruct (updateCell same p c); [eexists; reflexivity|]. apply IH. intros j Hj. apply H. right. exact Hj.
  Qed.

  Lemma updateHalo_total lo hi c p : validKind cutoff spt freq lo hi (kind c) -> placed lo hi c -> inGrownBox il lo hi (ppos p) ->
    exists r, updateHaloC cutoff spt freq lo hi c p = Some r.
  Proof.
    destruct (spt_bounds cutoff spt freq Hopt) as (_ & S1 & S2 & _). fold il skin in S1, S2.
    intros V (Hs & _) B. unfold updateHaloC. destruct (kind c) as [|csf].
    - match goal with |- context [updateCells ?a ?b ?l ?d] => destruct (updateCells_total a b l d) as ((x, u) & E) end; [|rewrite E; eexists; reflexivity].
      intros i Hi. unfold numberOfCells in Hs. rewrite Hs. unfold dsUpdateCells in Hi. repeat (apply in_app_or in Hi as [Hi|Hi]);
      destruct (Rlt_dec _ _) in Hi; try destruct (Rle_dec _ _) in Hi; cbn in Hi; lia.
    - unfold nearbyHaloCells. unfold inGrownBox, inBox, growLow, growHigh in B. cbn [rx ry rz] in B. fold skin.
      destruct (index3_defined il csf lo hi V (ppos p)) as (own & E0 & G0); [lra|lra|lra|].
      match goal with |- context [get3DIndexOfPosition rndExact _ (mkR3 (rx (ppos p) + - skin) ?b ?c)] =>
        destruct (index3_defined il csf lo hi V (mkR3 (rx (ppos p) + - skin) b c)) as (low & E1 & G1); [cbn [rx ry rz]; lra..|] end.
      match goal with |- context [get3DIndexOfPosition rndExact _ (mkR3 (rx (ppos p) + skin) ?b ?c)] =>
        destruct (index3_defined il csf lo hi V (mkR3 (rx (ppos p) + skin) b c)) as (high & E2 & G2); [cbn [rx ry rz]; lra..|] end.
      change (grid csf lo hi) with (rebuild rndExact il csf lo hi). rewrite E0, E1, E2.
      match goal with |- context [updateCells ?a ?b ?l ?d] => destruct (updateCells_total a b l d) as ((x, u) & E) end; [|rewrite E; eexists; reflexivity].
      intros i Hi. unfold numberOfCells in Hs. rewrite Hs. change (grid csf lo hi) with (rebuild rndExact il csf lo hi).
      apply in_app_or in Hi as [Hi|Hi].
      + destruct (onlyHalo _ _) in Hi; [|destruct Hi]. destruct Hi as [<-|[]]. apply threeToOneD_range, G0.
      + apply filter_In in Hi as (Hi & _). apply in_flat_map in Hi as (x & Hx & Hi). apply in_flat_map in Hi as (y & Hy & Hi). apply in_map_iff in Hi as (z & <- & Hz).
        apply in_zrange in Hx, Hy, Hz. apply threeToOneD_range. destruct G1 as (? & ? & ?), G2 as (? & ? & ?). unfold inGrid. cbn [ix iy iz]. lia.
  Qed.

  Lemma region_total csf lo hi margin v : validGrid il csf lo hi -> atLeast skin lo hi -> (0 <= margin <= il)%R -> In v (volumes lo hi) ->
    regionDefined (rebuild rndExact il csf lo hi) margin v.
  Proof.
    destruct (spt_bounds cutoff spt freq Hopt) as (_ & S1 & S2 & _). fold il skin in S1, S2.
    intros V HS M Hv. unfold HandlerModel.volumes in Hv. apply in_map_iff in Hv as ((l, h) & <- & Hw).
    destruct (volume_bounds cutoff spt freq Hopt lo hi (l, h) HS Hw) as (D1 & D2 & D3 & D4 & D5 & D6). cbn [fst snd] in *. fold il in D1, D2, D3, D4, D5, D6.
    pose proof V as (G1 & G2 & (B1 & B2 & B3) & _).
    assert (Q : forall a c e, (a <= e -> c <= e -> c <= Rmax a c <= e)%R) by (intros; split; [apply Rmax_r|now apply Rmax_lub]).
    assert (Q' : forall a c e, (e <= a -> e <= c -> e <= Rmin a c <= c)%R) by (intros; split; [now apply Rmin_glb|apply Rmin_r]).
    assert (Elo : (rx lo - il <= rx (clampLow il lo l) <= rx hi + il /\ ry lo - il <= ry (clampLow il lo l) <= ry hi + il /\ rz lo - il <= rz (clampLow il lo l) <= rz hi + il)%R).
    { unfold clampLow. cbn [rx ry rz]. split; [|split]; apply Q; lra. }
    assert (Ehi : (rx lo - il <= rx (clampHigh il hi h) <= rx hi + il /\ ry lo - il <= ry (clampHigh il hi h) <= ry hi + il /\ rz lo - il <= rz (clampHigh il hi h) <= rz hi + il)%R).
    { unfold clampHigh. cbn [rx ry rz]. split; [|split]; apply Q'; lra. }
    unfold regionDefined, lcRegionConf, clampVolume. cbn [fst snd]. change (HandlerModel.il cutoff spt freq) with il.
    destruct (index3_defined il csf lo hi V (shift (clampLow il lo l) (- margin))) as (k1 & E1 & _); [unfold shift; cbn [rx ry rz]; lra..|].
    destruct (index3_defined il csf lo hi V (shift (clampHigh il hi h) margin)) as (k2 & E2 & _); [unfold shift; cbn [rx ry rz]; lra..|].
    unfold get1DIndexOfPosition. rewrite E1, E2. discriminate.
  Qed.

  Lemma contUpdate_total lo hi keep margin c : validBox cutoff spt freq lo hi -> validKind cutoff spt freq lo hi (kind c) -> placed lo hi c ->
    (keep = true -> (0 <= margin <= il)%R) ->
    (exists r, contUpdate cutoff spt freq keep margin lo hi c (Some r)) /\ ~ contUpdate cutoff spt freq keep margin lo hi c None.
  Proof.
    intros VB V (Hs & Hp) M. assert (HS : atLeast skin lo hi) by (apply (box_skin cutoff spt freq Hopt lo hi VB)).
    unfold contUpdate. destruct (kind c) as [|csf].
    - destruct keep.
      + split.
        * destruct (collectRun lo hi (regionVisits (volumes lo hi) dsRegionCells (ccells c)) (ccells c)) as (cs, out) eqn:E.
          eexists. exists (regionVisits (volumes lo hi) dsRegionCells (ccells c)). split; [reflexivity|]. rewrite E. reflexivity.
        * intros (v & _ & E). destruct (collectRun _ _ _ _) in E. discriminate.
      + assert (L : length (ccells c) = 7%nat) by (unfold size, numberOfCells in Hs; lia).
        destruct (ds_update lo hi (ccells c) L) as (o & out & E & _).
        { intros i l x Hl Hx. apply (Hp i x). rewrite (nth_error_nth _ _ [] Hl). exact Hx. }
        rewrite E. split; [eexists; reflexivity|discriminate].
    - change (grid csf lo hi) with (rebuild rndExact il csf lo hi). destruct keep.
      + assert (F : Forall (regionDefined (rebuild rndExact il csf lo hi) margin) (volumes lo hi)) by (apply Forall_forall; intros v Hv; apply region_total; auto).
        split.
        * destruct (collectRun lo hi (regionVisits (volumes lo hi) (lcRegionCells rndExact (rebuild rndExact il csf lo hi) margin) (ccells c)) (ccells c)) as (cs, out) eqn:E.
          eexists. left. split; [exact F|]. exists (regionVisits (volumes lo hi) (lcRegionCells rndExact (rebuild rndExact il csf lo hi) margin) (ccells c)). split; [reflexivity|]. rewrite E. reflexivity.
        * intros [(_ & v & _ & E)|(N & _)]; [|exact (N F)]. destruct (collectRun _ _ _ _) in E. discriminate.
      + assert (Pl : placedCells (rebuild rndExact il csf lo hi) (ccells c)) by (split; [exact Hs|exact Hp]).
        destruct (lc_update_exact il csf lo hi V (ccells c) Pl) as (cells1 & inv & E & F). rewrite E. split.
        * destruct (F inv (Permutation_refl _)) as (cs & out & E' & _). eexists. exists inv. split; [reflexivity|]. rewrite E'. reflexivity.
        * intros (o & Ho & E'). destruct (F o Ho) as (cs & out & E2 & _). rewrite E2 in E'. discriminate.
  Qed.

  Lemma bufferInsert_total lo hi : forall l c, validKind cutoff spt freq lo hi (kind c) -> placed lo hi c ->
    exists r, bufferInsert cutoff spt freq lo hi c l = Some r.
  Proof.
    induction l as [|p l IH]; intros c V P; cbn [bufferInsert]; [eexists; reflexivity|]. destruct (isDummy p); [apply IH; assumption|].
    destruct (inBoxb lo hi (ppos p)) eqn:B.
    - apply inBoxb_iff in B. destruct (addOwned_total lo hi c (withOwn stOwned p) V P eq_refl B) as (c' & E). rewrite E.
      destruct (addOwned_inv cutoff spt freq lo hi c (withOwn stOwned p) c' E eq_refl) as (K & i & E1 & Pl & _).
      apply IH; [rewrite K; exact V|]. apply (placed_push cutoff spt freq lo hi c i (withOwn stOwned p) c' P K E1 Pl).
    - destruct (IH c V P) as ((c', o) & ->). eexists; reflexivity.
  Qed.

  Lemma copy_total lo hi : forall l c, validKind cutoff spt freq lo hi (kind c) -> placed lo hi c ->
    (forall p, In p l -> (pown p = 1 /\ inBox lo hi (ppos p)) \/ (pown p = 2 /\ ~ inBox lo hi (ppos p) /\ inGrownBox il lo hi (ppos p))) ->
    exists c', copyInto cutoff spt freq lo hi c l = Some c'.
  Proof.
    induction l as [|p l IH]; intros c V P H; cbn [copyInto]; [eexists; reflexivity|].
    destruct (H p (or_introl eq_refl)) as [(O & B)|(O & N & B)].
    - assert (Oo : isOwned p = true) by (apply owned_iff, O). rewrite Oo. assert (Bb : inBoxb lo hi (ppos p) = true) by (apply inBoxb_iff, B). rewrite Bb.
      destruct (addOwned_total lo hi c p V P O B) as (c' & E). rewrite E.
      destruct (addOwned_inv cutoff spt freq lo hi c p c' E O) as (K & i & E1 & Pl & _).
      apply IH; [rewrite K; exact V|apply (placed_push cutoff spt freq lo hi c i p c' P K E1 Pl)|intros q Hq; apply H; right; exact Hq].
    - assert (Oo : isOwned p = false) by (unfold isOwned; rewrite O; reflexivity). rewrite Oo.
      assert (Bb : inBoxb lo hi (ppos p) = false) by (apply not_true_iff_false; intros Y; apply inBoxb_iff in Y; exact (N Y)). rewrite Bb.
      destruct (addHalo_total lo hi c p V P O N B) as (c' & E). rewrite E.
      destruct (addHalo_inv cutoff spt freq lo hi c p c' E O N) as (K & i & E1 & Pl & _).
      apply IH; [rewrite K; exact V|apply (placed_push cutoff spt freq lo hi c i p c' P K E1 Pl)|intros q Hq; apply H; right; exact Hq].
  Qed.

  (** Halo particles in the container are outside the box, but in the halo region. *)
  Definition Hal (s : State) : Prop := forall p, In p (concat (ccells (cont s))) -> pown p = 2 ->
    ~ inBox (boxLo s) (boxHi s) (ppos p) /\ inGrownBox il (boxLo s) (boxHi s) (ppos p).

  Lemma Hal_step n m s e s' out : Ex n m s -> Hal s -> validCall cutoff spt freq s e -> properCall cutoff spt freq s e ->
    step cutoff spt freq s e (Some (s', out)) -> Hal s'.
  Proof.
    intros E Hh V Pr H. pose proof (ex_inv _ _ _ n m s E) as I.
    assert (Sub : forall s1, boxLo s1 = boxLo s -> boxHi s1 = boxHi s ->
      (forall k p, In p (nth k (ccells (cont s1)) []) -> pown p = 2 -> In p (concat (ccells (cont s))) \/ (~ inBox (boxLo s) (boxHi s) (ppos p) /\ inGrownBox il (boxLo s) (boxHi s) (ppos p))) -> Hal s1).
    { intros s1 B1 B2 X p Hp O. rewrite B1, B2. apply in_cells in Hp as (k & Hk). destruct (X k p Hk O) as [Y|Y]; [exact (Hh p Y O)|exact Y]. }
    assert (InC : forall k p, In p (nth k (ccells (cont s)) []) -> In p (concat (ccells (cont s)))) by (intros k p Hp; apply in_cells; exists k; exact Hp).
    destruct e; cbn [step validCall properCall] in *.
    - destruct (doAdd _ _ _ _ _ _) as [s1|] eqn:F in H; [|discriminate]. injection H as -> ->.
      unfold doAdd in F. destruct (inBoxb _ _ _) eqn:B in F; cbn [negb] in F; [|discriminate]. destruct (valid s) eqn:Vs.
      + destruct (pushAt _ _ _) as [b|] eqn:P in F; [|discriminate]. injection F as <-. apply Sub; auto. cbn. intros k p' Hp O. left. exact (InC k p' Hp).
      + destruct (addOwned _ _ _ _ _ _ _) as [c|] eqn:P in F; [|discriminate]. injection F as <-. destruct (addOwned_inv cutoff spt freq _ _ _ _ _ P eq_refl) as (K & i & P1 & _ & C).
        apply Sub; auto. cbn. intros k q Hq O. destruct (pushAt_inv P1) as (_ & _ & X). apply X in Hq as [Hq|(-> & ->)]; [left; exact (InC k q Hq)|discriminate].
    - destruct (doAddHalo _ _ _ _ _ _) as [s1|] eqn:F in H; [|discriminate]. injection H as -> ->. destruct Pr as (N & G & _).
      unfold doAddHalo in F. destruct (inBoxb _ _ _) eqn:B in F; [discriminate|]. destruct (valid s) eqn:Vs.
      + destruct (updateHaloC _ _ _ _ _ _ _) as [(c, [|])|] eqn:P in F; [| |discriminate].
        * injection F as <-. destruct (updateHalo_inv cutoff spt freq _ _ _ _ _ _ P eq_refl (inv_placed _ _ _ s I)) as (K & [(C & _)|(_ & i & q & r & Q1 & Q2 & Q3 & Q4 & Q5 & P1 & P2 & X)]); [discriminate|].
          apply Sub; auto. cbn. intros k x Hx O. destruct (X k x Hx) as [Y|(-> & ->)]; [left; exact (InC k x Y)|right; exact (conj N G)].
        * destruct (pushAt _ _ _) as [b|] eqn:P1 in F; [|discriminate]. injection F as <-. apply Sub; auto. cbn. intros k x Hx O. left. exact (InC k x Hx).
      + destruct (addHaloC _ _ _ _ _ _ _) as [c|] eqn:P in F; [|discriminate]. injection F as <-.
        destruct (addHalo_inv cutoff spt freq _ _ _ _ _ P eq_refl N) as (K & i & P1 & _).
        apply Sub; auto. cbn. intros k q Hq O. destruct (pushAt_inv P1) as (_ & _ & X). apply X in Hq as [Hq|(-> & ->)]; [left; exact (InC k q Hq)|right; exact (conj N G)].
    - destruct H as (H1 & H2 & H3). injection H3 as -> ->. unfold particleAt in H1.
      assert (W : forall s1, s1 = (if isOwned p then withCounts s (nOwned s - 1) (nHalo s) else withCounts s (nOwned s) (nHalo s - 1)) ->
        boxLo s1 = boxLo s /\ boxHi s1 = boxHi s /\ cont s1 = cont s) by (intros s1 ->; destruct (isOwned p); auto).
      unfold doDelete. set (s1 := if isOwned p then _ else _) in *. destruct (W s1 eq_refl) as (W1 & W2 & W3). clearbody s1.
      destruct at_ as [c j|b j|b j]; cbn in H1; apply Sub; auto; cbn; rewrite W3; intros k q Hq O; left; apply (InC k); [apply (del_perm _ _ _ _ H1) in Hq|..]; exact Hq.
    - injection H as -> ->. apply Sub; auto. cbn. intros k q Hq O. exfalso.
      assert (X : In q (concat (map (fun _ : list Particle => [] : list Particle) (ccells (cont s))))) by (apply in_cells; exists k; exact Hq). rewrite concat_nil in X. destruct X.
    - injection H as -> ->. apply Sub; auto. cbn. intros k q Hq O. apply moved_in in Hq as (p & Hp & ->). rewrite moved_own in O. left.
      assert (Em : moved f p = p) by (unfold moved; rewrite (Pr p O); destruct (isDummy p), p; reflexivity). rewrite Em. exact (InC k p Hp).
    - unfold doUpdate in H. destruct (collectBuffers _ _ _ _ _ _ _ _) as [[[c1 bs] out1]|] eqn:C in H; [|discriminate].
      destruct (collectBuffers_inv cutoff spt freq _ s c1 bs out1 I C) as (K1 & P1 & B1 & _ & O1 & Q1 & X1 & _ & Ci).
      destruct H as (r & U & Hr). destruct r as [(c2, out2)|]; [|discriminate]. injection Hr as -> ->.
      destruct (contUpdate_inv cutoff spt freq (boxLo s) (boxHi s) _ _ c1 c2 out2 P1 ltac:(rewrite K1; apply (inv_kind _ _ _ s I)) U) as (K2 & P2 & Q2 & O2 & _ & Kh & _).
      apply Sub; auto. cbn [cont]. intros k p Hp O. destruct (Kh k p Hp O) as (_ & Y & _). left. destruct (X1 k p Y) as [Z|(Z & _)]; [exact (InC k p Z)|].
      apply (inv_bufs _ _ _ s I) in Z. congruence.
    - destruct (doCompute _ _ _ _ _ _) as [s1|] eqn:F in H; [|discriminate]. injection H as -> ->.
      unfold doCompute in F. destruct (select cutoff spt freq s selected) as [s2|] eqn:Se; [|discriminate].
      destruct (select_inv cutoff spt freq selected s s2 Se I V) as (J & A1 & A2 & A3 & A4 & A5 & A6 & A7 & A8 & A9 & QO & QH & C).
      assert (G : cont s1 = cont s2 /\ boxLo s1 = boxLo s2 /\ boxHi s1 = boxHi s2).
      { destruct pairwise; [|injection F as <-; auto].
        destruct (balanceVectors 1 (bufs s2)); [|discriminate]. destruct (balanceVectors 1 (halos s2)); [|discriminate]. injection F as <-. auto. }
      destruct G as (G1 & G2 & G3). apply Sub; [congruence|congruence|]. rewrite G1. intros k p Hp O. left. destruct C as [(C1 & _)|(_ & _ & _ & C4)].
      + rewrite C1 in Hp. exact (InC k p Hp).
      + apply (C4 k p Hp).
    - destruct V as (V1 & V2).
      destruct (resize_inv cutoff spt freq s lo hi s' out I V1 V2 (eq_sym H)) as [(-> & _)|(E1 & E2 & K & P & Cs & Bf & Hl & Va & St & Ca & C & _ & O & _ & Q & X)]; [exact Hh|].
      intros p Hp O'. apply in_cells in Hp as (k & Hk). destruct (X k p Hk) as (Y & _). congruence.
  Qed.

  Lemma select_total : forall ks s, Inv s -> Forall (validKind cutoff spt freq (boxLo s) (boxHi s)) ks ->
    (forall p, In p (concat (ccells (cont s))) -> pown p <> 0 -> (pown p = 1 /\ inBox (boxLo s) (boxHi s) (ppos p)) \/
       (pown p = 2 /\ ~ inBox (boxLo s) (boxHi s) (ppos p) /\ inGrownBox il (boxLo s) (boxHi s) (ppos p))) ->
    exists s', select cutoff spt freq s ks = Some s'.
  Proof.
    induction ks as [|k ks IH]; intros s I V H; cbn [select]; [eexists; reflexivity|].
    inversion V as [|? ? V1 V2]; subst. destruct (sameKind (kind (cont s)) k) eqn:Sk; [apply IH; assumption|].
    assert (D : forall p, In p (filter (fun p => negb (isDummy p)) (concat (ccells (cont s)))) -> In p (concat (ccells (cont s))) /\ pown p <> 0).
    { intros p Hp. apply filter_In in Hp as (Hp & D). split; [exact Hp|]. unfold isDummy, stDummy in D. apply negb_true_iff, Z.eqb_neq in D. exact D. }
    destruct (copy_total (boxLo s) (boxHi s) (filter (fun p => negb (isDummy p)) (concat (ccells (cont s)))) (mkCont k (emptyCells cutoff spt freq k (boxLo s) (boxHi s)))) as (c & E).
    { exact V1. } { apply empty_placed. exact V1. } { intros p Hp. destruct (D p Hp). apply H; assumption. }
    unfold generate. rewrite E. set (s1 := mkState (boxLo s) (boxHi s) c 0 (bufs s) (halos s) (valid s) (steps s) (calls s) (nOwned s) (nHalo s)).
    assert (S1 : select cutoff spt freq s [k] = Some s1) by (cbn [select]; rewrite Sk; unfold generate; rewrite E; reflexivity).
    destruct (select_inv cutoff spt freq [k] s s1 S1 I (Forall_cons _ V1 (Forall_nil _))) as (J & A1 & A2 & _ & _ & _ & _ & _ & _ & _ & _ & _ & C).
      apply IH; [exact J|exact V2|]. cbn [boxLo boxHi s1]. intros p Hp O. apply H; [|exact O]. destruct C as [(C1 & _)|(_ & _ & _ & C4)].
      + rewrite C1 in Hp. exact Hp.
      + apply in_cells in Hp as (i & Hi). apply (C4 i p Hi).
  Qed.

  Lemma total_step n m s e : Ex n m s -> Hal s -> validCall cutoff spt freq s e -> properCall cutoff spt freq s e -> disciplined spt m [e] ->
    (exists r, step cutoff spt freq s e (Some r)) /\ ~ step cutoff spt freq s e None.
  Proof.
    intros E Hh V Pr D. pose proof (ex_inv _ _ _ n m s E) as I. destruct (spt_bounds cutoff spt freq Hopt) as (T1 & T2 & T3 & T4). fold il skin in T2, T3, T4.
    assert (Fn : forall o : option State, (exists x, o = Some x) -> (exists r, Some r = quiet o) /\ ~ None = quiet o) by (intros o (x & ->); split; [eexists; reflexivity|discriminate]).
    destruct e; cbn [step validCall properCall disciplined] in *.
    - apply Fn. destruct Pr as (B & T). unfold doAdd. assert (Bb : inBoxb (boxLo s) (boxHi s) (ppos p) = true) by (apply inBoxb_iff, B). rewrite Bb. cbn [negb].
      destruct (valid s).
      + destruct (pushAt_total (bufs s) thread (withOwn stOwned p) T) as (b & ->). eexists; reflexivity.
      + destruct (addOwned_total (boxLo s) (boxHi s) (cont s) (withOwn stOwned p) (inv_kind _ _ _ s I) (inv_placed _ _ _ s I) eq_refl B) as (c & ->). eexists; reflexivity.
    - apply Fn. destruct Pr as (N & B & T). unfold doAddHalo. assert (Bb : inBoxb (boxLo s) (boxHi s) (ppos p) = false) by (apply not_true_iff_false; intros Y; apply inBoxb_iff in Y; exact (N Y)). rewrite Bb.
      destruct (valid s).
      + destruct (updateHalo_total (boxLo s) (boxHi s) (cont s) (withOwn stHalo p) (inv_kind _ _ _ s I) (inv_placed _ _ _ s I) B) as ((c & [|]) & ->); [eexists; reflexivity|].
        destruct (pushAt_total (halos s) thread (withOwn stHalo p) T) as (b & ->). eexists; reflexivity.
      + destruct (addHalo_total (boxLo s) (boxHi s) (cont s) (withOwn stHalo p) (inv_kind _ _ _ s I) (inv_placed _ _ _ s I) eq_refl N B) as (c & ->). eexists; reflexivity.
    - destruct Pr as (P1 & P2). assert (Dm : isDummy p = false) by (unfold isDummy, stDummy; apply Z.eqb_neq, P2).
      split; [eexists; repeat split; assumption|]. intros (_ & _ & H). discriminate.
    - split; [eexists; reflexivity|discriminate].
    - split; [eexists; reflexivity|discriminate].
    - unfold doUpdate. set (v := listsValid freq s tunerRebuilds).
      assert (Cb : exists r, collectBuffers cutoff spt freq (negb v) (boxLo s) (boxHi s) (cont s) (bufs s) = Some r).
      { unfold collectBuffers. destruct (negb v).
        - destruct (bufferInsert_total (boxLo s) (boxHi s) (concat (bufs s)) (cont s) (inv_kind _ _ _ s I) (inv_placed _ _ _ s I)) as ((c & o) & ->). eexists; reflexivity.
        - destruct (buffersSweep_spec (boxLo s) (boxHi s) (bufs s) (inv_bufs _ _ _ s I)) as (bs & o & -> & _). eexists; reflexivity. }
      destruct Cb as (((c1 & bs) & out1) & C). rewrite C.
      destruct (collectBuffers_inv cutoff spt freq _ s c1 bs out1 I C) as (K1 & P1 & _).
      set (cst := if 0 <? calls s then newSteps s v else contSteps s).
      destruct (contUpdate_total (boxLo s) (boxHi s) v (spt * IZR cst) c1) as (((c2 & o2) & U) & N).
      { apply (inv_box _ _ _ s I). } { rewrite K1. apply (inv_kind _ _ _ s I). } { exact P1. }
      { intros Ev. destruct (ex_steps _ _ _ n m s E) as (S1 & S2). destruct (ex_calls _ _ _ n m s E) as (Ec & Hn).
        assert (Hv : valid s = true /\ steps s < freq). { unfold v, listsValid in Ev. destruct ((freq <=? steps s) || tunerRebuilds) eqn:Y; [discriminate|]. apply orb_false_elim in Y as (Y & _). split; [exact Ev|lia]. }
        assert (B : 0 <= cst <= freq). { unfold cst, newSteps. rewrite Ev. destruct (0 <? calls s); lia. }
        split; [apply Rmult_le_pos; [exact T1|apply IZR_le; lia]|]. apply Rle_trans with skin; [|lra]. unfold skin, HandlerModel.skin. apply Rmult_le_compat_l; [exact T1|]. apply IZR_le. lia. }
      split.
      + eexists. exists (Some (c2, o2)). split; [exact U|reflexivity].
      + intros (r & U' & H). destruct r as [(c & o)|]; [discriminate|exact (N U')].
    - apply Fn. destruct D as (-> & _). unfold doCompute.
      destruct (select_total selected s I V) as (s2 & ->).
      { intros p Hp O. apply in_cells in Hp as (k & Hk). destruct (proj2 (inv_placed _ _ _ s I) k p Hk) as ([Y|[Y|Y]] & _); [contradiction| |].
        - left. split; [exact Y|]. destruct (ex_near _ _ _ n false s E k p Hk Y) as (x0 & x1 & _ & _ & _ & A4 & A5). subst x1. exact A4.
        - right. split; [exact Y|]. apply Hh; [apply in_cells; exists k; exact Hk|exact Y]. }
      destruct pairwise; [|eexists; reflexivity].
      destruct (balance_correct (bufs s2) 1 (le_n 1)) as (b & -> & _). destruct (balance_correct (halos s2) 1 (le_n 1)) as (h & -> & _). eexists; reflexivity.
    - destruct V as (V1 & V2).
      assert (G : exists r, doResize cutoff spt freq s lo hi = Some r).
      { unfold doResize. destruct (_ && _); [eexists; reflexivity|].
        assert (Bl : below lo hi). { pose proof V1 as (W1 & W2 & W3). change (cutoff + spt * IZR freq)%R with il in W1, W2, W3. unfold below. lra. }
        destruct Bl as (W1 & W2 & W3).
        destruct (Rlt_dec (rx lo) (rx hi)); [|contradiction]. destruct (Rlt_dec (ry lo) (ry hi)); [|contradiction]. destruct (Rlt_dec (rz lo) (rz hi)); [|contradiction]. cbn [negb].
        assert (St : forall p, In p (concat (ccells (cont s))) -> pown p = 0 \/ pown p = 1).
        { intros p Hp. apply in_cells in Hp as (k & Hk). destruct (proj2 (inv_placed _ _ _ s I) k p Hk) as ([Y|[Y|Y]] & _); [auto|auto|exfalso].
          assert (X : In p (haloParticles s)). { apply filter_In. split; [apply in_or_app; left; apply in_cells; exists k; exact Hk|]. rewrite Y. reflexivity. } rewrite Pr in X. destruct X. }
        destruct (existsb _ _) eqn:X.
        { exfalso. apply existsb_exists in X as (p & Hp & O). apply filter_In in Hp as (Hp & Dm). unfold isDummy, stDummy, isOwned, stOwned in *. destruct (St p Hp) as [Y|Y]; rewrite Y in *; discriminate. }
        set (old := map _ (ccells (cont s))).
        destruct (copy_total lo hi (filter (fun p => negb (isDummy p)) (concat old)) (mkCont (kind (cont s)) (emptyCells cutoff spt freq (kind (cont s)) lo hi))) as (c & Ec).
        { exact V2. } { apply empty_placed. exact V2. }
        { intros q Hq. left. apply filter_In in Hq as (Hq & Dm). unfold old in Hq. rewrite <- concat_map in Hq. apply in_map_iff in Hq as (p & <- & Hp).
          destruct (isOwned p && negb (inBoxb lo hi (ppos p))) eqn:Y; [discriminate|].
          destruct (St p Hp) as [Z|Z]; [unfold isDummy, stDummy in Dm; rewrite Z in Dm; discriminate|]. split; [exact Z|].
          unfold isOwned, stOwned in Y. rewrite Z in Y. cbn in Y. apply negb_false_iff in Y. apply inBoxb_iff, Y. }
        unfold generate. rewrite Ec. eexists; reflexivity. }
      destruct G as (r & ->). split; [eexists; reflexivity|discriminate].
  Qed.

  Lemma proper_history s h s' : properHistory cutoff spt freq s h s' -> history cutoff spt freq s h s'.
  Proof. induction 1; econstructor; eauto. Qed.

  Lemma Hal_history s h s' : properHistory cutoff spt freq s h s' -> forall n m, Ex n m s -> Hal s -> disciplined spt m (map fst h) ->
    n + computations (map fst h) < 2 ^ 32 -> Hal s'.
  Proof.
    induction 1 as [s|s e out s1 h s2 V P S H IH]; intros n m E Hh D B; [exact Hh|]. cbn [map fst] in *.
    apply disciplined_cons in D as (D1 & D2). rewrite computations_cons in B. assert (Q := computations_pos (map fst h)).
    destruct (Ex_step cutoff spt freq Hopt n m s e s1 out E V D1 ltac:(lia) S) as (E1 & _).
    apply (IH _ _ E1); [apply (Hal_step n m s e s1 out E Hh V P S)|exact D2|lia].
  Qed.

  Theorem no_failure s h s1 e : validStart cutoff spt freq s -> properHistory cutoff spt freq s h s1 ->
    disciplined spt false (map fst h ++ [e]) -> computations (map fst h ++ [e]) < 2 ^ 32 ->
    validCall cutoff spt freq s1 e -> properCall cutoff spt freq s1 e ->
    (exists r, step cutoff spt freq s1 e (Some r)) /\ ~ step cutoff spt freq s1 e None.
  Proof.
    intros Vs H D B V P. destruct (Ex_history cutoff spt freq Hopt s h s1 (proper_history s h s1 H) 0 false (Ex_initial cutoff spt freq s Vs) [e] D) as (E & De); [lia|].
    assert (D0 : disciplined spt false (map fst h)).
    { clear - D. revert D. generalize false. induction (map fst h) as [|x r IH]; intros m D; [exact Logic.I|]. cbn [app] in D. apply disciplined_cons in D as (D1 & D2).
      apply disciplined_cons. split; [exact D1|]. apply IH, D2. }
    rewrite computations_app in B. assert (Q := computations_pos [e]).
    apply (total_step _ _ s1 e E); auto. apply (Hal_history s h s1 H 0 false (Ex_initial cutoff spt freq s Vs)); [|exact D0|lia].
    destruct Vs as (k & lo & hi & t & _ & _ & ->). intros p Hp O. exfalso. apply in_cells in Hp as (i & Hi). cbn in Hi. unfold emptyCells in Hi. destruct k; rewrite nth_repeat in Hi; destruct Hi.
  Qed.
End Total.
