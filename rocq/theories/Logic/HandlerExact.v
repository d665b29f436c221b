(** Histories that follow the protocol: exactly the particles outside the box are
    returned, and no call fails. *)
From Coq Require Import Reals Lra.
From Verif.Base Require Import ZRange Lists Occ.
From Verif.Grid Require Import IndexModel IndexSpec IndexProofs CellBlockModel CellBlockSpec CellBlockProofs CellBlockExact.
From Verif.Functor Require Import SortModel.
From Verif.Container Require Import LinkedCellsModel LinkedCellsSpec LinkedCellsGeo IteratorModel IteratorContainers IteratorSpec IteratorLemmas IteratorInstances IteratorRegion
  ParticleModel CollectModel CollectSpec CollectProofs CollectRun CollectContainers CollectTheorems UpdateModel UpdateProofs.
From Verif.Logic Require Import BalanceModel BalanceProofs HandlerModel HandlerSpec HandlerCont HandlerUpdate HandlerProofs.
Import ListNotations.
Local Open Scope Z_scope.

Section Exact.
  Variables (cutoff spt : R) (freq : Z).
  Hypothesis Hopt : validOptions cutoff spt freq.
  Let il := il cutoff spt freq.
  Let skin := skin spt freq.
  Notation grid := (grid cutoff spt freq).
  Notation placed := (placed cutoff spt freq).
  Notation cellFor := (cellFor cutoff spt freq).
  Notation volumes := (volumes cutoff spt freq).
  Notation Inv := (Inv cutoff spt freq).

  Lemma within_refl d x : (0 <= d)%R -> within d x x.
  Proof. intros H. unfold within. unfold Rminus. rewrite !Rplus_opp_r, Rabs_R0. auto. Qed.
  Lemma within_trans d e x y z : within d x y -> within e y z -> within (d + e) x z.
  Proof.
    intros (A1 & A2 & A3) (B1 & B2 & B3). unfold within.
    assert (T : forall a b c, (Rabs (b - a) <= d -> Rabs (c - b) <= e -> Rabs (c - a) <= d + e)%R).
    { intros a b c H1 H2. replace (c - a)%R with ((b - a) + (c - b))%R by ring. eapply Rle_trans; [apply Rabs_triang|]. lra. }
    split; [|split]; eapply T; eassumption.
  Qed.
  Lemma within_le d e x y : (d <= e)%R -> within d x y -> within e x y.
  Proof. intros H (A & B & C). unfold within. lra. Qed.

  (** Which of the cells a region iterator looks at. *)
  Definition regionCells (k : Kind) (lo hi : R3) (margin : R) : R3 * R3 -> list nat :=
    match k with KDirectSum => dsRegionCells | KLinkedCells csf => lcRegionCells rndExact (grid csf lo hi) margin end.

  Lemma spt_bounds : (0 <= spt)%R /\ (0 < il)%R /\ (0 <= skin <= il)%R /\ (spt <= skin)%R.
  Proof. destruct (lengths cutoff spt freq Hopt) as (A & B & C). destruct Hopt as (_ & D & _). auto. Qed.

  Lemma volume_bounds lo hi v : atLeast skin lo hi -> In v (haloVolumes rndExact il skin lo hi) ->
    (rx (fst v) <= rx hi + il /\ ry (fst v) <= ry hi + il /\ rz (fst v) <= rz hi + il /\
     rx lo - il <= rx (snd v) /\ ry lo - il <= ry (snd v) /\ rz lo - il <= rz (snd v))%R.
  Proof.
    destruct spt_bounds as (_ & S1 & S2 & _). clearbody il skin. intros (N1 & N2 & N3) Hw. unfold haloVolumes in Hw. cbv zeta in Hw. cbn [In] in Hw.
    unfold lowerHaloCorner, upperHaloCorner, lowerInnerCorner, upperInnerCorner, maxMisplacement, rndExact in Hw. cbv zeta in Hw. cbn [rx ry rz] in Hw.
    destruct Hw as [<-|[<-|[<-|[<-|[<-|[<-|[]]]]]]]; cbn [fst snd rx ry rz]; lra.
  Qed.

  (** An owned particle outside the box, close enough to its cell and to the box, is found. *)
  Lemma leaving_reached lo hi c k p x0 margin : validBox cutoff spt freq lo hi -> validKind cutoff spt freq lo hi (kind c) -> placed lo hi c ->
    In p (nth k (ccells c) []) -> pown p = 1 \/ pown p = 2 ->
    inGrownBox il lo hi (ppos p) -> ~ inGrownBox (- (skin / 2)) lo hi (ppos p) ->
    (0 <= margin <= il)%R -> inGrownBox il lo hi x0 -> cellFor lo hi (kind c) k x0 -> within margin x0 (ppos p) ->
    reached (volumes lo hi) (regionCells (kind c) lo hi margin) k p = true.
  Proof.
    intros VB VK (Hsz & Hpl) Hp Vp G N M X0 C W. destruct spt_bounds as (_ & S1 & S2 & _).
    assert (HS : atLeast skin lo hi) by (apply (box_skin cutoff spt freq Hopt lo hi VB)).
    assert (O : existsb (fun v => inBoxb (fst v) (snd v) (ppos p)) (vols il skin lo hi) = true).
    { rewrite (in_vols il skin lo hi); [|lra|lra|exact HS]. unfold outsideShell. rewrite andb_true_iff, negb_true_iff. split; [apply inBoxb_iff, G|].
      apply not_true_iff_false. intros Y. apply inBoxb_iff in Y. exact (N Y). }
    apply existsb_exists in O as (v & Hv & B). unfold reached. apply existsb_exists. exists v. split; [exact Hv|]. rewrite B, andb_true_r.
    apply existsb_exists. exists k. split; [|apply Nat.eqb_refl].
    assert (A := Hpl k p Hp). unfold regionCells. destruct (kind c) as [|csf] eqn:K; [|].
    - apply in_seq. assert (L := nth_In_lt _ _ _ Hp). rewrite ?K in Hsz. unfold size, numberOfCells in Hsz. lia.
    - unfold vols in Hv. apply in_map_iff in Hv as ((l, h) & <- & Hw). rewrite <- (Nat2Z.id k).
      destruct (volume_bounds lo hi (l, h) HS Hw) as (D1 & D2 & D3 & D4 & D5 & D6). cbn [fst snd] in *.
      assert (VG : validGrid il csf lo hi) by exact VK.
      apply (lc_region_cell il csf margin lo hi VG M (fun _ => x0) l h (Z.of_nat k) p); try assumption.
      + destruct VG as (G1 & G2 & (B1 & B2 & B3) & L1 & L2 & L3 & _).
        destruct (exact_halo_dim il csf _ _ G1 G2 B1 L1) as (X1 & X2 & _). destruct (exact_halo_dim il csf _ _ G1 G2 B2 L2) as (Y1 & Y2 & _).
        destruct (exact_halo_dim il csf _ _ G1 G2 B3 L3) as (Z1 & Z2 & _).
        unfold inGrownBox, inBox, growLow, growHigh in X0. cbn [rx ry rz] in X0. unfold inBox, getHaloBoxMin, getHaloBoxMax, rebuild. cbn [rx ry rz bX bY bZ]. lra.
      + destruct A as (_ & A1 & A2). unfold lcRelevant. destruct Vp as [Vp|Vp].
        * apply orb_true_iff. left. apply andb_true_iff. split; [reflexivity|exact (A1 Vp)].
        * apply orb_true_iff. right. apply andb_true_iff. split; [reflexivity|exact (A2 Vp)].
  Qed.

  Lemma box_grown d lo hi x : (0 <= d)%R -> inBox lo hi x -> inGrownBox d lo hi x.
  Proof. intros H. unfold inGrownBox, inBox, growLow, growHigh. cbn [rx ry rz]. lra. Qed.
  Lemma not_box_shrunk d lo hi x : (0 <= d)%R -> ~ inBox lo hi x -> ~ inGrownBox (- d) lo hi x.
  Proof. intros H N I. apply N. unfold inGrownBox, inBox, growLow, growHigh in *. cbn [rx ry rz] in *. lra. Qed.
  Lemma within_grown d lo hi x y : within d x y -> inBox lo hi x -> (0 <= d)%R -> inGrownBox (d + 1) lo hi y /\ (forall e, (d < e)%R -> inGrownBox e lo hi y).
  Proof.
    intros (A & B & C) I H. assert (T : forall a b, (Rabs (b - a) <= d -> a - d <= b <= a + d)%R) by (intros a b; unfold Rabs; destruct (Rcase_abs _); lra).
    apply T in A, B, C. unfold inGrownBox, inBox, growLow, growHigh in *. cbn [rx ry rz] in *. split; [lra|intros e He; lra].
  Qed.

  (** [n] computations so far, [m]: moved since the last update. *)
  Record Ex (n : Z) (m : bool) (s : State) : Prop := mkEx {
    ex_inv : Inv s;
    ex_near : forall k p, In p (nth k (ccells (cont s)) []) -> pown p = 1 ->
      exists x0 x1, inBox (boxLo s) (boxHi s) x0 /\ cellFor (boxLo s) (boxHi s) (kind (cont s)) k x0 /\ within (spt * IZR (contSteps s)) x0 x1 /\
        inBox (boxLo s) (boxHi s) x1 /\ (if m then within spt x1 (ppos p) else x1 = ppos p);
    ex_steps : 0 <= contSteps s <= steps s;
    ex_calls : calls s = n /\ 0 <= n;
    ex_valid : valid s = true -> 1 <= n }.

  Definition keeps (n : Z) (m : bool) (s : State) (e : Event) (s' : State) : Prop :=
    Ex (n + computations [e]) (movedSince m [e]) s' /\
    match e with Update _ => forall p, In p (ownedParticles s') -> inBox (boxLo s') (boxHi s') (ppos p) | _ => True end.

  Lemma near_self s (m : bool) k p : inBox (boxLo s) (boxHi s) (ppos p) -> cellFor (boxLo s) (boxHi s) (kind (cont s)) k (ppos p) -> 0 <= contSteps s ->
    exists x0 x1, inBox (boxLo s) (boxHi s) x0 /\ cellFor (boxLo s) (boxHi s) (kind (cont s)) k x0 /\ within (spt * IZR (contSteps s)) x0 x1 /\
        inBox (boxLo s) (boxHi s) x1 /\ (if m then within spt x1 (ppos p) else x1 = ppos p).
  Proof.
    intros B C S. destruct spt_bounds as (H & _). exists (ppos p), (ppos p). split; [exact B|]. split; [exact C|]. split; [|split; [exact B|]].
    - apply within_refl, Rmult_le_pos; [exact H|]. apply IZR_le in S. exact S.
    - destruct m; [apply within_refl, H|reflexivity].
  Qed.

  Lemma keeps_same n m s s' : Ex n m s -> Inv s' -> boxLo s' = boxLo s -> boxHi s' = boxHi s -> kind (cont s') = kind (cont s) -> contSteps s' = contSteps s ->
    steps s' = steps s -> calls s' = calls s -> (valid s' = true -> valid s = true) ->
    (forall k p, In p (nth k (ccells (cont s')) []) -> pown p = 1 -> In p (nth k (ccells (cont s)) []) \/
       (inBox (boxLo s) (boxHi s) (ppos p) /\ cellFor (boxLo s) (boxHi s) (kind (cont s)) k (ppos p))) -> Ex n m s'.
  Proof.
    intros E I B1 B2 K C S A V X. constructor.
    - exact I.
    - intros k p Hp O. destruct (X k p Hp O) as [Y|(Y1 & Y2)].
      + rewrite B1, B2, K, C. apply (ex_near n m s E k p Y O).
      + apply near_self; rewrite ?B1, ?B2, ?K, ?C; [exact Y1|exact Y2|apply (ex_steps n m s E)].
    - rewrite C, S. apply (ex_steps n m s E).
    - rewrite A. apply (ex_calls n m s E).
    - intros W. apply (ex_valid n m s E), V, W.
  Qed.

  Lemma Ex_step n m s e s' out : Ex n m s -> validCall cutoff spt freq s e -> disciplined spt m [e] -> n + computations [e] < 2 ^ 32 ->
    step cutoff spt freq s e (Some (s', out)) -> keeps n m s e s'.
  Proof.
    intros E V D Bd H. pose proof (ex_inv n m s E) as I. assert (I' := proj1 (step_good cutoff spt freq s e s' out I V H)).
    unfold keeps. destruct e; cbn [step validCall disciplined movedSince computations filter length Z.of_nat] in *; rewrite ?Z.add_0_r in *.
    - (* AddParticle *) split; [|trivial]. destruct (doAdd _ _ _ _ _ _) as [s1|] eqn:F in H; [|discriminate]. injection H as -> ->.
      unfold doAdd in F. destruct (inBoxb _ _ _) eqn:B in F; cbn [negb] in F; [|discriminate]. apply inBoxb_iff in B. destruct (valid s) eqn:Vs.
      + destruct (pushAt _ _ _) as [b|] eqn:P in F; [|discriminate]. injection F as <-. apply (keeps_same n m s); auto; cbn; intros; auto.
      + destruct (addOwned _ _ _ _ _ _ _) as [c|] eqn:P in F; [|discriminate]. injection F as <-. destruct (addOwned_inv cutoff spt freq _ _ _ _ _ P eq_refl) as (K & i & P1 & _ & C).
        apply (keeps_same n m s); auto; cbn; try congruence. intros k q Hq O. destruct (pushAt_inv P1) as (_ & _ & X). apply X in Hq as [Hq|(-> & ->)]; [left; exact Hq|right].
        split; [exact B|exact C].
    - (* AddHalo *) split; [|trivial]. destruct (doAddHalo _ _ _ _ _ _) as [s1|] eqn:F in H; [|discriminate]. injection H as -> ->.
      unfold doAddHalo in F. destruct (inBoxb _ _ _) eqn:B in F; [discriminate|]. destruct (valid s) eqn:Vs.
      + destruct (updateHaloC _ _ _ _ _ _ _) as [(c, [|])|] eqn:P in F; [| |discriminate].
        * injection F as <-. destruct (updateHalo_inv cutoff spt freq _ _ _ _ _ _ P eq_refl (inv_placed _ _ _ s I)) as (K & [(C & _)|(_ & i & q & r & Q1 & Q2 & Q3 & Q4 & Q5 & P1 & P2 & X)]); [discriminate|].
          apply (keeps_same n m s); auto; cbn; intros k x Hx O. destruct (X k x Hx) as [Y|(-> & ->)]; [left; exact Y|discriminate].
        * destruct (pushAt _ _ _) as [b|] eqn:P1 in F; [|discriminate]. injection F as <-. apply (keeps_same n m s); auto; cbn; intros; auto.
      + destruct (addHaloC _ _ _ _ _ _ _) as [c|] eqn:P in F; [|discriminate]. injection F as <-.
        assert (N : ~ inBox (boxLo s) (boxHi s) (ppos p)) by (intros Y; apply inBoxb_iff in Y; congruence).
        destruct (addHalo_inv cutoff spt freq _ _ _ _ _ P eq_refl N) as (K & i & P1 & _).
        apply (keeps_same n m s); auto; cbn; try congruence. intros k q Hq O. destruct (pushAt_inv P1) as (_ & _ & X). apply X in Hq as [Hq|(-> & ->)]; [left; exact Hq|discriminate].
    - (* Delete *) split; [|trivial]. destruct H as (H1 & H2 & H3). injection H3 as -> ->.
      assert (W : forall s1, s1 = (if isOwned p then withCounts s (nOwned s - 1) (nHalo s) else withCounts s (nOwned s) (nHalo s - 1)) ->
        boxLo s1 = boxLo s /\ boxHi s1 = boxHi s /\ cont s1 = cont s /\ contSteps s1 = contSteps s /\ steps s1 = steps s /\ calls s1 = calls s /\ valid s1 = valid s /\ bufs s1 = bufs s /\ halos s1 = halos s).
      { intros s1 ->. destruct (isOwned p); repeat split. }
      unfold doDelete in *. set (s1 := if isOwned p then _ else _) in *. destruct (W s1 eq_refl) as (W1 & W2 & W3 & W4 & W5 & W6 & W7 & W8 & W9). clearbody s1.
      unfold particleAt in H1. destruct at_ as [c j|b j|b j]; cbn in H1.
      + apply (keeps_same n m s); auto; cbn; try congruence. intros k q Hq O. left. rewrite W3 in Hq. apply (del_perm _ _ _ _ H1) in Hq. exact Hq.
      + apply (keeps_same n m s); auto; cbn; try congruence. intros k q Hq O. left. rewrite W3 in Hq. exact Hq.
      + apply (keeps_same n m s); auto; cbn; try congruence. intros k q Hq O. left. rewrite W3 in Hq. exact Hq.
    - (* DeleteAll *) split; [|trivial]. injection H as -> ->. apply (keeps_same n m s); auto; cbn; [discriminate|].
      intros k q Hq O. exfalso. assert (X : In q (concat (map (fun _ : list Particle => [] : list Particle) (ccells (cont s))))) by (apply in_cells; exists k; exact Hq). rewrite concat_nil in X. destruct X.
    - (* Move *) split; [|trivial]. injection H as -> ->. destruct D as (-> & D & _). constructor; auto.
      + cbn. intros k q Hq O. apply moved_in in Hq as (p & Hp & ->). rewrite moved_own in O.
        destruct (ex_near n false s E k p Hp O) as (x0 & x1 & A1 & A2 & A3 & A4 & A5). exists x0, x1. repeat (split; [assumption|]).
        subst x1. unfold moved, isDummy, stDummy. rewrite O. cbn. apply D.
      + apply (ex_steps n false s E).
      + apply (ex_calls n false s E).
      + apply (ex_valid n false s E).
    - (* Update *)
      unfold doUpdate in H. set (v := listsValid freq s tunerRebuilds) in *.
      destruct (collectBuffers _ _ _ _ _ _ _ _) as [[[c1 bs] out1]|] eqn:C in H; [|discriminate].
      destruct (collectBuffers_inv cutoff spt freq _ s c1 bs out1 I C) as (K1 & P1 & B1 & _ & O1 & Q1 & X1 & _ & Ci).
      destruct H as (r & U & Hr). destruct r as [(c2, out2)|]; [|discriminate]. injection Hr as -> ->.
      destruct (contUpdate_inv cutoff spt freq (boxLo s) (boxHi s) _ _ c1 c2 out2 P1 ltac:(rewrite K1; apply (inv_kind _ _ _ s I)) U) as (K2 & P2 & Q2 & O2 & Kp & _).
      destruct (ex_calls n m s E) as (Ec & Hn). destruct (ex_steps n m s E) as (S1 & S2). destruct spt_bounds as (T1 & T2 & T3 & T4).
      set (cst := if 0 <? calls s then newSteps s v else contSteps s) in *.
      assert (Hc : 0 <= cst <= newSteps s v). { unfold cst, newSteps. destruct (0 <? calls s); [destruct v; lia|lia]. }
      assert (Hv : v = true -> valid s = true /\ steps s < freq). { unfold v, listsValid. destruct ((freq <=? steps s) || tunerRebuilds) eqn:Y; [discriminate|]. apply orb_false_elim in Y as (Y & _). intros Z. split; [exact Z|lia]. }
      (* every owned particle in the container is in the box afterwards, near its cell *)
      assert (G : forall k p, In p (nth k (ccells c2) []) -> pown p = 1 -> inBox (boxLo s) (boxHi s) (ppos p) /\
        exists x0, inBox (boxLo s) (boxHi s) x0 /\ cellFor (boxLo s) (boxHi s) (kind c2) k x0 /\ within (spt * IZR cst) x0 (ppos p)).
      { intros k p Hp O. assert (Kd := Kp k p Hp O). unfold kept in Kd. destruct v eqn:Ev.
        - destruct (Hv eq_refl) as (V1 & V2). assert (Ecl : cst = steps s + 1). { unfold cst, newSteps. rewrite Ec. destruct (Z.ltb_spec 0 n); [lia|]. assert (1 <= n) by (apply (ex_valid n m s E V1)). lia. }
          destruct Kd as (I1 & Kd). rewrite (Ci eq_refl) in *.
          destruct (ex_near n m s E k p I1 O) as (x0 & x1 & A1 & A2 & A3 & A4 & A5).
          assert (W1 : within spt x1 (ppos p)) by (destruct m; [exact A5|subst x1; apply within_refl, T1]).
          assert (W : within (spt * IZR cst) x0 (ppos p)).
          { apply within_le with (spt * IZR (contSteps s) + spt)%R; [|apply (within_trans _ _ _ _ _ A3 W1)].
            rewrite Ecl. replace (spt * IZR (contSteps s) + spt)%R with (spt * IZR (contSteps s + 1))%R by (rewrite plus_IZR; ring).
            apply Rmult_le_compat_l; [exact T1|]. apply IZR_le. lia. }
          assert (BX : inBox (boxLo s) (boxHi s) (ppos p)).
          { destruct Kd as [Kd|Kd]; [exact Kd|]. destruct (inBoxb (boxLo s) (boxHi s) (ppos p)) eqn:Y; [apply inBoxb_iff, Y|exfalso].
            assert (N : ~ inBox (boxLo s) (boxHi s) (ppos p)) by (intros Z; apply inBoxb_iff in Z; congruence).
            assert (R : reached (volumes (boxLo s) (boxHi s)) (regionCells (kind (cont s)) (boxLo s) (boxHi s) (spt * IZR cst)) k p = true).
            { assert (CO : (0 < cutoff)%R) by apply Hopt.
              assert (IL : (skin < il)%R) by (unfold skin, il, HandlerModel.il; lra).
              apply (leaving_reached (boxLo s) (boxHi s) (cont s) k p x0); auto.
              - apply (inv_box _ _ _ s I).
              - apply (inv_kind _ _ _ s I).
              - apply (within_grown spt _ _ x1 (ppos p) W1 A4 T1). lra.
              - apply not_box_shrunk; [lra|exact N].
              - split; [apply Rmult_le_pos; [exact T1|apply IZR_le; lia]|]. apply Rle_trans with skin; [|lra]. unfold skin, HandlerModel.skin. apply Rmult_le_compat_l; [exact T1|]. apply IZR_le. lia.
              - apply box_grown; [lra|exact A1]. }
            unfold regionCells in R. rewrite R in Kd. discriminate. }
          split; [exact BX|]. exists x0. split; [exact A1|]. split; [rewrite K2; exact A2|exact W].
        - destruct Kd as (_ & B & Cf). split; [exact B|]. exists (ppos p). split; [exact B|]. split; [rewrite K2; exact Cf|].
          apply within_refl, Rmult_le_pos; [exact T1|apply IZR_le; lia]. }
      split.
      + constructor; cbn [cont contSteps steps calls valid boxLo boxHi].
        * exact I'.
        * intros k p Hp O. destruct (G k p Hp O) as (B & x0 & A1 & A2 & A3). exists x0, (ppos p). auto.
        * exact Hc.
        * auto.
        * intros Y. apply (ex_valid n m s E), (Hv Y).
      + match goal with |- forall p, In p (ownedParticles ?x) -> _ => set (s' := x) in * end. intros p Hp. rewrite (inv_split cutoff spt freq s' I') in Hp. apply in_app_or in Hp as [Hp|Hp].
        * apply filter_In in Hp as (Hp & O). apply owned_iff in O. apply in_cells in Hp as (k & Hk). apply (G k p Hk O).
        * apply B1, Hp.
    - (* Compute *) split; [|trivial]. destruct D as (-> & _). destruct (doCompute _ _ _ _ _ _) as [s1|] eqn:F in H; [|discriminate]. injection H as -> ->.
      unfold doCompute in F. destruct (select cutoff spt freq s selected) as [s2|] eqn:Se; [|discriminate].
      destruct (select_inv cutoff spt freq selected s s2 Se I V) as (J & A1 & A2 & A3 & A4 & A5 & A6 & A7 & A8 & A9 & QO & QH & C).
      destruct (ex_calls n false s E) as (Ec & Hn). destruct (ex_steps n false s E) as (S1 & S2).
      assert (G : cont s1 = cont s2 /\ contSteps s1 = contSteps s2 /\ steps s1 = steps s2 /\ calls s1 = n + 1 /\ boxLo s1 = boxLo s2 /\ boxHi s1 = boxHi s2).
      { assert (M : (calls s2 + 1) mod 2 ^ 32 = n + 1) by (rewrite A7, Ec; apply Z.mod_small; lia).
        destruct pairwise; [|injection F as <-; cbn [cont contSteps steps calls boxLo boxHi]; change (Z.pow_pos 2 32) with (2 ^ 32); rewrite M; auto 8].
        destruct (balanceVectors 1 (bufs s2)); [|discriminate]. destruct (balanceVectors 1 (halos s2)); [|discriminate]. injection F as <-. cbn [cont contSteps steps calls boxLo boxHi]; change (Z.pow_pos 2 32) with (2 ^ 32); rewrite M; auto 8. }
      destruct G as (G1 & G2 & G3 & G4 & G5 & G6).
      constructor.
      + exact I'.
      + intros k p Hp O. rewrite G1, G2, G5, G6, A1, A2 in *. destruct C as [(C1 & C2 & C3)|(C1 & C2 & C3 & C4)].
        * rewrite C1 in Hp. rewrite C2, C3. apply (ex_near n false s E k p Hp O).
        * destruct (C4 k p Hp) as (D1 & D2). assert (Hp' : In p (concat (ccells (cont s2)))) by (apply in_cells; exists k; exact Hp). destruct (C3 p Hp') as (D3 & _).
          assert (Z := near_self s2 false k p). rewrite A1, A2, C1 in Z. rewrite C1. apply Z; [exact (D3 O)|exact (proj2 D2)|lia].
      + rewrite G2, G3, A6. destruct C as [(_ & _ & C3)|(C3 & _)]; rewrite C3; lia.
      + split; [exact G4|lia].
      + lia.
    - (* Resize *) split; [|trivial]. destruct V as (V1 & V2).
      destruct (resize_inv cutoff spt freq s lo hi s' out I V1 V2 (eq_sym H)) as [(-> & _)|(E1 & E2 & K & P & Cs & Bf & Hl & Va & St & Ca & C & _ & O & _ & Q & X)]; [exact E|].
      destruct (ex_calls n m s E) as (Ec & Hn). destruct (ex_steps n m s E) as (S1 & S2). constructor.
      + exact I'.
      + intros k p Hp Ow. destruct (X k p Hp) as (_ & B & Cf). apply near_self; rewrite ?E1, ?E2; [exact B|exact Cf|lia].
      + rewrite Cs, St. lia.
      + rewrite Ca. auto.
      + rewrite Va. discriminate.
  Qed.

  Lemma computations_app a b : computations (a ++ b) = computations a + computations b.
  Proof. unfold computations. rewrite filter_app, app_length. lia. Qed.
  Lemma computations_cons e r : computations (e :: r) = computations [e] + computations r.
  Proof. change (e :: r) with ([e] ++ r). apply computations_app. Qed.
  Lemma computations_pos l : 0 <= computations l.
  Proof. unfold computations. lia. Qed.
  Lemma disciplined_cons m e r : disciplined spt m (e :: r) <-> disciplined spt m [e] /\ disciplined spt (movedSince m [e]) r.
  Proof. destruct e; cbn; tauto. Qed.
  Lemma movedSince_cons m e r : movedSince m (e :: r) = movedSince (movedSince m [e]) r.
  Proof. destruct e; reflexivity. Qed.

  Lemma Ex_history s h s' : history cutoff spt freq s h s' -> forall n m, Ex n m s -> forall more, disciplined spt m (map fst h ++ more) ->
    n + computations (map fst h ++ more) < 2 ^ 32 ->
    Ex (n + computations (map fst h)) (movedSince m (map fst h)) s' /\ disciplined spt (movedSince m (map fst h)) more.
  Proof.
    induction 1 as [s|s e out s1 h s2 V S H IH]; intros n m E more D B; cbn [map fst app] in *.
    - cbn [movedSince computations filter length Z.of_nat]. rewrite Z.add_0_r. auto.
    - apply disciplined_cons in D as (D1 & D2). rewrite computations_cons in B. rewrite movedSince_cons, computations_cons, Z.add_assoc.
      assert (P := computations_pos (map fst h ++ more)).
      destruct (Ex_step n m s e s1 out E V D1 ltac:(lia) S) as (E1 & _). apply (IH _ _ E1 more D2). lia.
  Qed.

  Lemma Ex_initial s : validStart cutoff spt freq s -> Ex 0 false s.
  Proof.
    intros V. destruct (initial_inv cutoff spt freq s V) as (I & _ & _). destruct V as (k & lo & hi & t & VB & VK & ->). constructor.
    - exact I.
    - intros i p Hp O. exfalso. cbn in Hp. unfold emptyCells in Hp. destruct k; rewrite nth_repeat in Hp; destruct Hp.
    - cbn. lia.
    - cbn. lia.
    - cbn. discriminate.
  Qed.

  Theorem exact_update s h s1 b s2 out : validStart cutoff spt freq s -> history cutoff spt freq s h s1 ->
    disciplined spt false (map fst h) -> computations (map fst h) < 2 ^ 32 -> step cutoff spt freq s1 (Update b) (Some (s2, out)) ->
    Permutation (ownedParticles s1) (out ++ ownedParticles s2) /\
    Forall (fun p => ~ inBox (boxLo s1) (boxHi s1) (ppos p)) out /\
    Forall (fun p => inBox (boxLo s1) (boxHi s1) (ppos p)) (ownedParticles s2).
  Proof.
    intros V H D B U. destruct (Ex_history s h s1 H 0 false (Ex_initial s V) []) as (E & _); [rewrite app_nil_r; exact D|rewrite app_nil_r; lia|].
    cbn [Z.add] in E.
    assert (G := proj2 (step_good cutoff spt freq s1 (Update b) s2 out (ex_inv _ _ _ E) I U)). inversion G; subst. cbn [expected ledgerLo ledgerHi] in *.
    split; [assumption|]. split; [assumption|]. apply Forall_forall.
    destruct (Ex_step _ _ s1 (Update b) s2 out E I I ltac:(change (computations [Update b]) with 0; lia) U) as (_ & K). cbn in K. match goal with X : _ = boxLo s2, Y : _ = boxHi s2 |- _ => rewrite X, Y end. exact K.
  Qed.
End Exact.
