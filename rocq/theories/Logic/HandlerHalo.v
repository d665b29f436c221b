(** The number of halo particles. *)
From Coq Require Import Reals Lra.
From Verif.Base Require Import ZRange Lists Occ.
From Verif.Grid Require Import IndexModel IndexSpec IndexProofs CellBlockModel CellBlockSpec CellBlockProofs CellBlockExact.
From Verif.Functor Require Import SortModel.
From Verif.Container Require Import LinkedCellsModel LinkedCellsSpec LinkedCellsGeo IteratorModel IteratorContainers IteratorSpec IteratorLemmas IteratorInstances IteratorRegion
  ParticleModel CollectModel CollectSpec CollectProofs CollectRun CollectContainers CollectTheorems UpdateModel UpdateProofs.
From Verif.Logic Require Import BalanceModel BalanceProofs HandlerModel HandlerSpec HandlerCont HandlerUpdate HandlerProofs HandlerExact HandlerTotal HandlerFields HandlerNear.
Import ListNotations.
Local Open Scope Z_scope.

Section Halo.
  Variables (cutoff spt : R) (freq : Z).
  Hypothesis Hopt : validOptions cutoff spt freq.
  Variable fac : R.
  Hypothesis Hfac : (0 <= fac)%R.
  Notation far := (imageDistance cutoff spt freq fac).
  Let il := il cutoff spt freq.
  Let skin := skin spt freq.
  Notation grid := (grid cutoff spt freq).
  Notation placed := (placed cutoff spt freq).
  Notation placeOk := (placeOk cutoff spt freq).
  Notation cellFor := (cellFor cutoff spt freq).
  Notation volumes := (volumes cutoff spt freq).
  Notation Inv := (Inv cutoff spt freq).
  Notation Ex := (Ex cutoff spt freq).
  Notation Hal := (Hal cutoff spt freq).

  Definition haloCell (lo hi : R3) (k : Kind) (c : nat) : Prop :=
    match k with KDirectSum => c <> 0%nat | KLinkedCells csf => cellCanContainHaloParticles (grid csf lo hi) (Z.of_nat c) = true end.
  Lemma place_halo lo hi k c p : placeOk lo hi k c p -> pown p = 2 -> haloCell lo hi k c.
  Proof. intros (_ & H) O. unfold haloCell. destruct k as [|csf]; destruct H as (A & B); [intros ->; exact (A eq_refl O)|exact (B O)]. Qed.
  Lemma place_owned lo hi k c p : placeOk lo hi k c p -> haloCell lo hi k c -> pown p <> 1.
  Proof.
    intros (_ & H) C O. unfold haloCell in C. destruct k as [|csf]; destruct H as (A & B); [exact (B C O)|].
    assert (D := A O). rewrite owned_or_halo, C in D. discriminate.
  Qed.

  (** Every particle that was halo is the result of some call, and near its cell. *)
  Definition slot (past : list Event) (s : State) (k : nat) (q : Particle) : Prop :=
    exists x0 a p t b, past = a ++ AddHalo p t :: b /\ pid p = pid q /\ ppos p = ppos q /\ (pown q = 2 -> updates b = 0) /\
      updates b <= contSteps s /\ inGrownBox il (boxLo s) (boxHi s) x0 /\ cellFor (boxLo s) (boxHi s) (kind (cont s)) k x0 /\
      within (spt * IZR (contSteps s - updates b)) x0 (ppos q).
  Record HI (past : list Event) (s : State) : Prop := mkHI {
    hi_slot : forall k q, In q (nth k (ccells (cont s)) []) -> pown q = 2 \/ (pown q = 0 /\ haloCell (boxLo s) (boxHi s) (kind (cont s)) k) -> slot past s k q;
    hi_count : nHalo s = Z.of_nat (length (haloParticles s)) }.
  (** Bounds on the cell size factor and the age of the lists. *)
  Definition bounded (s : State) : Prop := factorAtMost fac (kind (cont s)) /\ steps s <= freq.
  Lemma bounded_step s e s' out : Inv s -> validCall cutoff spt freq s e -> (forall pw ks, e = Compute pw ks -> Forall (factorAtMost fac) ks) ->
    step cutoff spt freq s e (Some (s', out)) -> bounded s -> bounded s'.
  Proof.
    intros I V F S (B1 & B2). destruct Hopt as (_ & _ & Hf). split; [|apply (step_age cutoff spt freq s e s' out Hf S B2)].
    destruct (step_kind cutoff spt freq s e s' out I V S) as [E|(pw & ks & E & K)]; [rewrite E; exact B1|]. exact (proj1 (Forall_forall _ _) (F pw ks E) _ K).
  Qed.

  Lemma updates_app a b : updates (a ++ b) = updates a + updates b.
  Proof. unfold updates. rewrite filter_app, app_length. lia. Qed.

  Lemma slot_more past e s s' k q q' : slot past s k q -> pid q' = pid q -> ppos q' = ppos q -> (pown q' = 2 -> pown q = 2 /\ updates [e] = 0) ->
    boxLo s' = boxLo s -> boxHi s' = boxHi s -> kind (cont s') = kind (cont s) -> contSteps s + updates [e] <= contSteps s' -> slot (past ++ [e]) s' k q'.
  Proof.
    intros (x0 & a & p & t & b & E & E1 & E2 & E3 & E4 & E5 & E6 & E7) I1 I2 O B1 B2 K C. destruct (spt_bounds cutoff spt freq Hopt) as (T1 & _).
    exists x0, a, p, t, (b ++ [e]). rewrite updates_app, B1, B2, K, I1, I2.
    split; [rewrite E, <- app_assoc; reflexivity|]. split; [exact E1|]. split; [exact E2|]. split.
    { intros O'. destruct (O O') as (O1 & O2). rewrite (E3 O1), O2. reflexivity. }
    split; [lia|]. split; [exact E5|]. split; [exact E6|]. eapply within_le; [|exact E7]. apply Rmult_le_compat_l; [exact T1|]. apply IZR_le. lia.
  Qed.

  Lemma slot_new past p t s k q : pid q = pid p -> ppos q = ppos p -> 0 <= contSteps s -> inGrownBox il (boxLo s) (boxHi s) (ppos p) ->
    cellFor (boxLo s) (boxHi s) (kind (cont s)) k (ppos p) -> slot (past ++ [AddHalo p t]) s k q.
  Proof.
    intros I1 I2 C G F. destruct (spt_bounds cutoff spt freq Hopt) as (T1 & _). exists (ppos p), past, p, t, []. rewrite I1, I2. change (updates []) with 0. rewrite Z.sub_0_r.
    repeat (split; [reflexivity || lia || assumption || (intros; reflexivity)|]). apply within_refl, Rmult_le_pos; [exact T1|apply IZR_le, C].
  Qed.

  Lemma halo_perm s1 s2 : Permutation (stored s1) (stored s2) -> length (haloParticles s1) = length (haloParticles s2).
  Proof. intros P. apply Permutation_length, filter_perm, P. Qed.

  Definition isH (p : Particle) : bool := pown p =? 2.
  Lemma halo_len s : length (haloParticles s) = (length (filter isH (concat (ccells (cont s)))) + length (filter isH (concat (bufs s))) + length (filter isH (concat (halos s))))%nat.
  Proof. unfold haloParticles, stored. change (fun p => pown p =? 2) with isH. rewrite !filter_app, !app_length. lia. Qed.
  Lemma len_perm l l' : Permutation l l' -> length (filter isH l) = length (filter isH l').
  Proof. intros P. apply Permutation_length, filter_perm, P. Qed.
  Lemma len_cons p l l' : Permutation l (p :: l') -> length (filter isH l) = ((if isH p then 1 else 0) + length (filter isH l'))%nat.
  Proof. intros P. rewrite (len_perm _ _ P). cbn [filter]. destruct (isH p); reflexivity. Qed.
  Lemma len_moved f l : length (filter isH (concat (map (map (moved f)) l))) = length (filter isH (concat l)).
  Proof.
    rewrite <- concat_map. induction (concat l) as [|p r IH]; [reflexivity|]. cbn [map filter].
    assert (E : isH (moved f p) = isH p) by (unfold isH; rewrite moved_own; reflexivity). rewrite E. destruct (isH p); cbn [length]; rewrite IH; reflexivity.
  Qed.
  Lemma len_none l : (forall p, In p l -> pown p <> 2) -> length (filter isH l) = 0%nat.
  Proof. intros H. rewrite filter_nil; [reflexivity|]. intros p Hp. unfold isH. apply Z.eqb_neq, H, Hp. Qed.

  (** After an update there are no halo particles. *)
  Definition cleared (e : Event) (s' : State) : Prop := match e with Update _ => haloParticles s' = [] | _ => True end.

  Lemma HI_step n m past s e s' out : Ex n m s -> Hal s -> HI past s -> bounded s -> validCall cutoff spt freq s e -> properCall cutoff spt freq s e ->
    movingImages spt far (past ++ [e]) -> step cutoff spt freq s e (Some (s', out)) -> HI (past ++ [e]) s' /\ cleared e s'.
  Proof.
    intros E Hh HI0 (Bf & Ba) V Pr Mv H. pose proof (ex_inv _ _ _ n m s E) as I. destruct (ex_steps _ _ _ n m s E) as (S1 & S2).
    destruct HI0 as [Sl Ct]. destruct (spt_bounds cutoff spt freq Hopt) as (T1 & T2 & T3 & T4). fold il skin in T2, T3, T4.
    destruct e; cbn [step validCall properCall] in *.
    - (* AddParticle *) split; [|exact Logic.I]. destruct (doAdd _ _ _ _ _ _) as [s1|] eqn:F in H; [|discriminate]. injection H as -> ->.
      unfold doAdd in F. destruct (inBoxb _ _ _) eqn:B in F; cbn [negb] in F; [|discriminate]. destruct (valid s) eqn:Vs.
      + destruct (pushAt _ _ _) as [b|] eqn:P in F; [|discriminate]. injection F as <-. destruct (pushAt_inv P) as (_ & Pm & _). constructor.
        * intros k q Hq O. apply (slot_more past _ s _ k q q (Sl k q Hq O)); auto. cbn. lia.
        * cbn [nHalo]. rewrite Ct, !halo_len. cbn [cont bufs halos withCounts withBufs]. rewrite (len_cons _ _ _ Pm). cbn. reflexivity.
      + destruct (addOwned _ _ _ _ _ _ _) as [c|] eqn:P in F; [|discriminate]. injection F as <-.
        destruct (addOwned_inv cutoff spt freq _ _ _ _ _ P eq_refl) as (K & i & P1 & _ & C). destruct (pushAt_inv P1) as (_ & Pm & X). constructor.
        * cbn [cont withCounts withCont boxLo boxHi]. intros k q Hq O. apply X in Hq as [Hq|(-> & ->)]; [|destruct O as [O|(O & _)]; discriminate].
          rewrite K in O. apply (slot_more past _ s _ k q q (Sl k q Hq O)); auto. cbn. lia.
        * cbn [nHalo]. rewrite Ct, !halo_len. cbn [cont bufs halos withCounts withCont]. rewrite (len_cons _ _ _ Pm). cbn. reflexivity.
    - (* AddHalo *) split; [|exact Logic.I]. destruct (doAddHalo _ _ _ _ _ _) as [s1|] eqn:F in H; [|discriminate]. injection H as -> ->. destruct Pr as (N & G & _).
      unfold doAddHalo in F. destruct (inBoxb _ _ _) eqn:B in F; [discriminate|]. destruct (valid s) eqn:Vs.
      + destruct (updateHaloC _ _ _ _ _ _ _) as [(c, [|])|] eqn:P in F; [| |discriminate].
        * injection F as <-. destruct (updateHalo_full cutoff spt freq _ _ _ _ _ _ P eq_refl (inv_placed _ _ _ s I)) as (K & [(C & _)|(_ & i & q & r & Q1 & Q2 & Qn & Q3 & Q4 & Q5 & P1 & P2 & X)]); [discriminate|].
          cbn [pid withOwn] in Q2. assert (Hc := place_halo _ _ _ _ _ Q4 eq_refl).
          assert (Oq : pown q = 2 \/ (pown q = 0 /\ haloCell (boxLo s) (boxHi s) (kind (cont s)) i)).
          { destruct (proj2 (inv_placed _ _ _ s I) i q Q1) as ([Y|[Y|Y]] & _); [right; auto|contradiction|left; exact Y]. }
          destruct (Sl i q Q1 Oq) as (x0 & a & p0 & t0 & b & E0 & E1 & E2 & E3 & E4 & E5 & E6 & E7).
          destruct (Mv a p0 t0 b p thread []) as [(M1 & M2)|M]; [rewrite E0, <- app_assoc; reflexivity|congruence| |].
          2: { exfalso. rewrite E2 in M. revert M. apply (slot_not_apart cutoff spt freq Hopt fac (boxLo s) (boxHi s) (kind (cont s)) i q (ppos p) x0 (contSteps s - updates b) Hfac Bf (inv_kind _ _ _ s I) G E5 E6 Qn E7).
               assert (0 <= updates b) by (unfold updates; lia). lia. }
          assert (Nq : pown q <> 2) by (intros Y; rewrite (E3 Y) in M1; lia).
          constructor.
          -- cbn [cont withCounts withCont boxLo boxHi]. intros k x Hx O. rewrite K in O. destruct (X k x Hx) as [Y|(-> & ->)].
             ++ apply (slot_more past _ s _ k x x (Sl k x Y O)); auto. cbn. lia.
             ++ exists x0, past, p, thread, []. cbn [cont withCounts withCont boxLo boxHi contSteps pid ppos withOwn]. rewrite K. change (updates []) with 0. rewrite Z.sub_0_r.
                repeat (split; [reflexivity || lia || assumption || (intros; reflexivity)|]).
                rewrite E2 in M2. eapply within_le; [|exact (within_trans _ _ _ _ _ E7 M2)]. rewrite minus_IZR. lra.
          -- cbn [nHalo withCounts]. rewrite Ct, !halo_len. cbn [cont bufs halos withCounts withCont]. rewrite (len_cons _ _ _ P1), (len_cons _ _ _ P2).
             assert (Z1 : isH q = false) by (unfold isH; apply Z.eqb_neq, Nq). rewrite Z1. change (isH (withOwn stHalo p)) with true. cbn iota. clear. lia.
        * destruct (pushAt _ _ _) as [b|] eqn:P1 in F; [|discriminate]. injection F as <-. destruct (pushAt_inv P1) as (_ & Pm & _). constructor.
          -- intros k q Hq O. apply (slot_more past _ s _ k q q (Sl k q Hq O)); auto. cbn. lia.
          -- cbn [nHalo withCounts]. rewrite Ct, !halo_len. cbn [cont bufs halos withCounts withBufs]. rewrite (len_cons _ _ _ Pm). change (isH (withOwn stHalo p)) with true. cbn iota. lia.
      + destruct (addHaloC _ _ _ _ _ _ _) as [c|] eqn:P in F; [|discriminate]. injection F as <-.
        destruct (addHalo_inv cutoff spt freq _ _ _ _ _ P eq_refl N) as (K & i & P1 & _ & C). destruct (pushAt_inv P1) as (_ & Pm & X). constructor.
        * cbn [cont withCounts withCont boxLo boxHi]. intros k q Hq O. apply X in Hq as [Hq|(-> & ->)].
          -- rewrite K in O. apply (slot_more past _ s _ k q q (Sl k q Hq O)); auto. cbn. lia.
          -- apply slot_new; cbn [cont withCounts withCont boxLo boxHi contSteps]; [reflexivity|reflexivity|lia|exact G|rewrite K; exact C].
        * cbn [nHalo withCounts]. rewrite Ct, !halo_len. cbn [cont bufs halos withCounts withCont]. rewrite (len_cons _ _ _ Pm). change (isH (withOwn stHalo p)) with true. cbn iota. lia.
    - (* Delete *) split; [|exact Logic.I]. destruct H as (H1 & H2 & H3). injection H3 as -> ->. unfold particleAt in H1.
      assert (Op : pown p = 1 \/ pown p = 2).
      { unfold isDummy, stDummy in H2. apply Z.eqb_neq in H2. destruct at_ as [c j|b j|b j]; cbn in H1; apply nth_error_In in H1.
        - destruct (proj2 (inv_placed _ _ _ s I) c p H1) as ([X|X] & _); [contradiction|exact X].
        - left. apply (inv_bufs _ _ _ s I), in_cells. exists b. exact H1.
        - right. apply (inv_halos _ _ _ s I), in_cells. exists b. exact H1. }
      assert (W : forall s1, s1 = (if isOwned p then withCounts s (nOwned s - 1) (nHalo s) else withCounts s (nOwned s) (nHalo s - 1)) ->
        boxLo s1 = boxLo s /\ boxHi s1 = boxHi s /\ cont s1 = cont s /\ contSteps s1 = contSteps s /\ bufs s1 = bufs s /\ halos s1 = halos s /\
        nHalo s1 = nHalo s - (if isH p then 1 else 0)).
      { intros s1 ->. unfold isOwned, stOwned, isH. destruct Op as [Op|Op]; rewrite Op; cbn; repeat split; lia. }
      unfold doDelete in *. set (s1 := if isOwned p then _ else _) in *. destruct (W s1 eq_refl) as (W1 & W2 & W3 & W4 & W5 & W6 & W7). clearbody s1.
      destruct at_ as [c j|b j|b j]; cbn in H1; destruct (del_perm _ _ _ _ H1) as (Pm & _ & X); constructor;
        try (cbn [nHalo withCont withBufs]; rewrite W7, Ct, !halo_len; cbn [cont bufs halos withCont withBufs ccells]; rewrite ?W3, ?W5, ?W6; rewrite (len_cons _ _ _ Pm); destruct (isH p); lia);
        cbn [cont withCont withBufs boxLo boxHi ccells kind]; rewrite W1, W2, W3; intros k q Hq O; [apply X in Hq|..];
        apply (slot_more past _ s _ k q q (Sl k q Hq O)); cbn [boxLo boxHi cont kind contSteps withCont withBufs]; auto; try (rewrite W3; reflexivity); rewrite W4; cbn; lia.
    - (* DeleteAll *) split; [|exact Logic.I]. injection H as -> ->. constructor.
      + cbn. intros k q Hq O. exfalso. assert (X : In q (concat (map (fun _ : list Particle => [] : list Particle) (ccells (cont s))))) by (apply in_cells; exists k; exact Hq). rewrite concat_nil in X. destruct X.
      + unfold haloParticles, stored, doDeleteAll. cbn. rewrite !concat_nil. reflexivity.
    - (* Move *) split; [|exact Logic.I]. injection H as -> ->. constructor.
      + cbn [cont doMove withBufs withCont boxLo boxHi ccells kind]. intros k q Hq O. apply moved_in in Hq as (p & Hp & ->). rewrite moved_own in O.
        assert (Em : moved f p = p). { unfold moved. destruct O as [O|(O & _)]; [rewrite (Pr p O); destruct (isDummy p), p; reflexivity|]. unfold isDummy, stDummy. rewrite O. reflexivity. }
        rewrite Em in *. apply (slot_more past _ s _ k p p (Sl k p Hp O)); auto. cbn. lia.
      + cbn [nHalo doMove withBufs withCont]. rewrite Ct, !halo_len. cbn [cont bufs halos ccells doMove withBufs withCont]. rewrite !len_moved. reflexivity.
    - (* Update *)
      unfold doUpdate in H. set (v := listsValid freq s tunerRebuilds) in *.
      destruct (collectBuffers _ _ _ _ _ _ _ _) as [[[c1 bs] out1]|] eqn:C in H; [|discriminate].
      destruct (collectBuffers_inv cutoff spt freq _ s c1 bs out1 I C) as (K1 & P1 & B1 & _ & O1 & Q1 & X1 & _ & Ci).
      destruct H as (r & U & Hr). destruct r as [(c2, out2)|]; [|discriminate]. injection Hr as -> ->.
      set (cst := if 0 <? calls s then newSteps s v else contSteps s) in *.
      destruct (contUpdate_inv cutoff spt freq (boxLo s) (boxHi s) _ _ c1 c2 out2 P1 ltac:(rewrite K1; apply (inv_kind _ _ _ s I)) U) as (K2 & P2 & Q2 & O2 & _ & Kh & Kd).
      destruct (ex_calls _ _ _ n m s E) as (Ec & Hn).
      assert (Hv : v = true -> c1 = cont s /\ steps s < freq /\ cst = steps s + 1).
      { intros Ev. split; [apply Ci; rewrite Ev; reflexivity|]. assert (Ev' := Ev). unfold v, listsValid in Ev. destruct ((freq <=? steps s) || tunerRebuilds) eqn:Y; [discriminate|].
        apply orb_false_elim in Y as (Y & _). split; [lia|]. unfold cst, newSteps. rewrite Ev', Ec. assert (1 <= n) by (apply (ex_valid _ _ _ n m s E Ev)). destruct (Z.ltb_spec 0 n); lia. }
      assert (NoH : forall k q, In q (nth k (ccells c2) []) -> pown q <> 2).
      { intros k q Hq O. destruct (Kh k q Hq O) as (Ev & Hq1 & R). destruct (Hv Ev) as (-> & V1 & V2).
        destruct (Sl k q Hq1 (or_introl O)) as (x0 & a & p & t & b & E0 & E1 & E2 & E3 & E4 & E5 & E6 & E7).
        assert (Hin : In q (concat (ccells (cont s)))) by (apply in_cells; exists k; exact Hq1). destruct (Hh q Hin O) as (N & G).
        rewrite (E3 O), Z.sub_0_r in E7.
        assert (Rt : reached (volumes (boxLo s) (boxHi s)) (regionCells cutoff spt freq (kind (cont s)) (boxLo s) (boxHi s) (spt * IZR cst)) k q = true).
        { apply (leaving_reached cutoff spt freq Hopt (boxLo s) (boxHi s) (cont s) k q x0); auto.
          - apply (inv_box _ _ _ s I).
          - apply (inv_kind _ _ _ s I).
          - apply not_box_shrunk; [fold skin; lra|exact N].
          - split; [apply Rmult_le_pos; [exact T1|apply IZR_le; lia]|]. apply Rle_trans with skin; [|apply T3]. unfold skin, HandlerModel.skin. apply Rmult_le_compat_l; [exact T1|]. apply IZR_le. lia.
          - eapply within_le; [|exact E7]. apply Rmult_le_compat_l; [exact T1|]. apply IZR_le. lia. }
        unfold regionCells in Rt. rewrite Rt in R. discriminate. }
      match goal with |- HI _ ?x /\ _ => set (s' := x) end.
      assert (Z : length (haloParticles s') = 0%nat).
      { rewrite halo_len. cbn [cont bufs halos s']. rewrite concat_nil. rewrite (len_none (concat bs)), (len_none (concat (ccells c2))); [reflexivity|..].
        - intros p Hp. apply in_cells in Hp as (k & Hk). exact (NoH k p Hk).
        - intros p Hp. apply B1 in Hp as (Hp & _). congruence. }
      split; [|cbn [cleared]; destruct (haloParticles s'); [reflexivity|discriminate]]. constructor; [|rewrite Z; reflexivity].
      cbn [cont boxLo boxHi s']. intros k q Hq [O|(O & Hc)]; [destruct (NoH k q Hq O)|].
      destruct (Kd k q Hq O) as (Ev & q0 & Hq0 & ->). destruct (Hv Ev) as (-> & V1 & V2). rewrite K2 in Hc.
      assert (Oq : pown q0 = 2 \/ (pown q0 = 0 /\ haloCell (boxLo s) (boxHi s) (kind (cont s)) k)).
      { assert (Y := proj2 P1 k q0 Hq0). assert (Y1 := place_owned _ _ _ _ _ Y Hc). destruct Y as ([Y|[Y|Y]] & _); [right; auto|contradiction|left; exact Y]. }
      apply (slot_more past _ s _ k q0 (withOwn 0 q0) (Sl k q0 Hq0 Oq)); cbn [boxLo boxHi cont contSteps s']; auto; [discriminate|]. rewrite V2. cbn. lia.
    - (* Compute *) split; [|exact Logic.I]. destruct (doCompute _ _ _ _ _ _) as [s1|] eqn:F in H; [|discriminate]. injection H as -> ->.
      unfold doCompute in F. destruct (select cutoff spt freq s selected) as [s2|] eqn:Se; [|discriminate].
      destruct (select_inv cutoff spt freq selected s s2 Se I V) as (J & A1 & A2 & A3 & A4 & A5 & A6 & A7 & A8 & A9 & QO & QH & C).
      assert (G : cont s1 = cont s2 /\ contSteps s1 = contSteps s2 /\ boxLo s1 = boxLo s2 /\ boxHi s1 = boxHi s2 /\ nHalo s1 = nHalo s2 /\
        Permutation (concat (bufs s2)) (concat (bufs s1)) /\ Permutation (concat (halos s2)) (concat (halos s1))).
      { destruct pairwise; [|injection F as <-; cbn; auto 9].
        destruct (balance_correct (bufs s2) 1 (le_n 1)) as (b & Eb & Pb & _). destruct (balance_correct (halos s2) 1 (le_n 1)) as (h & Eh & Ph & _).
        rewrite Eb, Eh in F. injection F as <-. cbn; auto 9. }
      destruct G as (G1 & G2 & G3 & G4 & G5 & G6 & G7).
      constructor.
      + intros k q Hq O. rewrite G1, G3, G4 in *. rewrite A1, A2 in O. destruct C as [(C1 & C2 & C3)|(C1 & C2 & C3 & C4)].
        * rewrite C1 in Hq. rewrite C2 in O. apply (slot_more past _ s _ k q q (Sl k q Hq O)); auto; [congruence..|]. rewrite G2, C3. cbn. lia.
        * destruct (C4 k q Hq) as (D1 & D2 & D3). destruct O as [O|(O & _)]; [|contradiction]. destruct (Hh q D1 O) as (N & Gr).
          apply in_cells in D1 as (k0 & D1). destruct (Sl k0 q D1 (or_introl O)) as (x0 & a & p & t & b & E0 & E1 & E2 & E3 & _).
          exists (ppos q), a, p, t, (b ++ [Compute pairwise selected]). rewrite updates_app, (E3 O), G1, G2, G3, G4, A1, A2, C1. change (updates [Compute pairwise selected]) with 0. cbn [Z.add Z.sub Z.opp].
          split; [rewrite E0, <- app_assoc; reflexivity|]. repeat (split; [reflexivity || lia || assumption || (intros; reflexivity)|]). rewrite Rmult_0_r. apply within_refl. lra.
      + rewrite G5, A9, Ct. f_equal. rewrite (Permutation_length QH), !halo_len, G1, (len_perm _ _ G6), (len_perm _ _ G7). reflexivity.
    - (* Resize *) split; [|exact Logic.I]. destruct V as (V1 & V2).
      destruct (resize_inv cutoff spt freq s lo hi s' out I V1 V2 (eq_sym H)) as [(-> & _)|(E1 & E2 & K & P & Cs & Bu & Hl & Va & St & Ca & C & Nh & O & N2 & Q & X)].
      + constructor; [|exact Ct]. intros k q Hq O. apply (slot_more past _ s _ k q q (Sl k q Hq O)); auto. cbn. lia.
      + constructor.
        * intros k q Hq O'. destruct (X k q Hq) as (Y & _). destruct O' as [O'|(O' & _)]; congruence.
        * rewrite Nh, Ct, !halo_len, Bu, Hl. rewrite (len_none (concat (ccells (cont s)))) by exact N2.
          rewrite (len_none (concat (ccells (cont s')))); [reflexivity|]. intros p Hp. apply in_cells in Hp as (k & Hk). destruct (X k p Hk) as (Y & _). congruence.
  Qed.

  Lemma moving_prefix a b : movingImages spt far (a ++ b) -> movingImages spt far a.
  Proof. intros H x p t y q u z E. apply (H x p t y q u (z ++ b)). rewrite E, <- !app_assoc. cbn [app]. rewrite <- !app_assoc. reflexivity. Qed.

  Lemma HI_history s h s' : properHistory cutoff spt freq s h s' -> forall past n m, Ex n m s -> Hal s -> HI past s -> bounded s -> disciplined spt m (map fst h) ->
    n + computations (map fst h) < 2 ^ 32 -> movingImages spt far (past ++ map fst h) -> factorsAtMost fac (map fst h) -> HI (past ++ map fst h) s' /\ bounded s'.
  Proof.
    induction 1 as [s|s e out s1 h s2 V P S H IH]; intros past n m E Hh HI0 Bd D B Mv Fa; [cbn [map app]; rewrite app_nil_r; exact (conj HI0 Bd)|]. cbn [map fst] in *.
    apply disciplined_cons in D as (D1 & D2). rewrite computations_cons in B. assert (Q := computations_pos (map fst h)).
    destruct (Ex_step cutoff spt freq Hopt n m s e s1 out E V D1 ltac:(lia) S) as (E1 & _).
    replace (past ++ e :: map fst h) with ((past ++ [e]) ++ map fst h) in * by (rewrite <- app_assoc; reflexivity).
    apply (IH _ _ _ E1); [apply (Hal_step cutoff spt freq n m s e s1 out E Hh V P S)| | |exact D2|lia|exact Mv|].
    - apply (HI_step n m past s e s1 out E Hh HI0 Bd V P (moving_prefix _ _ Mv) S).
    - apply (bounded_step s e s1 out (ex_inv _ _ _ _ _ _ E) V); [|exact S|exact Bd]. intros pw ks ->. apply (Fa pw). left. reflexivity.
    - intros pw ks Hk. apply (Fa pw). right. exact Hk.
  Qed.

  Lemma start_hal s : validStart cutoff spt freq s -> Hal s /\ HI [] s.
  Proof.
    intros (k & lo & hi & t & _ & _ & ->).
    assert (N : forall i p, In p (nth i (emptyCells cutoff spt freq k lo hi) []) -> False) by (intros i p Hi; unfold emptyCells in Hi; destruct k; rewrite nth_repeat in Hi; destruct Hi).
    split; [|constructor].
    - intros p Hp O. exfalso. apply in_cells in Hp as (i & Hi). exact (N i p Hi).
    - intros i p Hi. destruct (N i p Hi).
    - assert (R : forall j, concat (repeat (@nil Particle) j) = []) by (induction j as [|j IHj]; [reflexivity|exact IHj]).
      unfold haloParticles, stored. cbn. rewrite !R. unfold emptyCells. destruct k; rewrite R; reflexivity.
  Qed.

  Theorem halo_count s h s1 : validStart cutoff spt freq s -> properHistory cutoff spt freq s h s1 ->
    disciplined spt false (map fst h) -> computations (map fst h) < 2 ^ 32 ->
    factorAtMost fac (kind (cont s)) -> factorsAtMost fac (map fst h) -> movingImages spt far (map fst h) ->
    nHalo s1 = Z.of_nat (length (haloParticles s1)) /\
    forall b s2 out, step cutoff spt freq s1 (Update b) (Some (s2, out)) -> haloParticles s2 = [].
  Proof.
    intros Vs H D B F0 Fa Mv. destruct (start_hal s Vs) as (Hh & H0).
    assert (B0 : bounded s) by (split; [exact F0|destruct Vs as (k & lo & hi & t & _ & _ & ->); destruct Hopt as (_ & _ & Hf); cbn; lia]).
    assert (E0 := Ex_initial cutoff spt freq s Vs).
    destruct (HI_history s h s1 H [] 0 false E0 Hh H0 B0 D ltac:(lia) Mv Fa) as (H1 & B1). split; [apply (hi_count _ _ H1)|].
    intros b s2 out U.
    destruct (Ex_history cutoff spt freq Hopt s h s1 (proper_history cutoff spt freq s h s1 H) 0 false E0 []) as (E & _); [rewrite app_nil_r; exact D|rewrite app_nil_r; lia|].
    assert (Mv' : movingImages spt far (map fst h ++ [Update b])).
    { intros x p t y q u z Eq. destruct z as [|z0 z] using rev_ind.
      - replace (x ++ AddHalo p t :: y ++ [AddHalo q u]) with ((x ++ AddHalo p t :: y) ++ [AddHalo q u]) in Eq by (rewrite <- app_assoc; reflexivity).
        apply app_inj_tail in Eq as (_ & Eq). discriminate.
      - clear IHz. apply (Mv x p t y q u z). replace (x ++ AddHalo p t :: y ++ AddHalo q u :: z ++ [z0]) with ((x ++ AddHalo p t :: y ++ AddHalo q u :: z) ++ [z0]) in Eq by (rewrite <- !app_assoc; cbn [app]; rewrite <- !app_assoc; reflexivity).
        apply app_inj_tail in Eq as (Eq & _). exact Eq. }
    destruct (HI_step _ _ (map fst h) s1 (Update b) s2 out E (Hal_history cutoff spt freq Hopt s h s1 H 0 false E0 Hh D ltac:(lia)) H1 B1 Logic.I Logic.I Mv' U) as (_ & Cl). exact Cl.
  Qed.
End Halo.
