(** How far the particles in the container are from the positions at which they were
    put into their cells, if they move at most half of the skin per step. *)
From Coq Require Import Reals Lra.
From Verif.Base Require Import ZRange Lists Occ.
From Verif.Grid Require Import IndexModel IndexSpec IndexProofs CellBlockModel CellBlockSpec CellBlockProofs CellBlockExact.
From Verif.Functor Require Import SortModel SortSpec SortProofs.
From Verif.Container Require Import LinkedCellsModel LinkedCellsSpec LinkedCellsGeo IteratorModel IteratorContainers IteratorSpec IteratorLemmas IteratorInstances IteratorRegion
  ParticleModel CollectModel CollectSpec CollectProofs CollectRun CollectContainers CollectTheorems UpdateModel UpdateProofs.
From Verif.Logic Require Import BalanceModel BalanceProofs HandlerModel HandlerSpec HandlerCont HandlerUpdate HandlerProofs HandlerExact HandlerTotal HandlerFields HandlerNear HandlerHalo.
Import ListNotations.
Local Open Scope Z_scope.

Lemma dist3_refl x : dist3 x x = 0%R.
Proof. unfold dist3, dot, rsub. cbn [rx ry rz]. unfold Rminus. rewrite !Rplus_opp_r. rewrite Rmult_0_r, !Rplus_0_r. apply sqrt_0. Qed.
Lemma dist3_within d x y : (dist3 x y <= d)%R -> within d x y.
Proof.
  intros H. assert (D : (0 <= d)%R) by (eapply Rle_trans; [|exact H]; apply sqrt_pos). apply dist3_sq in H; [|exact D]. unfold dot, rsub in H. cbn [rx ry rz] in H.
  unfold within. split; [|split]; rewrite Rabs_minus_sym; apply sq_le_abs; try exact D;
    pose proof (Rle_0_sqr (rx x - rx y)); pose proof (Rle_0_sqr (ry x - ry y)); pose proof (Rle_0_sqr (rz x - rz y)); unfold Rsqr in *; lra.
Qed.

Section Drift.
  Variables (cutoff spt : R) (freq : Z).
  Hypothesis Hopt : validOptions cutoff spt freq.
  Variable fac : R.
  Hypothesis Hfac : (0 <= fac)%R.
  Notation far := (imageDistance cutoff spt freq fac).
  Let il := il cutoff spt freq.
  Let skin := skin spt freq.
  Notation placed := (placed cutoff spt freq).
  Notation placeOk := (placeOk cutoff spt freq).
  Notation cellFor := (cellFor cutoff spt freq).
  Notation haloCell := (haloCell cutoff spt freq).
  Notation Inv := (Inv cutoff spt freq).
  Notation Ex := (Ex cutoff spt freq).
  Notation Hal := (Hal cutoff spt freq).
  Notation HI := (HI cutoff spt freq).
  Notation bounded := (bounded freq fac).

  Definition steps' (s : State) (m : bool) : Z := contSteps s + (if m then 1 else 0).
  Definition drifted (m : bool) (s : State) (k : nat) (q : Particle) : Prop :=
    exists x0, inBox (boxLo s) (boxHi s) x0 /\ cellFor (boxLo s) (boxHi s) (kind (cont s)) k x0 /\
      (dist3 x0 (ppos q) <= spt / 2 * IZR (steps' s m))%R.
  Definition slotD (past : list Event) (s : State) (k : nat) (q : Particle) : Prop :=
    exists x0 a p t b, past = a ++ AddHalo p t :: b /\ pid p = pid q /\ ppos p = ppos q /\ (pown q = 2 -> updates b = 0) /\
      updates b <= contSteps s /\ ~ inBox (boxLo s) (boxHi s) x0 /\ inGrownBox il (boxLo s) (boxHi s) x0 /\ cellFor (boxLo s) (boxHi s) (kind (cont s)) k x0 /\
      (dist3 x0 (ppos q) <= spt / 2 * IZR (contSteps s - updates b))%R.
  (** [m]: moved since the last update, [r]: resized since the last update. *)
  Record Dr (past : list Event) (m r : bool) (s : State) : Prop := mkDr {
    dr_own : forall k q, In q (nth k (ccells (cont s)) []) -> ~ haloCell (boxLo s) (boxHi s) (kind (cont s)) k -> drifted m s k q;
    dr_halo : forall k q, In q (nth k (ccells (cont s)) []) -> haloCell (boxLo s) (boxHi s) (kind (cont s)) k -> slotD past s k q;
    dr_bufs : m = false -> r = false -> forall p, In p (concat (bufs s)) -> inBox (boxLo s) (boxHi s) (ppos p);
    dr_hbufs : forall p, In p (concat (halos s)) -> inGrownBox il (boxLo s) (boxHi s) (ppos p);
    dr_lens : length (bufs s) = length (halos s) }.

  Lemma half_pos : (0 <= spt / 2)%R.
  Proof. destruct (spt_bounds cutoff spt freq Hopt) as (T1 & _). lra. Qed.

  Lemma slotD_more past e s s' k q q' : slotD past s k q -> pid q' = pid q -> ppos q' = ppos q -> (pown q' = 2 -> pown q = 2 /\ updates [e] = 0) ->
    boxLo s' = boxLo s -> boxHi s' = boxHi s -> kind (cont s') = kind (cont s) -> contSteps s + updates [e] <= contSteps s' -> slotD (past ++ [e]) s' k q'.
  Proof.
    intros (x0 & a & p & t & b & E & E1 & E2 & E3 & E4 & En & E5 & E6 & E7) I1 I2 O B1 B2 K C.
    exists x0, a, p, t, (b ++ [e]). rewrite updates_app, B1, B2, K, I1, I2.
    split; [rewrite E, <- app_assoc; reflexivity|]. split; [exact E1|]. split; [exact E2|]. split.
    { intros O'. destruct (O O') as (O1 & O2). rewrite (E3 O1), O2. reflexivity. }
    split; [lia|]. split; [exact En|]. split; [exact E5|]. split; [exact E6|]. eapply Rle_trans; [exact E7|]. apply Rmult_le_compat_l; [exact half_pos|]. apply IZR_le. lia.
  Qed.

  Lemma slotD_new past p t s k q : pid q = pid p -> ppos q = ppos p -> 0 <= contSteps s -> ~ inBox (boxLo s) (boxHi s) (ppos p) -> inGrownBox il (boxLo s) (boxHi s) (ppos p) ->
    cellFor (boxLo s) (boxHi s) (kind (cont s)) k (ppos p) -> slotD (past ++ [AddHalo p t]) s k q.
  Proof.
    intros I1 I2 C N G F. exists (ppos p), past, p, t, []. rewrite I1, I2. change (updates []) with 0. rewrite Z.sub_0_r.
    repeat (split; [reflexivity || lia || assumption || (intros; reflexivity)|]). rewrite dist3_refl. apply Rmult_le_pos; [exact half_pos|apply IZR_le, C].
  Qed.

  Lemma drifted_self m s k q : 0 <= contSteps s -> inBox (boxLo s) (boxHi s) (ppos q) -> cellFor (boxLo s) (boxHi s) (kind (cont s)) k (ppos q) -> drifted m s k q.
  Proof.
    intros C B F. exists (ppos q). split; [exact B|]. split; [exact F|]. rewrite dist3_refl. apply Rmult_le_pos; [exact half_pos|]. apply IZR_le. unfold steps'. destruct m; lia.
  Qed.

  Lemma drifted_more m m' s s' k q q' : drifted m s k q -> ppos q' = ppos q -> boxLo s' = boxLo s -> boxHi s' = boxHi s -> kind (cont s') = kind (cont s) ->
    steps' s m <= steps' s' m' -> drifted m' s' k q'.
  Proof.
    intros (x0 & A & B & C) P B1 B2 K L. exists x0. rewrite B1, B2, K, P. split; [exact A|]. split; [exact B|]. eapply Rle_trans; [exact C|]. apply Rmult_le_compat_l; [exact half_pos|]. apply IZR_le, L.
  Qed.

  Lemma Dr_keep past e m r s s' : Dr past m r s -> updates [e] = 0 -> 0 <= contSteps s ->
    boxLo s' = boxLo s -> boxHi s' = boxHi s -> kind (cont s') = kind (cont s) -> contSteps s' = contSteps s ->
    (forall k q, In q (nth k (ccells (cont s')) []) -> In q (nth k (ccells (cont s)) []) \/
       (~ haloCell (boxLo s) (boxHi s) (kind (cont s)) k /\ inBox (boxLo s) (boxHi s) (ppos q) /\ cellFor (boxLo s) (boxHi s) (kind (cont s)) k (ppos q)) \/
       (haloCell (boxLo s) (boxHi s) (kind (cont s)) k /\ slotD (past ++ [e]) s' k q)) ->
    (forall p, In p (concat (bufs s')) -> In p (concat (bufs s)) \/ inBox (boxLo s) (boxHi s) (ppos p)) ->
    (forall p, In p (concat (halos s')) -> In p (concat (halos s)) \/ inGrownBox il (boxLo s) (boxHi s) (ppos p)) ->
    length (bufs s') = length (bufs s) -> length (halos s') = length (halos s) -> Dr (past ++ [e]) m r s'.
  Proof.
    intros D U C0 B1 B2 K C X Xb Xh L1 L2. constructor.
    - rewrite B1, B2, K. intros k q Hq N. destruct (X k q Hq) as [Y|[(_ & Y1 & Y2)|(Y & _)]]; [|apply drifted_self; rewrite ?B1, ?B2, ?K, ?C; assumption|contradiction].
      apply (drifted_more m m s s' k q q (dr_own _ _ _ _ D k q Y N)); auto. unfold steps'. lia.
    - rewrite B1, B2, K. intros k q Hq N. destruct (X k q Hq) as [Y|[(Y & _)|(_ & Y)]]; [|contradiction|exact Y].
      apply (slotD_more past e s s' k q q (dr_halo _ _ _ _ D k q Y N)); auto. rewrite C, U. lia.
    - rewrite B1, B2. intros Hm Hr p Hp. destruct (Xb p Hp) as [Y|Y]; [exact (dr_bufs _ _ _ _ D Hm Hr p Y)|exact Y].
    - rewrite B1, B2. intros p Hp. destruct (Xh p Hp) as [Y|Y]; [exact (dr_hbufs _ _ _ _ D p Y)|exact Y].
    - rewrite L1, L2. exact (dr_lens _ _ _ _ D).
  Qed.

  Lemma calm_moving es : calmImages spt far es -> movingImages spt far es.
  Proof.
    intros H a p t b q u c E I. destruct (H a p t b q u c E I) as [(A & B)|A]; [left|right; exact A]. split; [exact A|].
    apply dist3_within in B. eapply within_le; [|exact B]. apply Rmult_le_compat_r; [apply IZR_le; lia|]. destruct (spt_bounds cutoff spt freq Hopt) as (T1 & _). lra.
  Qed.

  Lemma owned_not_halo lo hi k c p : placeOk lo hi k c p -> pown p = 1 -> ~ haloCell lo hi k c.
  Proof. intros H O N. exact (place_owned cutoff spt freq lo hi k c p H N O). Qed.

  Definition resizedSince1 (r : bool) (e : Event) : bool := match e with Resize _ _ => true | Update _ => false | _ => r end.

  Lemma Dr_step n m r past s e s' out : Ex n m s -> Hal s -> HI past s -> bounded s -> Dr past m r s -> validCall cutoff spt freq s e -> properCall cutoff spt freq s e ->
    disciplined spt m [e] -> calm spt [e] -> calmImages spt far (past ++ [e]) -> n + computations [e] < 2 ^ 32 -> step cutoff spt freq s e (Some (s', out)) ->
    Dr (past ++ [e]) (movedSince m [e]) (resizedSince1 r e) s'.
  Proof.
    intros E Hh HI0 Bd D V Pr Di Ca Mv Bn H. pose proof (ex_inv _ _ _ n m s E) as I. destruct (ex_steps _ _ _ n m s E) as (S1 & S2).
    destruct (HI_step cutoff spt freq Hopt fac Hfac n m past s e s' out E Hh HI0 Bd V Pr (calm_moving _ Mv) H) as (HI1 & Cl).
    destruct (Ex_step cutoff spt freq Hopt n m s e s' out E V Di Bn H) as (E' & _). pose proof (ex_inv _ _ _ _ _ _ E') as I'.
    destruct Bd as (Bf & Ba). destruct (spt_bounds cutoff spt freq Hopt) as (T1 & T2 & T3 & T4). fold il skin in T2, T3, T4.
    assert (Hp' := half_pos).
    destruct e; cbn [step validCall properCall movedSince resizedSince1] in *.
    - (* AddParticle *) destruct (doAdd _ _ _ _ _ _) as [s1|] eqn:F in H; [|discriminate]. injection H as -> ->.
      unfold doAdd in F. destruct (inBoxb _ _ _) eqn:B in F; cbn [negb] in F; [|discriminate]. apply inBoxb_iff in B. destruct (valid s) eqn:Vs.
      + destruct (pushAt _ _ _) as [b|] eqn:P in F; [|discriminate]. injection F as <-. destruct (pushAt_inv P) as (L & Pm & _).
        apply (Dr_keep past _ m r s); auto; cbn [cont bufs halos withCounts withBufs]; auto. intros q Hq. apply (Permutation_in _ Pm) in Hq as [<-|Hq]; [right; exact B|left; exact Hq].
      + destruct (addOwned _ _ _ _ _ _ _) as [c|] eqn:P in F; [|discriminate]. injection F as <-.
        destruct (addOwned_inv cutoff spt freq _ _ _ _ _ P eq_refl) as (K & i & P1 & Po & C). destruct (pushAt_inv P1) as (_ & _ & X).
        apply (Dr_keep past _ m r s); auto; cbn [cont bufs halos withCounts withCont boxLo boxHi]; auto.
        intros k q Hq. apply X in Hq as [Hq|(-> & ->)]; [left; exact Hq|right; left]. split; [exact (owned_not_halo _ _ _ _ _ Po eq_refl)|]. split; [exact B|exact C].
    - (* AddHalo *) destruct (doAddHalo _ _ _ _ _ _) as [s1|] eqn:F in H; [|discriminate]. injection H as -> ->. destruct Pr as (N & G & _).
      unfold doAddHalo in F. destruct (inBoxb _ _ _) eqn:B in F; [discriminate|]. destruct (valid s) eqn:Vs.
      + destruct (updateHaloC _ _ _ _ _ _ _) as [(c, [|])|] eqn:P in F; [| |discriminate].
        * injection F as <-. destruct (updateHalo_full cutoff spt freq _ _ _ _ _ _ P eq_refl (inv_placed _ _ _ s I)) as (K & [(C & _)|(_ & i & q & rr & Q1 & Q2 & Qn & Q3 & Q4 & Q5 & P1 & P2 & X)]); [discriminate|].
          cbn [pid withOwn] in Q2. assert (Hc := place_halo cutoff spt freq _ _ _ _ _ Q4 eq_refl).
          apply (Dr_keep past _ m r s); auto; cbn [cont bufs halos withCounts withCont boxLo boxHi contSteps]; auto.
          intros k x Hx. destruct (X k x Hx) as [Y|(-> & ->)]; [left; exact Y|right; right]. split; [exact Hc|].
          destruct (dr_halo _ _ _ _ D i q Q1 Hc) as (x0 & a & p0 & t0 & b & E0 & E1 & E2 & E3 & E4 & En & E5 & E6 & E7).
          destruct (Mv a p0 t0 b p thread []) as [(M1 & M2)|M]; [rewrite E0, <- app_assoc; reflexivity|congruence| |].
          2: { exfalso. rewrite E2 in M. revert M. apply (slot_not_apart cutoff spt freq Hopt fac (boxLo s) (boxHi s) (kind (cont s)) i q (ppos p) x0 (contSteps s - updates b) Hfac Bf (inv_kind _ _ _ s I) G E5 E6 Qn).
               - eapply within_le; [|exact (dist3_within _ _ _ E7)]. apply Rmult_le_compat_r; [apply IZR_le; lia|lra].
               - assert (0 <= updates b) by (unfold updates; lia). lia. }
          exists x0, past, p, thread, []. cbn [cont withCounts withCont boxLo boxHi contSteps pid ppos withOwn]. rewrite K. change (updates []) with 0. rewrite Z.sub_0_r.
          repeat (split; [reflexivity || lia || assumption || (intros; reflexivity)|]).
          rewrite E2 in M2. eapply Rle_trans; [apply (dist3_triangle x0 (ppos q) (ppos p))|]. rewrite minus_IZR in E7. lra.
        * destruct (pushAt _ _ _) as [b|] eqn:P1 in F; [|discriminate]. injection F as <-. destruct (pushAt_inv P1) as (L & Pm & _).
          apply (Dr_keep past _ m r s); auto; cbn [cont bufs halos withCounts withBufs]; auto. intros q Hq. apply (Permutation_in _ Pm) in Hq as [<-|Hq]; [right; exact G|left; exact Hq].
      + destruct (addHaloC _ _ _ _ _ _ _) as [c|] eqn:P in F; [|discriminate]. injection F as <-.
        destruct (addHalo_inv cutoff spt freq _ _ _ _ _ P eq_refl N) as (K & i & P1 & Po & C). destruct (pushAt_inv P1) as (_ & _ & X).
        apply (Dr_keep past _ m r s); auto; cbn [cont bufs halos withCounts withCont boxLo boxHi contSteps]; auto.
        intros k q Hq. apply X in Hq as [Hq|(-> & ->)]; [left; exact Hq|right; right]. split; [exact (place_halo cutoff spt freq _ _ _ _ _ Po eq_refl)|].
        apply slotD_new; cbn [cont withCounts withCont boxLo boxHi contSteps]; [reflexivity|reflexivity|lia|exact N|exact G|rewrite K; exact C].
    - (* Delete *) destruct H as (H1 & H2 & H3). injection H3 as -> ->. unfold particleAt in H1.
      assert (W : forall s1, s1 = (if isOwned p then withCounts s (nOwned s - 1) (nHalo s) else withCounts s (nOwned s) (nHalo s - 1)) ->
        boxLo s1 = boxLo s /\ boxHi s1 = boxHi s /\ cont s1 = cont s /\ contSteps s1 = contSteps s /\ bufs s1 = bufs s /\ halos s1 = halos s).
      { intros s1 ->. destruct (isOwned p); repeat split. }
      unfold doDelete in *. set (s1 := if isOwned p then _ else _) in *. destruct (W s1 eq_refl) as (W1 & W2 & W3 & W4 & W5 & W6). clearbody s1.
      destruct at_ as [c j|b j|b j]; cbn in H1; destruct (del_perm _ _ _ _ H1) as (Pm & L & X);
        apply (Dr_keep past _ m r s); auto; cbn [cont bufs halos withCont withBufs boxLo boxHi contSteps ccells kind]; rewrite ?W3, ?W5, ?W6; auto.
      all: try (intros q Hq; left; apply (Permutation_in _ (Permutation_sym Pm)); right; exact Hq).
      all: try (intros k q Hq; left; exact (X k q Hq)).
    - (* DeleteAll *) injection H as -> ->.
      apply (Dr_keep past _ m r s); auto; cbn [doDeleteAll cont bufs halos ccells withCounts withValid withBufs withCont]; rewrite ?concat_nil, ?map_length; auto; try (now intros p []).
      intros k q Hq. exfalso. assert (X : In q (concat (map (fun _ : list Particle => [] : list Particle) (ccells (cont s))))) by (apply in_cells; exists k; exact Hq). rewrite concat_nil in X. destruct X.
    - (* Move *) injection H as -> ->. destruct Di as (-> & _). constructor; cbn [cont doMove withBufs withCont boxLo boxHi ccells kind bufs halos].
      + intros k q Hq N. apply moved_in in Hq as (p & Hp & ->). destruct (dr_own _ _ _ _ D k p Hp N) as (x0 & A1 & A2 & A3). exists x0. split; [exact A1|]. split; [exact A2|].
        unfold steps' in *. cbn [contSteps doMove withBufs withCont]. rewrite Z.add_0_r in A3. rewrite plus_IZR. unfold moved. destruct (isDummy p); cbn [ppos]; [lra|].
        eapply Rle_trans; [apply (dist3_triangle x0 (ppos p) (f p))|]. assert (Q := Ca f (or_introl eq_refl) p). lra.
      + intros k q Hq N. apply moved_in in Hq as (p & Hp & ->). 
        assert (Em : moved f p = p).
        { assert (Y := proj2 (inv_placed _ _ _ s I) k p Hp). assert (Y1 := place_owned cutoff spt freq _ _ _ _ _ Y N). unfold moved, isDummy, stDummy. destruct Y as ([Y|[Y|Y]] & _); [rewrite Y; reflexivity|contradiction|].
          rewrite (Pr p Y). destruct (pown p =? 0), p; reflexivity. }
        rewrite Em. apply (slotD_more past _ s _ k p p (dr_halo _ _ _ _ D k p Hp N)); auto. cbn. lia.
      + discriminate.
      + intros q Hq. apply moved_stored in Hq as (p & Hp & ->). assert (O := inv_halos _ _ _ s I p Hp). unfold moved, isDummy, stDummy. rewrite O. cbn [Z.eqb ppos]. rewrite (Pr p O). exact (dr_hbufs _ _ _ _ D p Hp).
      + rewrite !map_length. exact (dr_lens _ _ _ _ D).
    - (* Update *) cbn [cleared] in Cl.
      unfold doUpdate in H. set (v := listsValid freq s tunerRebuilds) in *.
      destruct (collectBuffers _ _ _ _ _ _ _ _) as [[[c1 bs] out1]|] eqn:C in H; [|discriminate].
      destruct (collectBuffers_inv cutoff spt freq _ s c1 bs out1 I C) as (K1 & P1 & B1 & Lb & O1 & Q1 & X1 & _ & Ci).
      destruct H as (r0 & U & Hr). destruct r0 as [(c2, out2)|]; [|discriminate]. injection Hr as -> ->.
      set (cst := if 0 <? calls s then newSteps s v else contSteps s) in *.
      destruct (contUpdate_inv cutoff spt freq (boxLo s) (boxHi s) _ _ c1 c2 out2 P1 ltac:(rewrite K1; apply (inv_kind _ _ _ s I)) U) as (K2 & P2 & Q2 & O2 & Kp & Kh & Kd).
      destruct (ex_calls _ _ _ n m s E) as (Ec & Hn).
      assert (Hv : v = true -> c1 = cont s /\ cst = steps s + 1).
      { intros Ev. split; [apply Ci; rewrite Ev; reflexivity|]. assert (Ev' := Ev). unfold v, listsValid in Ev. destruct ((freq <=? steps s) || tunerRebuilds) eqn:Y; [discriminate|].
        unfold cst, newSteps. rewrite Ev', Ec. assert (1 <= n) by (apply (ex_valid _ _ _ n m s E Ev)). destruct (Z.ltb_spec 0 n); lia. }
      assert (Hc0 : 0 <= cst). { unfold cst, newSteps. destruct (0 <? calls s); [destruct v; lia|lia]. }
      match goal with |- Dr _ _ _ ?x => set (s' := x) in * end.
      assert (NoH : forall k q, In q (nth k (ccells c2) []) -> pown q <> 2).
      { intros k q Hq O. assert (Y : In q (haloParticles s')); [|rewrite Cl in Y; destruct Y]. apply filter_In. split; [|apply Z.eqb_eq, O]. apply in_or_app. left. apply in_cells. exists k. exact Hq. }
      constructor; cbn [cont boxLo boxHi bufs halos s'].
      + intros k q Hq N. rewrite K2 in N. destruct (proj1 (proj2 P2 k q Hq)) as [O|[O|O]]; [|..|destruct (NoH k q Hq O)].
        * destruct (Kd k q Hq O) as (Ev & q0 & Hq0 & ->). destruct (Hv Ev) as (-> & Ecs). apply (drifted_more m false s s' k q0); auto; [apply (dr_own _ _ _ _ D k q0 Hq0 N)|].
          unfold steps'. cbn [contSteps s']. rewrite Ecs. destruct m; lia.
        * assert (Kq := Kp k q Hq O). unfold kept in Kq. destruct v eqn:Ev.
          -- destruct (Hv eq_refl) as (-> & Ecs). destruct Kq as (Hq1 & _). apply (drifted_more m false s s' k q); auto; [apply (dr_own _ _ _ _ D k q Hq1 N)|].
             unfold steps'. cbn [contSteps s']. rewrite Ecs. destruct m; lia.
          -- destruct Kq as (_ & B & Cf). apply drifted_self; cbn [contSteps cont boxLo boxHi s']; [exact Hc0|exact B|]. rewrite K2. exact Cf.
      + intros k q Hq N. assert (Y := proj2 P2 k q Hq). assert (Y1 := place_owned cutoff spt freq _ _ _ _ _ Y N). rewrite K2 in N. destruct (proj1 Y) as [O|[O|O]]; [|contradiction|destruct (NoH k q Hq O)].
        destruct (Kd k q Hq O) as (Ev & q0 & Hq0 & ->). destruct (Hv Ev) as (-> & Ecs).
        apply (slotD_more past _ s _ k q0 (withOwn 0 q0) (dr_halo _ _ _ _ D k q0 Hq0 N)); cbn [boxLo boxHi cont contSteps s']; auto; [discriminate|]. rewrite Ecs. cbn. lia.
      + intros _ _ p Hp. apply B1, Hp.
      + rewrite concat_nil. intros p [].
      + rewrite map_length, Lb. exact (dr_lens _ _ _ _ D).
    - (* Compute *) destruct Di as (-> & _). destruct (doCompute _ _ _ _ _ _) as [s1|] eqn:F in H; [|discriminate]. injection H as -> ->.
      unfold doCompute in F. destruct (select cutoff spt freq s selected) as [s2|] eqn:Se; [|discriminate].
      destruct (select_inv cutoff spt freq selected s s2 Se I V) as (J & A1 & A2 & A3 & A4 & A5 & A6 & A7 & A8 & A9 & QO & QH & C).
      assert (G : cont s1 = cont s2 /\ contSteps s1 = contSteps s2 /\ boxLo s1 = boxLo s2 /\ boxHi s1 = boxHi s2 /\
        Permutation (concat (bufs s2)) (concat (bufs s1)) /\ Permutation (concat (halos s2)) (concat (halos s1)) /\ length (bufs s1) = length (bufs s2) /\ length (halos s1) = length (halos s2)).
      { destruct pairwise; [|injection F as <-; cbn; auto 9].
        destruct (balance_correct (bufs s2) 1 (le_n 1)) as (b & Eb & Pb & Lb & _). destruct (balance_correct (halos s2) 1 (le_n 1)) as (h & Eh & Ph & Lh & _).
        rewrite Eb, Eh in F. injection F as <-. cbn; auto 9. }
      destruct G as (G1 & G2 & G3 & G4 & G5 & G6 & G7 & G8). rewrite A3 in G5, G7. rewrite A4 in G6, G8.
      constructor.
      + rewrite G1, G3, G4, A1, A2. intros k q Hq N. destruct C as [(C1 & C2 & C3)|(C1 & C2 & C3 & C4)].
        * rewrite C1 in Hq. rewrite C2 in N. apply (drifted_more false false s s1 k q q (dr_own _ _ _ _ D k q Hq N)); try congruence. unfold steps'. rewrite G2, C3. lia.
        * destruct (C4 k q Hq) as (D1 & D2 & D3). apply drifted_self; rewrite ?G1, ?G2, ?G3, ?G4, ?A1, ?A2, ?C1; [lia| |exact D3].
          assert (Hq' : In q (concat (ccells (cont s2)))) by (apply in_cells; exists k; exact Hq). apply (C3 q Hq').
          assert (Y := proj2 (inv_placed _ _ _ s2 J) k q Hq). rewrite A1, A2 in Y. destruct (proj1 Y) as [O|[O|O]]; [contradiction|exact O|]. destruct N. exact (place_halo cutoff spt freq _ _ _ _ _ Y O).
      + rewrite G1, G3, G4, A1, A2. intros k q Hq N. destruct C as [(C1 & C2 & C3)|(C1 & C2 & C3 & C4)].
        * rewrite C1 in Hq. rewrite C2 in N. apply (slotD_more past _ s s1 k q q (dr_halo _ _ _ _ D k q Hq N)); auto; [congruence..|]. rewrite G2, C3. cbn. lia.
        * destruct (C4 k q Hq) as (D1 & D2 & D3).
          assert (Y := proj2 (inv_placed _ _ _ s2 J) k q Hq). rewrite A1, A2 in Y. assert (Y1 := place_owned cutoff spt freq _ _ _ _ _ Y N).
          destruct (proj1 Y) as [O|[O|O]]; [contradiction|contradiction|]. destruct (Hh q D1 O) as (N' & Gr).
          apply in_cells in D1 as (k0 & D1). assert (Hc := place_halo cutoff spt freq _ _ _ _ _ (proj2 (inv_placed _ _ _ s I) k0 q D1) O).
          destruct (dr_halo _ _ _ _ D k0 q D1 Hc) as (x0 & a & p & t & b & E0 & E1 & E2 & E3 & _).
          exists (ppos q), a, p, t, (b ++ [Compute pairwise selected]). rewrite updates_app, (E3 O), G1, G2, G3, G4, A1, A2, C1. change (updates [Compute pairwise selected]) with 0. cbn [Z.add Z.sub Z.opp].
          split; [rewrite E0, <- app_assoc; reflexivity|]. repeat (split; [reflexivity || lia || assumption || (intros; reflexivity)|]). rewrite dist3_refl, Rmult_0_r. lra.
      + rewrite G3, G4, A1, A2. intros _ Hr p Hp. apply (dr_bufs _ _ _ _ D eq_refl Hr). apply (Permutation_in _ (Permutation_sym G5)), Hp.
      + rewrite G3, G4, A1, A2. intros p Hp. apply (dr_hbufs _ _ _ _ D). apply (Permutation_in _ (Permutation_sym G6)), Hp.
      + rewrite G7, G8. exact (dr_lens _ _ _ _ D).
    - (* Resize *) destruct V as (V1 & V2).
      destruct (resize_inv cutoff spt freq s lo hi s' out I V1 V2 (eq_sym H)) as [(-> & _)|(E1 & E2 & K & P & Cs & Bu & Hl & Va & St & Cc & C & Nh & O & N2 & Q & X)].
      + assert (Dr (past ++ [Resize lo hi]) m r s) as [D1 D2 D3 D4 D5] by (apply (Dr_keep past _ m r s); auto). constructor; auto. discriminate.
      + constructor.
        * intros k q Hq N. destruct (X k q Hq) as (Y1 & Y2 & Y3). apply drifted_self; rewrite ?E1, ?E2; [lia|exact Y2|exact Y3].
        * intros k q Hq N. exfalso. destruct (X k q Hq) as (Y & _). rewrite E1, E2 in N. exact (owned_not_halo _ _ _ _ _ (proj2 P k q Hq) Y N).
        * discriminate.
        * rewrite Hl. intros p Hp. exfalso. assert (Y : In p (haloParticles s)); [|rewrite Pr in Y; destruct Y]. apply filter_In. split; [|apply Z.eqb_eq, (inv_halos _ _ _ s I p Hp)].
          unfold stored. rewrite !in_app_iff. auto.
        * rewrite Bu, Hl. exact (dr_lens _ _ _ _ D).
  Qed.
End Drift.
