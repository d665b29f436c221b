(** Histories that meet the hypotheses of C26 to C29, and histories where they fail. *)
From Coq Require Import Reals Lra.
From Verif.Base Require Import ZRange Lists Occ.
From Verif.Grid Require Import IndexModel IndexSpec IndexProofs CellBlockModel CellBlockSpec CellBlockProofs CellBlockExact.
From Verif.Functor Require Import SortModel SortSpec.
From Verif.Container Require Import LinkedCellsModel LinkedCellsSpec LinkedCellsGeo IteratorModel IteratorContainers IteratorRegion
  ParticleModel CollectModel CollectSpec UpdateModel UpdateExample ForEachModel.
From Verif.Logic Require Import BalanceModel BalanceProofs HandlerModel HandlerSpec HandlerCont HandlerUpdate HandlerProofs HandlerExact HandlerTotal HandlerFields HandlerHalo HandlerAge.
Import ListNotations.
Local Open Scope Z_scope.

Section Frame.
  Variables (cutoff spt : R) (freq : Z).
  Hypothesis Hopt : validOptions cutoff spt freq.
  Notation step := (step cutoff spt freq).

  Definition sameFrame (s s' : State) : Prop :=
    boxLo s' = boxLo s /\ boxHi s' = boxHi s /\ length (bufs s') = length (bufs s) /\ length (halos s') = length (halos s).

  Lemma pushAt_len (cells : list (list Particle)) i p cells' : pushAt cells i p = Some cells' -> length cells' = length cells.
  Proof. intros H. apply (pushAt_inv H). Qed.
  Lemma select_frame : forall ks s s', select cutoff spt freq s ks = Some s' -> sameFrame s s'.
  Proof.
    induction ks as [|k r IH]; intros s s' E; cbn [select] in E; [injection E as <-; unfold sameFrame; auto|].
    destruct (sameKind _ _); [auto|]. destruct (generate _ _ _ _ _ _ _); [|discriminate]. apply IH in E. exact E.
  Qed.
  Lemma balance_len (l l' : list (list Particle)) : balanceVectors 1 l = Some l' -> length l' = length l.
  Proof. intros E. destruct (balance_correct l 1 (le_n 1)) as (v & E' & _ & L & _). congruence. Qed.
  Lemma sweep_len lo hi : forall bs bs' out, buffersSweep lo hi bs = Some (bs', out) -> length bs' = length bs.
  Proof.
    induction bs as [|l r IH]; intros bs' out E; cbn [buffersSweep] in E; [injection E as <- _; reflexivity|].
    destruct (bufferSweep _ _ _ _ _ _) as [[l' o]|]; [|discriminate]. destruct (buffersSweep lo hi r) as [[r' o']|]; [|discriminate].
    injection E as <- _. cbn [length]. rewrite (IH r' o' eq_refl). reflexivity.
  Qed.
  Lemma step_frame s e s' out : (forall lo hi, e <> Resize lo hi) -> (forall p l, e <> Delete p l) -> step s e (Some (s', out)) -> sameFrame s s'.
  Proof.
    intros NR ND. destruct e; cbn [HandlerModel.step]; intros E.
    - unfold quiet, doAdd in E. destruct (negb _); [discriminate|]. destruct (valid s).
      + destruct (pushAt _ _ _) eqn:P; cbn in E; [|discriminate]. injection E as -> _. unfold sameFrame. cbn. rewrite (pushAt_len _ _ _ _ P). auto.
      + destruct (addOwned _ _ _ _ _ _ _); cbn in E; [|discriminate]. injection E as -> _. unfold sameFrame. cbn. auto.
    - unfold quiet, doAddHalo in E. destruct (inBoxb _ _ _); [discriminate|]. destruct (valid s).
      + destruct (updateHaloC _ _ _ _ _ _ _) as [[c [|]]|]; [| |discriminate].
        * cbn in E. injection E as -> _. unfold sameFrame. cbn. auto.
        * destruct (pushAt _ _ _) eqn:P; cbn in E; [|discriminate]. injection E as -> _. unfold sameFrame. cbn. rewrite (pushAt_len _ _ _ _ P). auto.
      + destruct (addHaloC _ _ _ _ _ _ _); cbn in E; [|discriminate]. injection E as -> _. unfold sameFrame. cbn. auto.
    - destruct (ND p at_ eq_refl).
    - injection E as -> _. unfold sameFrame. cbn. rewrite !map_length. auto.
    - injection E as -> _. unfold sameFrame. cbn. rewrite !map_length. auto.
    - unfold doUpdate in E. cbv zeta in E. destruct (collectBuffers _ _ _ _ _ _ _ _) as [[[c1 bs] out1]|] eqn:C; [|discriminate].
      destruct E as (r & _ & E). destruct r as [[c2 out2]|]; [|discriminate]. injection E as -> _. unfold sameFrame. cbn [boxLo boxHi bufs halos]. rewrite map_length.
      unfold collectBuffers in C. destruct (negb _).
      + destruct (bufferInsert _ _ _ _ _ _ _) as [[c o]|]; [|discriminate]. injection C as _ <- _. rewrite map_length. auto.
      + destruct (buffersSweep _ _ _) as [[b o]|] eqn:S; [|discriminate]. injection C as _ <- _. rewrite (sweep_len _ _ _ _ _ S). auto.
    - unfold quiet, doCompute in E. destruct (select _ _ _ _ _) as [s1|] eqn:S; [|discriminate]. apply select_frame in S. destruct S as (A1 & A2 & A3 & A4).
      destruct pairwise.
      + destruct (balanceVectors 1 (bufs s1)) eqn:B1; [|discriminate]. destruct (balanceVectors 1 (halos s1)) eqn:B2; [|discriminate].
        apply balance_len in B1. apply balance_len in B2. injection E as -> _. unfold sameFrame. cbn [boxLo boxHi bufs halos]. rewrite B1, B2. auto.
      + injection E as -> _. unfold sameFrame. cbn [boxLo boxHi bufs halos]. auto.
    - destruct (NR lo hi eq_refl).
  Qed.

  (** Calls that are proper whatever the state is. *)
  Definition simpleCall (lo hi : R3) (threads : nat) (e : Event) : Prop :=
    match e with
    | AddParticle p t => inBox lo hi (ppos p) /\ (t < threads)%nat
    | AddHalo p t => ~ inBox lo hi (ppos p) /\ inGrownBox (cutoff + spt * IZR freq) lo hi (ppos p) /\ (t < threads)%nat
    | Move f => forall p, pown p = 2 -> f p = ppos p
    | Compute _ ks => Forall (validKind cutoff spt freq lo hi) ks
    | Delete _ _ | Resize _ _ => False
    | _ => True
    end.

  Lemma proper_app s h s1 e out s2 : properHistory cutoff spt freq s h s1 -> validCall cutoff spt freq s1 e -> properCall cutoff spt freq s1 e -> step s1 e (Some (s2, out)) ->
    properHistory cutoff spt freq s (h ++ [(e, out)]) s2.
  Proof. induction 1; intros; cbn [app]; econstructor; eauto. constructor. Qed.

  (** Any sequence of such calls can be made. *)
  Lemma run_exists k lo hi threads es : validBox cutoff spt freq lo hi -> validKind cutoff spt freq lo hi k -> Forall (simpleCall lo hi threads) es ->
    disciplined spt false es -> computations es < 2 ^ 32 ->
    exists h s, map fst h = es /\ properHistory cutoff spt freq (initial cutoff spt freq k lo hi threads) h s.
  Proof.
    intros Vb Vk. set (s0 := initial _ _ _ _ _ _ _). assert (V0 : validStart cutoff spt freq s0) by (exists k, lo, hi, threads; auto).
    cut (Forall (simpleCall lo hi threads) es -> disciplined spt false es -> computations es < 2 ^ 32 ->
         exists h s, map fst h = es /\ properHistory cutoff spt freq s0 h s /\ sameFrame s0 s).
    { intros C A B D. destruct (C A B D) as (h & s & H1 & H2 & _). exists h, s. auto. }
    induction es as [|e es IH] using rev_ind; intros A D C.
    - exists [], s0. split; [reflexivity|]. split; [constructor|]. unfold sameFrame. auto.
    - apply Forall_app in A. destruct A as (A & A'). inversion A' as [|? ? Ae _]; subst. rewrite computations_app in C. assert (Q := computations_pos [e]).
      pose proof (disciplined_app spt _ _ _ D) as (D1 & _).
      destruct (IH A D1 ltac:(lia)) as (h & s & E & P & F). destruct F as (F1 & F2 & F3 & F4). cbn [s0 initial boxLo boxHi bufs halos] in F1, F2, F3, F4. rewrite repeat_length in F3, F4.
      assert (Vc : validCall cutoff spt freq s e) by (destruct e; cbn in *; rewrite ?F1, ?F2; tauto).
      assert (Pc : properCall cutoff spt freq s e) by (destruct e; cbn in *; rewrite ?F1, ?F2, ?F3, ?F4; tauto).
      destruct (no_failure cutoff spt freq Hopt s0 h s e V0 P) as (((s2 & out) & St) & _); auto.
      { rewrite E. exact D. } { rewrite E, computations_app. lia. }
      exists (h ++ [(e, out)]), s2. split; [rewrite map_app, E; reflexivity|]. split; [eapply proper_app; eassumption|].
      apply step_frame in St; [|destruct e; try discriminate; destruct Ae|destruct e; try discriminate; destruct Ae].
      destruct St as (G1 & G2 & G3 & G4). unfold sameFrame. rewrite G1, G2, G3, G4, F1, F2, F3, F4. unfold s0. cbn [initial boxLo boxHi bufs halos]. rewrite repeat_length. auto.
  Qed.
End Frame.

(** The box [0,3)^3, cutoff 1/2, skin 1/4 per step, lists are rebuilt every 2 steps. *)
Definition xLo : R3 := mkR3 0 0 0.
Definition xHi : R3 := mkR3 3 3 3.
Definition xA : Particle := mkParticle 1 (mkR3 (1 / 2) (1 / 2) (1 / 2)) 1 0.
Definition xB : Particle := mkParticle 2 (mkR3 (295 / 100) (1 / 2) (1 / 2)) 1 0.
Definition xC : Particle := mkParticle 3 (mkR3 (3 / 2) (1 / 2) (1 / 2)) 1 0.
Definition xH : Particle := mkParticle 9 (mkR3 (-1 / 2) (1 / 2) (1 / 2)) 1 0.
Definition xH' : Particle := mkParticle 9 (mkR3 (-3 / 8) (1 / 2) (1 / 2)) 1 0.
(** Another image of the particle. *)
Definition xG : Particle := mkParticle 9 (mkR3 (-1 / 2) (36 / 10) (1 / 2)) 1 0.
Definition xMove (p : Particle) : R3 := if pown p =? 2 then ppos p else mkR3 (rx (ppos p) + 1 / 8) (ry (ppos p)) (rz (ppos p)).
(** Two computations on linked cells and direct sum, a particle that is added to a
    buffer, and one that leaves the box. *)
Definition xEvents : list Event :=
  [AddParticle xA 0; AddParticle xB 0; AddHalo xH 0; AddHalo xG 0; Compute true [KLinkedCells 1]; AddParticle xC 0; Move xMove; Update false; AddHalo xH' 0;
   Compute true [KDirectSum; KLinkedCells 1]].

Lemma x_il : (1 / 2 + 1 / 4 * IZR 2 = 1)%R. Proof. lra. Qed.
Lemma x_opt : validOptions (1 / 2) (1 / 4) 2. Proof. unfold validOptions. split; [lra|split; [lra|lia]]. Qed.
Lemma x_box : validBox (1 / 2) (1 / 4) 2 xLo xHi. Proof. unfold validBox. rewrite x_il. unfold atLeast. cbn [xLo xHi rx ry rz]. lra. Qed.
Lemma x_kind : validKind (1 / 2) (1 / 4) 2 xLo xHi (KLinkedCells 1). Proof. unfold validKind. rewrite x_il. exact ex_grid. Qed.
Lemma x_within p : within (1 / 4) (ppos p) (xMove p).
Proof. unfold within, xMove. destruct (pown p =? 2); cbn [rx ry rz]; repeat split; unfold Rabs; destruct (Rcase_abs _); lra. Qed.
Lemma x_calm p : (dist3 (ppos p) (xMove p) <= 1 / 4 / 2)%R.
Proof.
  apply dist3_sq; [lra|]. unfold xMove, dot, rsub. destruct (pown p =? 2); cbn [rx ry rz]; unfold Rminus; rewrite ?Rplus_opp_r; [lra|].
  replace (rx (ppos p) + - (rx (ppos p) + 1 / 8))%R with (- (1 / 8))%R by ring. lra.
Qed.
Lemma x_disc : disciplined (1 / 4) false xEvents.
Proof. cbn [disciplined xEvents]. repeat split; try apply x_within. Qed.
Lemma x_simple : Forall (simpleCall (1 / 2) (1 / 4) 2 xLo xHi 1) xEvents.
Proof.
  assert (Ho : ~ inBox xLo xHi (ppos xH) /\ ~ inBox xLo xHi (ppos xH') /\ ~ inBox xLo xHi (ppos xG)) by (unfold inBox, xLo, xHi; cbn [ppos xH xH' xG rx ry rz]; lra).
  assert (Gr : inGrownBox 1 xLo xHi (ppos xH) /\ inGrownBox 1 xLo xHi (ppos xH') /\ inGrownBox 1 xLo xHi (ppos xG)) by (unfold inGrownBox, growLow, growHigh, inBox, xLo, xHi; cbn [ppos xH xH' xG rx ry rz]; lra).
  assert (In' : inBox xLo xHi (ppos xA) /\ inBox xLo xHi (ppos xB) /\ inBox xLo xHi (ppos xC)) by (unfold inBox, xLo, xHi; cbn [ppos xA xB xC rx ry rz]; lra).
  apply Forall_forall. intros e He. cbn [In xEvents] in He. pose proof x_kind as K.
  destruct He as [<-|[<-|[<-|[<-|[<-|[<-|[<-|[<-|[<-|[<-|[]]]]]]]]]]]; cbn [simpleCall]; rewrite ?x_il.
  1,2,6: split; [tauto|lia].
  1,2,6: split; [tauto|split; [tauto|lia]].
  - constructor; [exact K|constructor].
  - intros p O. unfold xMove. rewrite O. reflexivity.
  - exact Logic.I.
  - constructor; [exact Logic.I|constructor; [exact K|constructor]].
Qed.
Lemma cons_split {A} (x y : A) l a r : x :: l = a ++ y :: r -> (a = [] /\ x = y /\ l = r) \/ exists a', a = x :: a' /\ l = a' ++ y :: r.
Proof. destruct a as [|z a]; cbn [app]; intros E; injection E as -> E; [left; auto|right; exists a; auto]. Qed.
Ltac splits E :=
  lazymatch type of E with
  | _ :: _ = _ ++ _ => apply cons_split in E; let X := fresh "X" in let a := fresh "a" in
      destruct E as [(-> & X & E)|(a & -> & E)]; [try discriminate X|splits E]
  | [] = _ => exfalso; exact (app_cons_not_nil _ _ _ E)
  end.
Lemma x_far : imageDistance (1 / 2) (1 / 4) 2 1 = 3%R.
Proof. unfold imageDistance. lra. Qed.
Lemma x_cases a p t b q u c : xEvents = a ++ AddHalo p t :: b ++ AddHalo q u :: c ->
  (p = xH /\ q = xG /\ updates b = 0) \/ (p = xH /\ q = xH' /\ updates b = 1) \/ (p = xG /\ q = xH' /\ updates b = 1).
Proof.
  unfold xEvents. intros E.
  splits E; splits E; injection X as <- <-; injection X0 as <- <-; [left|right; left|right; right]; repeat split.
Qed.
Lemma x_images : movingImages (1 / 4) (imageDistance (1 / 2) (1 / 4) 2 1) xEvents.
Proof.
  rewrite x_far. intros a p t b q u c E _. apply x_cases in E as [(-> & -> & U)|[(-> & -> & U)|(-> & -> & U)]]; rewrite U.
  - right. right. left. cbn [ppos xH xG ry]. unfold Rabs. destruct (Rcase_abs _); lra.
  - left. split; [lia|]. unfold within; cbn [ppos xH xH' rx ry rz]; repeat split; unfold Rabs; destruct (Rcase_abs _); lra.
  - right. right. left. cbn [ppos xH' xG ry]. unfold Rabs. destruct (Rcase_abs _); lra.
Qed.
Lemma x_calmImages : calmImages (1 / 4) (imageDistance (1 / 2) (1 / 4) 2 1) xEvents.
Proof.
  rewrite x_far. intros a p t b q u c E _. apply x_cases in E as [(-> & -> & U)|[(-> & -> & U)|(-> & -> & U)]]; rewrite U.
  - right. right. left. cbn [ppos xH xG ry]. unfold Rabs. destruct (Rcase_abs _); lra.
  - left. split; [lia|]. apply dist3_sq; [lra|]. unfold dot, rsub. cbn [ppos xH xH' rx ry rz]. lra.
  - right. right. left. cbn [ppos xH' xG ry]. unfold Rabs. destruct (Rcase_abs _); lra.
Qed.
Lemma x_factors : factorsAtMost 1 xEvents.
Proof.
  intros pw ks H. cbn [xEvents In] in H. repeat (destruct H as [H|H]; [first [discriminate H|injection H as <- <-; repeat constructor; cbn; lra]|]). destruct H.
Qed.
Lemma x_history : exists h s, map fst h = xEvents /\ validStart (1 / 2) (1 / 4) 2 (initial (1 / 2) (1 / 4) 2 (KLinkedCells 1) xLo xHi 1) /\
  properHistory (1 / 2) (1 / 4) 2 (initial (1 / 2) (1 / 4) 2 (KLinkedCells 1) xLo xHi 1) h s /\ history (1 / 2) (1 / 4) 2 (initial (1 / 2) (1 / 4) 2 (KLinkedCells 1) xLo xHi 1) h s /\
  disciplined (1 / 4) false (map fst h) /\ computations (map fst h) < 2 ^ 32 /\ movingImages (1 / 4) (imageDistance (1 / 2) (1 / 4) 2 1) (map fst h) /\ calm (1 / 4) (map fst h) /\ rebuildsLists s = false.
Proof.
  destruct (run_exists (1 / 2) (1 / 4) 2 x_opt (KLinkedCells 1) xLo xHi 1 xEvents x_box x_kind x_simple x_disc eq_refl) as (h & s & E & P).
  exists h, s. assert (Hh := proper_history _ _ _ _ _ _ P).
  refine (conj E (conj _ (conj P (conj Hh _)))); [exists (KLinkedCells 1), xLo, xHi, 1%nat; split; [exact x_box|split; [exact x_kind|reflexivity]]|].
  rewrite E. refine (conj x_disc (conj eq_refl (conj x_images (conj _ _)))).
  - intros f Hf p. cbn [In xEvents] in Hf. destruct Hf as [Q|[Q|[Q|[Q|[Q|[Q|[Q|[Q|[Q|[Q|[]]]]]]]]]]]; try discriminate. injection Q as <-. apply x_calm.
  - assert (T : forall s0 h s, history (1 / 2) (1 / 4) 2 s0 h s -> forall pre pw ks, map fst h = pre ++ [Compute pw ks] -> valid s = true).
    { clear. induction 1 as [|s e out s1 h s2 V S H IH]; intros pre pw ks E; [destruct pre; discriminate|]. cbn [map fst] in E. destruct pre as [|x pre].
      - cbn [app] in E. injection E as -> E. destruct h; [|discriminate]. inversion H; subst. apply step_fields in S. apply S.
      - cbn [app] in E. injection E as _ E. apply (IH _ _ _ E). }
    unfold rebuildsLists. rewrite (T _ _ _ Hh [AddParticle xA 0; AddParticle xB 0; AddHalo xH 0; AddHalo xG 0; Compute true [KLinkedCells 1]; AddParticle xC 0; Move xMove; Update false; AddHalo xH' 0] true [KDirectSum; KLinkedCells 1] E). reflexivity.
Qed.

(** resizeBox does not look at the buffers: a particle that was added while neighbour
    lists are valid stays, outside of the new box, and is not returned. *)
Lemma resize_refuted : let s := initial (1 / 2) (1 / 4) 2 KDirectSum xLo xHi 1 in let hi := mkR3 2 3 3 in
  exists h s1 s2, validStart (1 / 2) (1 / 4) 2 s /\ properHistory (1 / 2) (1 / 4) 2 s h s1 /\ disciplined (1 / 4) false (map fst h) /\
    validCall (1 / 2) (1 / 4) 2 s1 (Resize xLo hi) /\ properCall (1 / 2) (1 / 4) 2 s1 (Resize xLo hi) /\
    HandlerModel.step (1 / 2) (1 / 4) 2 s1 (Resize xLo hi) (Some (s2, [])) /\ In xB (ownedParticles s2) /\ ~ inBox (boxLo s2) (boxHi s2) (ppos xB).
Proof.
  intros s hi. set (s1 := mkState xLo xHi (mkCont KDirectSum (repeat [] 7)) 0 [[xB]] [[]] true 0 1 1 0).
  exists [(Compute false [], []); (AddParticle xB 0, [])], s1, (mkState xLo hi (mkCont KDirectSum (repeat [] 7)) 0 [[xB]] [[]] false 0 1 1 0).
  assert (B : inBox xLo xHi (ppos xB)) by (unfold inBox, xLo, xHi; cbn [ppos xB rx ry rz]; lra).
  split; [exists KDirectSum, xLo, xHi, 1%nat; split; [exact x_box|split; [exact Logic.I|reflexivity]]|].
  split; [|split; [|split; [|split; [|split; [|split]]]]].
  - econstructor; [constructor|exact Logic.I|reflexivity|]. cbn [quiet]. econstructor; [exact Logic.I|split; [exact B|cbn; lia]| |].
    + cbn -[inBoxb xLo xHi xB]. unfold doAdd. cbn -[inBoxb xLo xHi xB]. rewrite (proj2 (inBoxb_iff xLo xHi (ppos xB)) B). cbn -[xLo xHi]. reflexivity.
    + change (withOwn stOwned xB) with xB. constructor.
  - cbn. auto.
  - cbn [validCall s1 cont kind]. split; [|exact Logic.I]. unfold validBox. rewrite x_il. unfold atLeast. cbn [xLo hi rx ry rz]. lra.
  - cbn. reflexivity.
  - cbn [step]. unfold doResize, sameR3. cbn [s1 boxLo boxHi xLo xHi hi rx ry rz].
    repeat (destruct (Req_EM_T _ _); try lra). all: cbn [andb].
    all: repeat (destruct (Rlt_dec _ _); try lra). all: reflexivity.
  - cbn. auto.
  - cbn [boxLo boxHi]. unfold inBox, xLo, hi. cbn [ppos xB rx ry rz]. lra.
Qed.

(** A halo particle that is passed twice between two updates is counted twice. *)
Lemma twice_refuted : let s := initial (1 / 2) (1 / 4) 2 KDirectSum xLo xHi 1 in
  exists h s1, validStart (1 / 2) (1 / 4) 2 s /\ properHistory (1 / 2) (1 / 4) 2 s h s1 /\ disciplined (1 / 4) false (map fst h) /\
    nHalo s1 = 2 /\ length (haloParticles s1) = 1%nat.
Proof.
  intros s. set (q := withOwn stHalo xH).
  exists [(AddHalo xH 0, []); (Compute false [], []); (AddHalo xH 0, [])], (mkState xLo xHi (mkCont KDirectSum [[]; [q]; []; []; []; []; []]) 0 [[]] [[]] true 0 1 0 2).
  assert (B : ~ inBox xLo xHi (ppos xH)) by (unfold inBox, xLo, xHi; cbn [ppos xH rx ry rz]; lra).
  assert (B' : inBoxb xLo xHi (ppos xH) = false) by (destruct (inBoxb xLo xHi (ppos xH)) eqn:E; [apply inBoxb_iff in E; tauto|reflexivity]).
  assert (G : inGrownBox 1 xLo xHi (ppos xH)) by (unfold inGrownBox, growLow, growHigh, inBox, xLo, xHi; cbn [ppos xH rx ry rz]; lra).
  assert (P : forall s, boxLo s = xLo -> boxHi s = xHi -> length (halos s) = 1%nat -> properCall (1 / 2) (1 / 4) 2 s (AddHalo xH 0)).
  { intros s' E1 E2 E3. cbn [properCall]. rewrite E1, E2, E3, x_il. split; [exact B|split; [exact G|lia]]. }
  split; [exists KDirectSum, xLo, xHi, 1%nat; split; [exact x_box|split; [exact Logic.I|reflexivity]]|].
  split; [|split; [cbn; auto|split; reflexivity]].
  apply (proper_cons _ _ _ _ _ _ (mkState xLo xHi (mkCont KDirectSum [[]; [q]; []; []; []; []; []]) 0 [[]] [[]] false 0 0 0 1)); [exact Logic.I|apply P; reflexivity| |].
  { cbn [HandlerModel.step]. unfold doAddHalo. cbn [s initial boxLo boxHi valid]. rewrite B'. unfold addHaloC. cbn [cont kind].
    unfold dsHaloCell. cbn [ppos xLo xHi rx ry rz withOwn xH]. destruct (Rlt_dec (-1 / 2) 0); [|lra]. reflexivity. }
  apply (proper_cons _ _ _ _ _ _ (mkState xLo xHi (mkCont KDirectSum [[]; [q]; []; []; []; []; []]) 0 [[]] [[]] true 0 1 0 1)); [constructor|exact Logic.I|reflexivity|].
  apply (proper_cons _ _ _ _ _ _ (mkState xLo xHi (mkCont KDirectSum [[]; [q]; []; []; []; []; []]) 0 [[]] [[]] true 0 1 0 2)); [exact Logic.I|apply P; reflexivity| |constructor].
  cbn [HandlerModel.step]. unfold doAddHalo. cbn [boxLo boxHi valid cont]. rewrite B'. unfold updateHaloC. cbn [kind ccells].
  unfold dsUpdateCells, skin. cbv zeta. cbn [ppos xLo xHi rx ry rz withOwn xH]. destruct (Rlt_dec (-1 / 2) _); [|lra]. cbn [app updateCells].
  change (at_ [[]; [q]; []; []; []; []; []] (2 * 0 + 1)) with (Some [q]). cbn iota beta. cbn [updateCell q pid withOwn xH Z.eqb Pos.eqb andb].
  assert (Cl : closeBy (1 / 4 * 2 / 2) (mkR3 (-1 / 2) (1 / 2) (1 / 2)) q = true) by (unfold closeBy, q; cbn [ppos withOwn xH rx ry rz]; destruct (Rlt_dec _ _) as [|N]; [reflexivity|exfalso; apply N; lra]).
  rewrite Cl. reflexivity.
Qed.

(** A computation can replace the container although the neighbour lists are considered
    valid, so that nothing is rebuilt: the lists of the new container are never built. *)
Lemma switch_refuted : let s := initial (1 / 2) (1 / 4) 2 KDirectSum xLo xHi 1 in
  exists h s1 s2, validStart (1 / 2) (1 / 4) 2 s /\ properHistory (1 / 2) (1 / 4) 2 s h s1 /\ disciplined (1 / 4) false (map fst h) /\
    rebuildsLists s1 = false /\ HandlerModel.step (1 / 2) (1 / 4) 2 s1 (Compute false [KLinkedCells 1]) (Some (s2, [])) /\
    kind (cont s1) = KDirectSum /\ kind (cont s2) = KLinkedCells 1 /\ rebuildsLists s2 = false.
Proof.
  intros s. set (s1 := mkState xLo xHi (mkCont KDirectSum (repeat [] 7)) 0 [[]] [[]] true 0 1 0 0).
  exists [(Compute true [KDirectSum], [])], s1.
  exists (mkState xLo xHi (mkCont (KLinkedCells 1) (emptyCells (1 / 2) (1 / 4) 2 (KLinkedCells 1) xLo xHi)) 0 [[]] [[]] true 0 2 0 0).
  split; [exists KDirectSum, xLo, xHi, 1%nat; split; [exact x_box|split; [exact Logic.I|reflexivity]]|].
  split; [|split; [cbn; auto|repeat split]].
  econstructor; [constructor; [exact Logic.I|constructor]|exact Logic.I|reflexivity|]. constructor.
Qed.

(** The counter of functor calls is 32 bits wide.  When it is zero again, the steps are
    not counted and neighbour lists are used forever. *)
Definition wState (v : bool) (c : Z) : State := mkState xLo xHi (mkCont KDirectSum (repeat [] 7)) 0 [] [] v 0 c 0 0.
Lemma w_compute v c : 0 <= c -> HandlerModel.step (1 / 2) (1 / 4) 2 (wState v c) (Compute false []) (Some (wState true ((c + 1) mod 2 ^ 32), [])).
Proof. intros H. reflexivity. Qed.
Lemma empty_visits vols f n : regionVisits vols f (repeat [] n) = [].
Proof.
  unfold regionVisits. induction vols as [|v r IH]; [reflexivity|]. cbn [flat_map]. rewrite IH, app_nil_r.
  induction (f v) as [|c l IH']; [reflexivity|]. cbn [flat_map]. rewrite IH', nth_repeat. reflexivity.
Qed.
Lemma w_update : HandlerModel.step (1 / 2) (1 / 4) 2 (wState true 0) (Update false) (Some (wState true 0, [])).
Proof.
  cbn [HandlerModel.step]. unfold doUpdate. change (listsValid 2 (wState true 0) false) with true. cbn [negb].
  unfold collectBuffers. cbn [wState bufs buffersSweep]. cbv zeta.
  exists (Some (mkCont KDirectSum (repeat [] 7), [])). split; [|reflexivity].
  unfold contUpdate. cbn [kind cont ccells]. exists []. split; [|reflexivity].
  match goal with |- Permutation [] (regionVisits ?v ?f ?c) => change c with (repeat (@nil Particle) 7) end. rewrite empty_visits. constructor.
Qed.
Lemma w_computes : forall n c, 0 <= c -> c + Z.of_nat n < 2 ^ 32 ->
  reusing (1 / 2) (1 / 4) 2 (wState true c) (repeat (Compute false [], []) n) (wState true (c + Z.of_nat n)).
Proof.
  induction n as [|n IH]; intros c H0 H1; [rewrite Z.add_0_r; constructor|]. cbn [repeat].
  apply (reusing_cons _ _ _ _ _ _ (wState true (c + 1))); [constructor|reflexivity| |].
  - pose proof (w_compute true c H0) as S. rewrite Z.mod_small in S by lia. exact S.
  - replace (c + Z.of_nat (S n)) with (c + 1 + Z.of_nat n) by lia. apply (IH (c + 1)); lia.
Qed.
Lemma w_updates : forall n, reusing (1 / 2) (1 / 4) 2 (wState true 0) (repeat (Update false, []) n) (wState true 0).
Proof. induction n as [|n IH]; [constructor|]. cbn [repeat]. econstructor; [exact Logic.I|discriminate|exact w_update|exact IH]. Qed.
Lemma reusing_trans a b c h1 h2 : reusing (1 / 2) (1 / 4) 2 a h1 b -> reusing (1 / 2) (1 / 4) 2 b h2 c -> reusing (1 / 2) (1 / 4) 2 a (h1 ++ h2) c.
Proof. induction 1; intros; cbn [app]; [assumption|]. econstructor; eauto. Qed.
Lemma wraparound_refuted : forall n, exists h2 s1 s,
  let s0 := initial (1 / 2) (1 / 4) 2 KDirectSum xLo xHi 0 in
  validStart (1 / 2) (1 / 4) 2 s0 /\ rebuildsLists s0 = true /\ HandlerModel.step (1 / 2) (1 / 4) 2 s0 (Compute false []) (Some (s1, [])) /\
  reusing (1 / 2) (1 / 4) 2 s1 h2 s /\ rebuildsLists s = false /\ updates (map fst h2) = Z.of_nat n.
Proof.
  intros n. set (N := Z.to_nat (2 ^ 32 - 2)).
  exists ((repeat (Compute false [], []) N ++ [(Compute false [], [])]) ++ repeat (Update false, []) n), (wState true 1), (wState true 0).
  split; [exists KDirectSum, xLo, xHi, 0%nat; split; [exact x_box|split; [exact Logic.I|reflexivity]]|].
  split; [reflexivity|]. split; [reflexivity|]. split; [|split; [reflexivity|]].
  - apply (reusing_trans _ (wState true 0)); [|apply w_updates]. apply (reusing_trans _ (wState true (2 ^ 32 - 1))).
    + replace (2 ^ 32 - 1) with (1 + Z.of_nat N) by (unfold N; rewrite Z2Nat.id by lia; lia). apply (w_computes N 1); [lia|].
      unfold N. rewrite Z2Nat.id by lia. lia.
    + econstructor; [constructor|reflexivity|exact (w_compute true (2 ^ 32 - 1) ltac:(lia))|constructor].
  - clearbody N. rewrite !map_app, !updates_app.
    assert (A : forall k, updates (map fst (repeat (Compute false [], @nil Particle) k)) = 0) by (induction k; [reflexivity|assumption]).
    assert (B : forall k, updates (map fst (repeat (Update false, @nil Particle) k)) = Z.of_nat k).
    { induction k as [|k IH]; [reflexivity|]. cbn [repeat map fst]. unfold updates in *. cbn [filter length]. lia. }
    rewrite A, B. reflexivity.
Qed.

(** A lambda iteration of the container does not come to particles in the buffers. *)
Lemma buffer_refuted : let s := initial (1 / 2) (1 / 4) 2 KDirectSum xLo xHi 1 in
  exists h s1, validStart (1 / 2) (1 / 4) 2 s /\ properHistory (1 / 2) (1 / 4) 2 s h s1 /\ disciplined (1 / 4) false (map fst h) /\
    In xB (ownedParticles s1) /\ dsForEach 1 (ccells (cont s1)) = Some [].
Proof.
  intros s. set (s1 := mkState xLo xHi (mkCont KDirectSum (repeat [] 7)) 0 [[xB]] [[]] true 0 1 1 0).
  exists [(Compute false [], []); (AddParticle xB 0, [])], s1.
  assert (B : inBox xLo xHi (ppos xB)) by (unfold inBox, xLo, xHi; cbn [ppos xB rx ry rz]; lra).
  split; [exists KDirectSum, xLo, xHi, 1%nat; split; [exact x_box|split; [exact Logic.I|reflexivity]]|].
  split; [|split; [cbn; auto|split; [cbn; auto|reflexivity]]].
  econstructor; [constructor|exact Logic.I|reflexivity|]. cbn [quiet]. econstructor; [exact Logic.I|split; [exact B|cbn; lia]| |].
  + cbn -[inBoxb xLo xHi xB]. unfold doAdd. cbn -[inBoxb xLo xHi xB]. rewrite (proj2 (inBoxb_iff xLo xHi (ppos xB)) B). cbn -[xLo xHi]. reflexivity.
  + change (withOwn stOwned xB) with xB. constructor.
Qed.

(** Two particles at distance 1 = cutoff + skin that approach each other. *)
Definition yA : Particle := mkParticle 1 (mkR3 1 1 1) 1 0.
Definition yB : Particle := mkParticle 2 (mkR3 2 1 1) 1 0.
Definition yMove (p : Particle) : R3 :=
  if pown p =? 2 then ppos p else mkR3 (rx (ppos p) + (if pid p =? 1 then 1 / 8 else - (1 / 8))) (ry (ppos p)) (rz (ppos p)).
Lemma boundary_refuted : let es := [Move yMove; Update false; Move yMove; Update false] in
  disciplined (1 / 4) false es /\ calm (1 / 4) es /\ updates es = 2 /\
  (dist3 (ppos (carried es yA)) (ppos (carried es yB)) <= 1 / 2)%R /\ ~ (dist3 (ppos yA) (ppos yB) < 1 / 2 + 1 / 4 * IZR 2)%R.
Proof.
  assert (C : forall p, (dist3 (ppos p) (yMove p) <= 1 / 4 / 2)%R).
  { intros p. apply dist3_sq; [lra|]. unfold yMove, dot, rsub. destruct (pown p =? 2); cbn [rx ry rz]; unfold Rminus; rewrite ?Rplus_opp_r; [lra|].
    destruct (pid p =? 1); [replace (rx (ppos p) + - (rx (ppos p) + 1 / 8))%R with (- (1 / 8))%R by ring|replace (rx (ppos p) + - (rx (ppos p) + - (1 / 8)))%R with (1 / 8)%R by ring]; lra. }
  split; [|split; [|split; [reflexivity|split]]].
  - cbn [disciplined]. assert (W : forall p, within (1 / 4) (ppos p) (yMove p)).
    { intros p. unfold within, yMove. destruct (pown p =? 2); cbn [rx ry rz]; [repeat split; unfold Rabs; destruct (Rcase_abs _); lra|].
      destruct (pid p =? 1); repeat split; unfold Rabs; destruct (Rcase_abs _); lra. }
    repeat split; apply W.
  - intros f [E|[E|[E|[E|[]]]]]; try discriminate; injection E as <-; exact C.
  - apply dist3_sq; [lra|]. cbn [carried]. unfold moveTo, yMove, yA, yB, dot, rsub. cbn [pown pid ppos Z.eqb Pos.eqb rx ry rz]. lra.
  - assert (E : dist3 (ppos yA) (ppos yB) = 1%R); [|rewrite E; lra].
    unfold dist3, dot, rsub, yA, yB. cbn [ppos rx ry rz]. replace ((1 - 2) * (1 - 2) + (1 - 1) * (1 - 1) + (1 - 1) * (1 - 1))%R with 1%R by ring. apply sqrt_1.
Qed.
