(** The halo particles that are stored are those added since the last update. *)
From Coq Require Import Reals Lra List Permutation.
From Verif.Base Require Import ZRange Lists.
From Verif.Grid Require Import IndexModel CellBlockModel CellBlockSpec.
From Verif.Functor Require Import SortModel.
From Verif.Container Require Import LinkedCellsModel LinkedCellsSpec LinkedCellsGeo IteratorModel IteratorContainers IteratorSpec IteratorLemmas IteratorInstances IteratorRegion
  ParticleModel CollectModel CollectSpec CollectProofs CollectRun CollectContainers CollectTheorems UpdateModel UpdateProofs.
From Verif.Logic Require Import BalanceProofs HandlerModel HandlerSpec HandlerCont HandlerUpdate HandlerProofs HandlerExact HandlerTotal HandlerNear HandlerHalo.
Import ListNotations.
Local Open Scope Z_scope.

Section Images.
  Variables (cutoff spt : R) (freq : Z).
  Hypothesis Hopt : validOptions cutoff spt freq.
  Variable fac : R.
  Hypothesis Hfac : (0 <= fac)%R.
  Let il := il cutoff spt freq.
  Let skin := skin spt freq.
  Notation far := (imageDistance cutoff spt freq fac).
  Notation step := (step cutoff spt freq).
  Notation Ex := (Ex cutoff spt freq).
  Notation Hal := (Hal cutoff spt freq).
  Notation HI := (HI cutoff spt freq).
  Notation bounded := (bounded freq fac).
  Notation isH := (fun p : Particle => pown p =? 2).

  Lemma halo_parts s : haloParticles s = filter isH (concat (ccells (cont s))) ++ filter isH (concat (bufs s)) ++ filter isH (concat (halos s)).
  Proof. unfold haloParticles, stored. rewrite !filter_app. reflexivity. Qed.
  Lemma parts_cells p a a' b c : Permutation a (p :: a') -> Permutation (filter isH a ++ filter isH b ++ filter isH c) ((if isH p then [p] else []) ++ filter isH a' ++ filter isH b ++ filter isH c).
  Proof. intros H. rewrite (app_assoc (if isH p then [p] else [])). apply Permutation_app_tail. rewrite (filter_perm isH _ _ H). cbn [filter]. destruct (pown p =? 2); reflexivity. Qed.
  Lemma parts_swap (a b c : list Particle) : Permutation (filter isH a ++ filter isH b ++ filter isH c) (filter isH b ++ filter isH a ++ filter isH c).
  Proof. rewrite !app_assoc. apply Permutation_app_tail, Permutation_app_comm. Qed.
  Lemma parts_bufs p a b b' c : Permutation b (p :: b') -> Permutation (filter isH a ++ filter isH b ++ filter isH c) ((if isH p then [p] else []) ++ filter isH a ++ filter isH b' ++ filter isH c).
  Proof. intros H. rewrite (parts_swap a b c), (parts_cells p b b' a c H). apply Permutation_app_head, parts_swap. Qed.
  Lemma parts_halos p a b c c' : Permutation c (p :: c') -> Permutation (filter isH a ++ filter isH b ++ filter isH c) ((if isH p then [p] else []) ++ filter isH a ++ filter isH b ++ filter isH c').
  Proof.
    intros H. etransitivity; [apply Permutation_app_head, Permutation_app_comm|]. rewrite (parts_bufs p a c c' b H). apply Permutation_app_head, Permutation_app_head, Permutation_app_comm.
  Qed.
  Lemma moved_halo f l : (forall p, pown p = 2 -> f p = ppos p) -> filter isH (map (moved f) l) = filter isH l.
  Proof.
    intros H. induction l as [|p l IH]; [reflexivity|]. cbn [map filter]. rewrite moved_own, IH. destruct (Z.eqb_spec (pown p) 2) as [O|]; [|reflexivity].
    f_equal. unfold moved. rewrite (H p O). destruct (isDummy p), p; reflexivity.
  Qed.

  Lemma images_step n m past s e s' out : Ex n m s -> Hal s -> HI past s -> bounded s -> validCall cutoff spt freq s e -> properCall cutoff spt freq s e ->
    movingImages spt far (past ++ [e]) -> step s e (Some (s', out)) -> imageStep (haloParticles s) e (haloParticles s').
  Proof.
    intros E Hh HI0 Bd V Pr Mv H. pose proof (ex_inv _ _ _ n m s E) as I. destruct (ex_steps _ _ _ n m s E) as (S1 & S2).
    destruct (HI_step cutoff spt freq Hopt fac Hfac n m past s e s' out E Hh HI0 Bd V Pr Mv H) as (_ & Cl).
    destruct Bd as (Bf & Ba). destruct HI0 as [Sl Ct].
    destruct e; cbn [HandlerModel.step validCall properCall] in *.
    - (* AddParticle *) constructor. destruct (doAdd _ _ _ _ _ _) as [s1|] eqn:F in H; [|discriminate]. injection H as -> ->. rewrite !halo_parts.
      unfold doAdd in F. destruct (inBoxb _ _ _) eqn:B in F; cbn [negb] in F; [|discriminate]. destruct (valid s) eqn:Vs.
      + destruct (pushAt _ _ _) as [b|] eqn:P in F; [|discriminate]. injection F as <-. destruct (pushAt_inv P) as (_ & Pm & _).
        cbn [cont bufs halos withCounts withBufs]. rewrite (parts_bufs _ _ _ _ _ Pm). reflexivity.
      + destruct (addOwned _ _ _ _ _ _ _) as [c|] eqn:P in F; [|discriminate]. injection F as <-.
        destruct (addOwned_inv cutoff spt freq _ _ _ _ _ P eq_refl) as (K & i & P1 & _ & C). destruct (pushAt_inv P1) as (_ & Pm & X).
        cbn [cont bufs halos withCounts withCont]. rewrite (parts_cells _ _ _ _ _ Pm). reflexivity.
    - (* AddHalo *) constructor. destruct (doAddHalo _ _ _ _ _ _) as [s1|] eqn:F in H; [|discriminate]. injection H as -> ->. destruct Pr as (N & G & _).
      rewrite !halo_parts. change (setHalo p) with (withOwn stHalo p).
      unfold doAddHalo in F. destruct (inBoxb _ _ _) eqn:B in F; [discriminate|]. destruct (valid s) eqn:Vs.
      + destruct (updateHaloC _ _ _ _ _ _ _) as [(c, [|])|] eqn:P in F; [| |discriminate].
        * injection F as <-. destruct (updateHalo_full cutoff spt freq _ _ _ _ _ _ P eq_refl (inv_placed _ _ _ s I)) as (K & [(C & _)|(_ & i & q & r & Q1 & Q2 & Qn & Q3 & Q4 & Q5 & P1 & P2 & X)]); [discriminate|].
          cbn [pid withOwn] in Q2. assert (Hc := place_halo cutoff spt freq _ _ _ _ _ Q4 eq_refl).
          assert (Oq : pown q = 2 \/ (pown q = 0 /\ haloCell cutoff spt freq (boxLo s) (boxHi s) (kind (cont s)) i)).
          { destruct (proj2 (inv_placed _ _ _ s I) i q Q1) as ([Y|[Y|Y]] & _); [right; auto|contradiction|left; exact Y]. }
          destruct (Sl i q Q1 Oq) as (x0 & a & p0 & t0 & b & E0 & E1 & E2 & E3 & E4 & E5 & E6 & E7).
          destruct (Mv a p0 t0 b p thread []) as [(M1 & M2)|M]; [rewrite E0, <- app_assoc; reflexivity|congruence| |].
          2: { exfalso. rewrite E2 in M. revert M. apply (slot_not_apart cutoff spt freq Hopt fac (boxLo s) (boxHi s) (kind (cont s)) i q (ppos p) x0 (contSteps s - updates b) Hfac Bf (inv_kind _ _ _ s I) G E5 E6 Qn E7).
               assert (0 <= updates b) by (unfold updates; lia). lia. }
          assert (Nq : pown q <> 2) by (intros Y; rewrite (E3 Y) in M1; lia).
          cbn [cont bufs halos withCounts withCont]. rewrite (parts_cells _ _ _ _ _ P1), (parts_cells _ _ _ _ _ P2). apply Z.eqb_neq in Nq. rewrite Nq. reflexivity.
        * destruct (pushAt _ _ _) as [b|] eqn:P1 in F; [|discriminate]. injection F as <-. destruct (pushAt_inv P1) as (_ & Pm & _).
          cbn [cont bufs halos withCounts withBufs]. rewrite (parts_halos _ _ _ _ _ Pm). reflexivity.
      + destruct (addHaloC _ _ _ _ _ _ _) as [c|] eqn:P in F; [|discriminate]. injection F as <-.
        destruct (addHalo_inv cutoff spt freq _ _ _ _ _ P eq_refl N) as (K & i & P1 & _ & C). destruct (pushAt_inv P1) as (_ & Pm & X).
        cbn [cont bufs halos withCounts withCont]. rewrite (parts_cells _ _ _ _ _ Pm). reflexivity.
    - (* Delete *) destruct H as (H1 & H2 & H3). injection H3 as -> ->. unfold particleAt in H1.
      assert (Op : pown p = 1 \/ pown p = 2).
      { unfold isDummy, stDummy in H2. apply Z.eqb_neq in H2. destruct at_ as [c j|b j|b j]; cbn in H1; apply nth_error_In in H1.
        - destruct (proj2 (inv_placed _ _ _ s I) c p H1) as ([X|X] & _); [contradiction|exact X].
        - left. apply (inv_bufs _ _ _ s I), in_cells. exists b. exact H1.
        - right. apply (inv_halos _ _ _ s I), in_cells. exists b. exact H1. }
      assert (Q : Permutation (haloParticles s) ((if pown p =? 2 then [p] else []) ++ haloParticles (doDelete s p at_))).
      { rewrite !halo_parts. unfold doDelete.
        assert (W : forall s1, s1 = (if isOwned p then withCounts s (nOwned s - 1) (nHalo s) else withCounts s (nOwned s) (nHalo s - 1)) ->
          cont s1 = cont s /\ bufs s1 = bufs s /\ halos s1 = halos s) by (intros s1 ->; destruct (isOwned p); auto).
        set (s1 := if isOwned p then _ else _) in *. destruct (W s1 eq_refl) as (W3 & W5 & W6). clearbody s1.
        destruct at_ as [c j|b j|b j]; cbn in H1; destruct (del_perm _ _ _ _ H1) as (Pm & _); cbn [cont bufs halos withCont withBufs ccells]; rewrite ?W3, ?W5, ?W6.
        - apply parts_cells, Pm.
        - apply parts_bufs, Pm.
        - apply parts_halos, Pm. }
      destruct Op as [Op|Op]; rewrite Op in Q; cbn in Q; [apply IDelete|apply IDeleteHalo]; assumption.
    - (* DeleteAll *) injection H as -> ->. rewrite (halo_parts (doDeleteAll s)). cbn [doDeleteAll cont bufs halos ccells withCounts withValid withBufs withCont]. rewrite !concat_nil. constructor.
    - (* Move *) injection H as -> ->. constructor. rewrite !halo_parts. cbn [doMove cont bufs halos ccells withBufs withCont].
      rewrite <- !concat_map, !(moved_halo f _ Pr). reflexivity.
    - (* Update *) cbn [cleared] in Cl. rewrite Cl. constructor.
    - (* Compute *) constructor. destruct (doCompute _ _ _ _ _ _) as [s1|] eqn:F in H; [|discriminate]. injection H as -> ->.
      unfold doCompute in F. destruct (select cutoff spt freq s selected) as [s2|] eqn:Se; [|discriminate].
      destruct (select_inv cutoff spt freq selected s s2 Se I V) as (J & A1 & A2 & A3 & A4 & A5 & A6 & A7 & A8 & A9 & QO & QH & C).
      rewrite QH, !halo_parts. destruct pairwise; [|injection F as <-; reflexivity].
      destruct (balance_correct (bufs s2) 1 (le_n 1)) as (b & Eb & Pb & _). destruct (balance_correct (halos s2) 1 (le_n 1)) as (h & Eh & Ph & _).
      rewrite Eb, Eh in F. injection F as <-. cbn [cont bufs halos]. apply Permutation_app_head. apply Permutation_app; apply filter_perm; assumption.
    - (* Resize *) constructor. destruct V as (V1 & V2).
      destruct (resize_inv cutoff spt freq s lo hi s' out I V1 V2 (eq_sym H)) as [(-> & _)|(E1 & E2 & K & P & Cs & Bu & Hl & Va & St & Ca & C & Nh & O & N2 & Q & X)]; [reflexivity|].
      rewrite !halo_parts, Bu, Hl. rewrite (filter_nil isH (concat (ccells (cont s)))) by (intros p Hp; apply Z.eqb_neq, N2, Hp).
      rewrite (filter_nil isH (concat (ccells (cont s')))); [reflexivity|]. intros p Hp. apply in_cells in Hp as (k & Hk). destruct (X k p Hk) as (Y & _). rewrite Y. reflexivity.
  Qed.

  Lemma images_history s h s' : properHistory cutoff spt freq s h s' -> forall past n m, Ex n m s -> Hal s -> HI past s -> bounded s -> disciplined spt m (map fst h) ->
    n + computations (map fst h) < 2 ^ 32 -> movingImages spt far (past ++ map fst h) -> factorsAtMost fac (map fst h) -> images (haloParticles s) (map fst h) (haloParticles s').
  Proof.
    induction 1 as [s|s e out s1 h s2 V P S H IH]; intros past n m E Hh HI0 Bd D B Mv Fa; [constructor|]. cbn [map fst] in *.
    apply disciplined_cons in D as (D1 & D2). rewrite computations_cons in B. assert (Q := computations_pos (map fst h)).
    destruct (Ex_step cutoff spt freq Hopt n m s e s1 out E V D1 ltac:(lia) S) as (E1 & _).
    replace (past ++ e :: map fst h) with ((past ++ [e]) ++ map fst h) in Mv by (rewrite <- app_assoc; reflexivity).
    assert (Mv1 := moving_prefix cutoff spt freq fac _ _ Mv).
    econstructor; [exact (images_step n m past s e s1 out E Hh HI0 Bd V P Mv1 S)|].
    apply (IH (past ++ [e]) _ _ E1); [apply (Hal_step cutoff spt freq n m s e s1 out E Hh V P S)| | |exact D2|lia|exact Mv|].
    - apply (HI_step cutoff spt freq Hopt fac Hfac n m past s e s1 out E Hh HI0 Bd V P Mv1 S).
    - apply (bounded_step cutoff spt freq Hopt fac s e s1 out (ex_inv _ _ _ _ _ _ E) V); [|exact S|exact Bd]. intros pw ks ->. apply (Fa pw). left. reflexivity.
    - intros pw ks Hk. apply (Fa pw). right. exact Hk.
  Qed.

  Theorem images_stored s h s1 : validStart cutoff spt freq s -> properHistory cutoff spt freq s h s1 ->
    disciplined spt false (map fst h) -> computations (map fst h) < 2 ^ 32 ->
    factorAtMost fac (kind (cont s)) -> factorsAtMost fac (map fst h) -> movingImages spt far (map fst h) ->
    images [] (map fst h) (haloParticles s1).
  Proof.
    intros Vs H D B F0 Fa Mv. destruct (start_hal cutoff spt freq s Vs) as (Hh & H0).
    assert (B0 : bounded s) by (split; [exact F0|destruct Vs as (k & lo & hi & t & _ & _ & ->); destruct Hopt as (_ & _ & Hf); cbn; lia]).
    assert (E0 := Ex_initial cutoff spt freq s Vs). destruct (initial_inv cutoff spt freq s Vs) as (_ & _ & <-).
    apply (images_history s h s1 H [] 0 false E0 Hh H0 B0 D ltac:(lia) Mv Fa).
  Qed.
End Images.
