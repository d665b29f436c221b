(** The three-body remainder traversal with linked cells and direct sum. *)
From Coq Require Import Reals Lra.
From Verif.Base Require Import ZRange Lists Occ OptionM.
From Verif.Grid Require Import IndexModel IndexSpec IndexProofs CellBlockModel CellBlockSpec CellBlockProofs CellBlockExact.
From Verif.Functor Require Import CellFunctorModel CellFunctor3BModel FunctorSpec SortModel SortSpec SortProofs.
From Verif.Container Require Import LinkedCellsModel LinkedCellsSpec LinkedCellsGeo IteratorModel IteratorContainers IteratorSpec IteratorLemmas IteratorInstances IteratorRegion IteratorProps
  ParticleModel CollectModel CollectSpec CollectRun ForEachModel ForEachProofs.
From Verif.Logic Require Import HandlerModel HandlerSpec HandlerCont RemainderModel RemainderSpec RemainderProofs RemainderContainers ComputeModel ComputeSlots ComputeProofs Remainder3Model Remainder3Core Remainder3Region.
Import ListNotations.
Local Open Scope Z_scope.

(** Between three particles closer than the cutoff to each other the owned one receives
    the force once if one of them is in a buffer, and never otherwise.  The triples consist
    of three different particles of the buffers and the container. *)
Definition remainder3Correct (cutoff : R) (B C : list Particle) (l : list (Particle * (Particle * Particle))) : Prop :=
  (forall t u v, In (t, (u, v)) l -> (t <> u /\ t <> v /\ u <> v) /\ In t (B ++ C) /\ In u (B ++ C) /\ In v (B ++ C)) /\
  forall p q r, In p (B ++ C) -> In q (B ++ C) -> In r (B ++ C) -> p <> q -> p <> r -> q <> r -> pown p = 1 ->
    closer cutoff (ppos p) (ppos q) -> closer cutoff (ppos p) (ppos r) -> closer cutoff (ppos q) (ppos r) ->
    (In p B \/ In q B \/ In r B -> occ (isTriple p q r) l = 1%nat) /\
    (In p C -> In q C -> In r C -> occ (isTriple p q r) l = 0%nat).

Lemma closer_sym cutoff a b : closer cutoff a b -> closer cutoff b a.
Proof. unfold closer. lra. Qed.

Section Any3.
  Variables (newton3 : bool) (cutoff : R) (lo hi : R3) (len spread : R) (bufs halos : list (list Particle)) (cells : list (list Particle)).
  Let B := concat bufs ++ concat halos.
  Let C := filter live (concat cells).
  Variable inRegion : Z -> R3 -> R3 -> option (list Particle).
  Variable regionPairs : R3 -> R3 -> option (list (Particle * Particle)).
  Notation low := (low rndExact cutoff).
  Notation high := (high rndExact cutoff).
  Hypothesis Hcut : (0 <= cutoff)%R.
  Hypothesis Hlen : (cutoff + spread <= len)%R.
  Hypothesis Hall : NoDup (concat bufs ++ concat halos ++ C).
  Hypothesis Hb : forall p, In p (concat bufs) -> pown p = 1.
  Hypothesis Hh : forall p, In p (concat halos) -> pown p = 2.
  Hypothesis Hvalid : forall q, In q C -> validState (pown q).
  Hypothesis Hbox : forall p, In p (B ++ C) -> pown p = 1 -> exists x0, inBox lo hi x0 /\ within spread x0 (ppos p).
  Hypothesis Hreg : forall p, In p B -> exists l, inRegion 3 (low p) (high p) = Some l /\ Permutation l (filter (visitedb 3 (inBoxb (low p) (high p))) C).
  Hypothesis Hpairs : forall p, In p B -> exists ps, regionPairs (low p) (high p) = Some (later ps) /\
    Permutation ps (filter (fun x => inBoxb (low p) (high p) (ppos x) && inBoxb (shift lo (- len)) (shift hi len) (ppos x) && wantedb 11 (pown x)) (concat cells)).

  Lemma wanted_live o : validState o -> o <> 0 -> wantedb 3 o = true /\ wantedb 11 o = true.
  Proof. intros [-> | [-> | ->]] N; [contradiction|split; reflexivity..]. Qed.

  (** A particle closer than the cutoff to an owned one is in the grown box. *)
  Lemma grown_near p x : In p (B ++ C) -> pown p = 1 -> x = p \/ closer cutoff (ppos p) (ppos x) -> inBox (shift lo (- len)) (shift hi len) (ppos x).
  Proof.
    intros Hp Op Hx. destruct (Hbox p Hp Op) as (x0 & (A1 & A2 & A3) & W1 & W2 & W3).
    assert (Sp : (0 <= spread)%R) by (eapply Rle_trans; [apply Rabs_pos|exact W1]).
    assert (D : (Rabs (rx (ppos x) - rx (ppos p)) <= cutoff /\ Rabs (ry (ppos x) - ry (ppos p)) <= cutoff /\ Rabs (rz (ppos x) - rz (ppos p)) <= cutoff)%R).
    { destruct Hx as [->|Hx]; [rewrite !Rminus_eq_0, Rabs_R0; auto|]. unfold closer in Hx.
      pose proof (Rle_0_sqr (rx (ppos p) - rx (ppos x))). pose proof (Rle_0_sqr (ry (ppos p) - ry (ppos x))). pose proof (Rle_0_sqr (rz (ppos p) - rz (ppos x))). unfold Rsqr in *.
      split; [|split]; rewrite Rabs_minus_sym; apply sq_le_abs; lra. }
    destruct D as (D1 & D2 & D3).
    assert (K : forall d y, (Rabs y <= d)%R -> (- d <= y <= d)%R) by (intros d y; unfold Rabs; destruct (Rcase_abs y); lra).
    apply K in W1, W2, W3, D1, D2, D3. unfold inBox, shift. cbn [rx ry rz]. lra.
  Qed.

  Lemma remainder3_any : exists calls, remainder3B rndExact newton3 cutoff inRegion regionPairs bufs halos = Some calls /\
    remainder3Correct cutoff B C (flat_map added3 calls).
  Proof.
    assert (Nd : NoDup (B ++ C)) by (unfold B; rewrite <- app_assoc; exact Hall).
    assert (NC : NoDup C) by (apply NoDup_app_inv in Nd; apply Nd).
    set (L := fun i => match inRegion 3 (low (bp B i)) (high (bp B i)) with Some l => l | None => [] end).
    destruct (finite_choice particle_dec [] (fun p ps => regionPairs (low p) (high p) = Some (later ps) /\
      Permutation ps (filter (fun x => inBoxb (low p) (high p) (ppos x) && inBoxb (shift lo (- len)) (shift hi len) (ppos x) && wantedb 11 (pown x)) (concat cells))) B Hpairs) as (f & Hf).
    set (L' := fun i => f (bp B i)).
    assert (Hin : forall i, (i < length B)%nat -> In (bp B i) B) by (intros i Hi; apply nth_In, Hi).
    assert (HL : forall i, (i < length B)%nat -> inRegion bhOwnedOrHalo (low (bp B i)) (high (bp B i)) = Some (L i) /\
      Permutation (L i) (filter (visitedb 3 (inBoxb (low (bp B i)) (high (bp B i)))) C)).
    { intros i Hi. destruct (Hreg _ (Hin i Hi)) as (l & E & Pm). change bhOwnedOrHalo with 3. unfold L. rewrite E. auto. }
    assert (HL' : forall i, (i < length B)%nat -> regionPairs (low (bp B i)) (high (bp B i)) = Some (later (L' i)) /\
      Permutation (L' i) (filter (fun x => inBoxb (low (bp B i)) (high (bp B i)) (ppos x) && inBoxb (shift lo (- len)) (shift hi len) (ppos x) && wantedb 11 (pown x)) C)).
    { intros i Hi. destruct (Hf _ (Hin i Hi)) as (E & Pm). split; [exact E|]. unfold L'. rewrite Pm. unfold C. rewrite filter_filter.
      erewrite filter_ext; [reflexivity|]. intros x. cbv beta. destruct (live x) eqn:Lx; [reflexivity|].
      assert (O : pown x = 0) by (unfold live, isDummy in Lx; apply negb_false_iff, Z.eqb_eq in Lx; exact Lx). rewrite O, andb_comm. reflexivity. }
    destruct (remainderCalls_parts rndExact newton3 cutoff inRegion regionPairs B (length (concat bufs)) L L') as (calls & E & Ec).
    { intros i Hi. apply (HL i Hi). }
    { intros i Hi. apply (HL' i Hi). }
    exists calls. split; [exact E|]. rewrite Ec.
    assert (Hown : forall i, (i < length B)%nat -> pown (bp B i) = (if (i <? length (concat bufs))%nat then 1 else 2)).
    { intros i Hi. unfold bp, B in *. destruct (Nat.ltb_spec i (length (concat bufs))).
      - rewrite app_nth1 by assumption. apply Hb, nth_In. assumption.
      - rewrite app_nth2 by assumption. apply Hh, nth_In. rewrite app_length in Hi. lia. }
    assert (SL : forall i, (i < length B)%nat -> NoDup (L i) /\ (forall x, In x (L i) -> In x C)).
    { intros i Hi. destruct (HL i Hi) as (_ & Pm). split; [apply (Permutation_NoDup (Permutation_sym Pm)), NoDup_filter, NC|]. intros x Hx. apply (Permutation_in _ Pm) in Hx. apply filter_In in Hx. apply Hx. }
    assert (SL' : forall i, (i < length B)%nat -> NoDup (L' i) /\ (forall x, In x (L' i) -> In x C)).
    { intros i Hi. destruct (HL' i Hi) as (_ & Pm). split; [apply (Permutation_NoDup (Permutation_sym Pm)), NoDup_filter, NC|]. intros x Hx. apply (Permutation_in _ Pm) in Hx. apply filter_In in Hx. apply Hx. }
    assert (Hn : (length (concat bufs) <= length B)%nat) by (unfold B; rewrite app_length; lia).
    split.
    - intros t u v X. split; [revert X; apply (parts_distinct newton3 B C (length (concat bufs)) L L'); assumption|].
      revert X. apply (parts_in newton3 B C (length (concat bufs)) L L'); assumption.
    - intros p q r Hp Hq Hr Npq Npr Nqr Op Cpq Cpr Cqr. apply (parts_once newton3 B C (length (concat bufs)) L L'); auto.
      intros i x Hi Bi Hx HxC.
      assert (Nx : bp B i <> x) by (intros <-; apply NoDup_app_inv in Nd as (_ & _ & Dj); exact (Dj _ (Hin i Hi) HxC)).
      assert (Cl : closer cutoff (ppos (bp B i)) (ppos x)).
      { destruct Bi as [Bi|[Bi|Bi]], Hx as [->|[->|Hx]]; rewrite ?Bi; try subst x; try (exfalso; apply Nx; assumption); auto using closer_sym. }
      assert (Cu := proj1 (closer_inCube cutoff _ _ Hcut Cl)). apply (cube_box cutoff (bp B i)) in Cu.
      assert (Ox : wantedb 3 (pown x) = true /\ wantedb 11 (pown x) = true) by (apply wanted_live; [apply Hvalid, HxC|apply filter_In in HxC; apply live_iff, HxC]).
      assert (Gx : inBox (shift lo (- len)) (shift hi len) (ppos x)).
      { apply (grown_near p x Hp Op). destruct Hx as [-> | [-> | ->]]; auto. }
      apply inBoxb_iff in Gx.
      destruct (HL i Hi) as (_ & Pm), (HL' i Hi) as (_ & Pm'). split.
      + apply (Permutation_in _ (Permutation_sym Pm)), filter_In. split; [exact HxC|]. unfold visitedb. rewrite Cu, (proj1 Ox). reflexivity.
      + apply (Permutation_in _ (Permutation_sym Pm')), filter_In. split; [exact HxC|]. rewrite Cu, Gx, (proj2 Ox). reflexivity.
  Qed.
End Any3.

Section Kinds3.
  Variables (cutoff spt : R) (freq : Z) (newton3 : bool) (lo hi : R3) (c : Cont) (steps : Z) (bufs halos : list (list Particle)).
  Hypothesis Hopt : validOptions cutoff spt freq.
  Let len := il cutoff spt freq.
  Let cells := ccells c.
  Let B := concat bufs ++ concat halos.
  Let C := filter live (concat cells).
  Hypothesis Hsteps : 0 <= steps <= freq.
  Hypothesis Hmany : size (concat cells) < sizeMax.
  Hypothesis Hall : NoDup (concat bufs ++ concat halos ++ C).
  Hypothesis Hb : forall p, In p (concat bufs) -> pown p = 1 /\ inGrownBox len lo hi (ppos p).
  Hypothesis Hh : forall p, In p (concat halos) -> pown p = 2 /\ inGrownBox len lo hi (ppos p).
  Hypothesis Hbox : forall p, In p (B ++ C) -> pown p = 1 -> exists x0, inBox lo hi x0 /\ within (skin spt freq / 2) x0 (ppos p).

  Lemma facts : (0 < cutoff)%R /\ (0 <= spt * IZR steps <= skin spt freq)%R /\ len = (cutoff + skin spt freq)%R.
  Proof.
    destruct Hopt as (H1 & H2 & H3). split; [exact H1|]. split; [|reflexivity]. destruct Hsteps as (S1 & S2). apply IZR_le in S1, S2. unfold skin. split; [apply Rmult_le_pos; assumption|apply Rmult_le_compat_l; assumption].
  Qed.

  Theorem remainder3_lc csf : kind c = KLinkedCells csf ->
    let b := grid cutoff spt freq csf lo hi in
    validGrid len csf lo hi -> size cells = numCells (blockDims b) -> size cells < sizeMax ->
    (forall k p, In p (nth k cells []) -> validState (pown p) /\
       (pown p = 1 -> cellCanContainOwnedParticles b (Z.of_nat k) = true) /\ (pown p = 2 -> cellCanContainHaloParticles b (Z.of_nat k) = true) /\
       exists x0, inBox (getHaloBoxMin b) (getHaloBoxMax b) x0 /\ get1DIndexOfPosition rndExact b x0 = Some (Z.of_nat k) /\ within (spt * IZR steps) x0 (ppos p)) ->
    exists calls, remainder3B rndExact newton3 cutoff (inRegionOf cutoff spt freq lo hi c) (regionPairsOf cutoff spt freq lo hi c steps) bufs halos = Some calls /\
      remainder3Correct cutoff B C (flat_map added3 calls).
  Proof.
    intros K b Hg Hsize Hlim Hpl. destruct facts as (F1 & F2 & F3).
    assert (Nl : NoDup C) by (rewrite app_assoc in Hall; apply NoDup_app_inv in Hall; apply Hall).
    assert (HbG : forall p, In p (concat bufs ++ concat halos) -> inGrownBox len lo hi (ppos p)) by (intros p Hp; apply in_app_or in Hp as [Hp|Hp]; [apply Hb|apply Hh]; exact Hp).
    apply (remainder3_any newton3 cutoff lo hi len (skin spt freq / 2) bufs halos cells); auto; try lra.
    - intros p Hp. apply Hb, Hp.
    - intros p Hp. apply Hh, Hp.
    - intros q Hq. apply filter_In in Hq as (Hq & _). apply in_cells in Hq as (k & Hq). apply (Hpl k q Hq).
    - intros p Hp. rewrite (visited_live 3 _ _ (or_intror eq_refl)). unfold inRegionOf. rewrite K.
      destruct (choose_old cells (fun k p x0 => inBox (getHaloBoxMin b) (getHaloBoxMax b) x0 /\ get1DIndexOfPosition rndExact b x0 = Some (Z.of_nat k) /\ within (spt * IZR steps) x0 (ppos p)) Nl) as (old & Hold).
      { intros k q Hq. apply (Hpl k q Hq). }
      destruct (HbG p Hp) as (G1 & G2 & G3). unfold growLow, growHigh in *. cbn [rx ry rz] in *.
      apply (lc_for_each_in_region len csf lo hi Hg cells Hsize) with (old := old).
      + intros k q Hq. destruct (Hpl k q Hq) as (A1 & A2 & A3 & _). auto.
      + intros k q Hq O. destruct (Hold k q Hq O) as (A1 & A2 & A3). split; [exact A1|]. split; [exact A2|]. unfold movedWithin. unfold within in A3. lra.
      + unfold lambdaBehavior. auto.
      + discriminate.
      + discriminate.
      + unfold low, rndExact in *. cbn [rx ry rz] in *. lra.
      + unfold low, rndExact in *. cbn [rx ry rz] in *. lra.
      + unfold low, rndExact in *. cbn [rx ry rz] in *. lra.
      + unfold high, rndExact in *. cbn [rx ry rz] in *. lra.
      + unfold high, rndExact in *. cbn [rx ry rz] in *. lra.
      + unfold high, rndExact in *. cbn [rx ry rz] in *. lra.
      + unfold low, high, rndExact. cbn [rx ry rz]. lra.
      + unfold low, high, rndExact. cbn [rx ry rz]. lra.
      + unfold low, high, rndExact. cbn [rx ry rz]. lra.
    - intros p Hp. destruct (HbG p Hp) as (G1 & G2 & G3). unfold growLow, growHigh in *. cbn [rx ry rz] in *.
      apply (lc_pairs cutoff spt freq lo hi c steps Hmany Nl csf); auto; try (unfold low, high, rndExact; cbn [rx ry rz]; fold len; lra).
  Qed.

  Theorem remainder3_ds : kind c = KDirectSum -> length cells = 7%nat ->
    (forall k p, In p (nth k cells []) -> validState (pown p) /\ (k = 0%nat -> pown p <> 2) /\ (k <> 0%nat -> pown p <> 1)) ->
    exists calls, remainder3B rndExact newton3 cutoff (inRegionOf cutoff spt freq lo hi c) (regionPairsOf cutoff spt freq lo hi c steps) bufs halos = Some calls /\
      remainder3Correct cutoff B C (flat_map added3 calls).
  Proof.
    intros K H7 Hpl. destruct facts as (F1 & F2 & F3).
    apply (remainder3_any newton3 cutoff lo hi len (skin spt freq / 2) bufs halos cells); auto; try lra.
    - intros p Hp. apply Hb, Hp.
    - intros p Hp. apply Hh, Hp.
    - intros q Hq. apply filter_In in Hq as (Hq & _). apply in_cells in Hq as (k & Hq). apply (Hpl k q Hq).
    - intros p Hp. rewrite (visited_live 3 _ _ (or_intror eq_refl)). unfold inRegionOf. rewrite K. apply ds_for_each_in_region; auto.
      + unfold lambdaBehavior. auto.
      + discriminate.
      + discriminate.
    - intros p Hp. apply (ds_pairs_region cutoff spt freq lo hi c steps Hmany _ _ K H7 Hpl).
  Qed.
End Kinds3.
