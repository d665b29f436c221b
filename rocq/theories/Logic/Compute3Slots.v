(** The three-body container traversals on the particles of a container. *)
From Coq Require Import Reals Lra.
From Verif.Base Require Import ZRange Lists Occ OptionM.
From Verif.Grid Require Import IndexModel IndexSpec IndexProofs CellBlockModel CellBlockSpec CellBlockProofs CellBlockExact.
From Verif.Traversal Require Import CellSpec CellLemmas C01Model C01Spec C01Proofs.
From Verif.Functor Require Import CellFunctorModel CellFunctorProofs FunctorSpec CellFunctor3BModel Functor3BSpec CellFunctor3BProofs CellFunctor3BCounts SortModel SortSpec SortProofs.
From Verif.Container Require Import LinkedCellsModel LinkedCellsSpec LinkedCellsGeo LinkedCellsBuild LinkedCellsCount LinkedCellsDir LinkedCellsProofs IteratorModel IteratorContainers IteratorLemmas IteratorInstances ParticleModel CollectSpec
  CellCallsModel CellCallsSpec CellCallsCount DirectSumProofs TripletsProofs.
From Verif.Logic Require Import HandlerModel HandlerSpec HandlerCont RemainderModel RemainderSpec RemainderProofs ComputeModel ComputeSlots ComputeProofs Remainder3Model Remainder3Core.
Import ListNotations.
Local Open Scope Z_scope.

Definition diff3 {P} (x y z : P) : Prop := x <> y /\ x <> z /\ y <> z.
Definition callDiff {P} (c : Call3 P) : Prop := diff3 (p3a c) (p3b c) (p3c c).

Section Distinct.
  Context {P : Type}.
  Variable brk : P -> P -> bool.
  Variable pid : P -> Z.
  Lemma pairsBehind_ne p l q s : NoDup l -> In (q, s) (pairsBehind brk p l) -> q <> s.
  Proof.
    induction l as [|x l IH]; [intros _ []|]. intros N. inversion N as [|? ? N1 N2]; subst. cbn [pairsBehind]. destruct (brk p x); [intros []|]. intros H. apply in_app_or in H as [H|H].
    - apply in_map_iff in H as (y & [= <- <-] & Hy). apply untilFar2_sub in Hy. intros <-. exact (N1 Hy).
    - exact (IH N2 H).
  Qed.
  Lemma triplesInCell_ne l p q s : NoDup l -> In (p, q, s) (triplesInCell brk l) -> diff3 p q s.
  Proof.
    induction l as [|x l IH]; [intros _ []|]. intros N. inversion N as [|? ? N1 N2]; subst. cbn [triplesInCell]. intros H. apply in_app_or in H as [H|H]; [|exact (IH N2 H)].
    apply in_map_iff in H as ((y, z) & [= <- <- <-] & H). assert (D := pairsBehind_ne _ _ _ _ N2 H). apply pairsBehind_sub in H as (Hy & Hz).
    split; [intros <-; exact (N1 Hy)|]. split; [intros <-; exact (N1 Hz)|exact D].
  Qed.
  Lemma triplesInPair_ne l1 l2 p q s f : NoDup l1 -> NoDup l2 -> (forall x, In x l1 -> In x l2 -> False) -> In (p, q, s, f) (triplesInPair brk l1 l2) -> diff3 p q s.
  Proof.
    induction l1 as [|x l IH]; [intros _ _ _ []|]. intros N M D. inversion N as [|? ? N1 N2]; subst. cbn [triplesInPair]. intros H. apply in_app_or in H as [H|H].
    - apply in_flat_map in H as (y & Hy & H). apply untilFar_in in Hy. apply in_map_iff in H as (z & [= <- <- <- <-] & Hz). apply untilFar2_sub in Hz.
      split; [intros <-; exact (N1 Hy)|]. split; intros <-; eapply D; [left; reflexivity|exact Hz|right; exact Hy|exact Hz].
    - apply in_app_or in H as [H|H]; [|apply (IH N2 M); [intros z Hz; apply D; right; exact Hz|exact H]].
      apply in_map_iff in H as ((y, z) & [= <- <- <- <-] & H). assert (E := pairsBehind_ne _ _ _ _ M H). apply pairsBehind_sub in H as (Hy & Hz).
      split; [intros <-; exact (D _ (or_introl eq_refl) Hy)|]. split; [intros <-; exact (D _ (or_introl eq_refl) Hz)|exact E].
  Qed.
  Lemma triplesInTriple_ne l1 l2 l3 p q s : (forall x, In x l1 -> In x l2 -> False) -> (forall x, In x l1 -> In x l3 -> False) -> (forall x, In x l2 -> In x l3 -> False) ->
    In (p, q, s) (triplesInTriple brk l1 l2 l3) -> diff3 p q s.
  Proof.
    intros D1 D2 D3 H. apply in_flat_map in H as (x & Hx & H). apply in_flat_map in H as (y & Hy & H). apply untilFar_in in Hy. apply in_map_iff in H as (z & [= <- <- <-] & Hz).
    split; [intros <-; exact (D1 _ Hx Hy)|]. split; [intros <-; exact (D2 _ Hx Hz)|intros <-; exact (D3 _ Hy Hz)].
  Qed.
End Distinct.

Section CallsDistinct.
  Context {P : Type}.
  Variables (isHalo isHalo' : P -> bool) (view : list P -> list P) (far : P -> P -> bool) (cf : CFSettings).
  Hypothesis Hv : forall l, Permutation l (view l).
  Lemma nd_view l : NoDup l -> NoDup (view l).
  Proof. apply Permutation_NoDup, Hv. Qed.
  Lemma in_view l x : In x (view l) -> In x l.
  Proof. apply Permutation_in, Permutation_sym, Hv. Qed.
  Ltac perms D := unfold callDiff, diff3 in *; cbn [p3a p3b p3c] in *; destruct D as (?D1 & ?D2 & ?D3); repeat split; auto using not_eq_sym.

  Lemma cell3_diff c call : NoDup (parts c) -> In call (processCell3 isHalo view far cf c) -> callDiff call.
  Proof.
    intros N H. unfold processCell3 in H. destruct (parts c) eqn:E; [destruct H|]. rewrite <- E in *. clear E. destruct (negb (mayOwn c)); [destruct H|]. destruct (layout cf).
    - apply in_flat_map in H as (((x, y), z) & Ht & H).
      assert (D : diff3 x y z) by (destruct (Nat.ltb _ _); apply triplesInCell_ne in Ht; auto using nd_view).
      unfold interactSame3 in H. destruct (useNewton3 cf); [destruct H as [<-|[]]; exact D|].
      apply in_app_or in H as [H|H]; [|apply in_app_or in H as [H|H]]; (match type of H with In _ (if ?b then _ else _) => destruct b end; [destruct H as [<-|[]]; perms D|destruct H]).
    - apply in_map_iff in H as (((x, y), z) & <- & Ht). apply triplesInCell_ne in Ht; [exact Ht|exact N].
  Qed.
  Lemma pair3_diff g c1 c2 call : NoDup (parts c1) -> NoDup (parts c2) -> (forall x, In x (parts c1) -> In x (parts c2) -> False) ->
    In call (processCellPair3 view far cf g c1 c2) -> callDiff call.
  Proof.
    intros N1 N2 D H. unfold processCellPair3 in H. destruct (parts c1) eqn:E1; [destruct H|]. rewrite <- E1 in *. clear E1. destruct (parts c2) eqn:E2; [destruct H|]. rewrite <- E2 in *. clear E2.
    match type of H with In _ (if ?b then _ else _) => destruct b end; [destruct H|].
    assert (S : forall b l1 l2, NoDup l1 -> NoDup l2 -> (forall x, In x l1 -> In x l2 -> False) -> In call (soaPair3 b l1 l2) -> callDiff call).
    { intros b m1 m2 M1 M2 Dl Hs. apply in_flat_map in Hs as ((((x, y), z), f) & Ht & Hs). apply triplesInPair_ne in Ht; auto.
      destruct b; [destruct Hs as [<-|[]]; exact Ht|]. destruct Hs as [<-|Hs]; [exact Ht|]. destruct f; [|destruct Hs]. destruct Hs as [<-|[]]. perms Ht. }
    destruct (layout cf).
    - apply in_flat_map in H as ((((x, y), z), f) & Ht & H).
      assert (Df : diff3 x y z).
      { match type of Ht with In _ (if ?b then _ else _) => destruct b end; apply triplesInPair_ne in Ht; auto using nd_view. intros u U1 U2. apply (D u); apply in_view; assumption. }
      unfold interactPair3 in H. destruct (useNewton3 cf); [destruct H as [<-|[]]; exact Df|].
      destruct H as [<-|H]; [exact Df|]. cbn [app] in H. apply in_app_or in H as [H|H].
      + destruct f; [|destruct (bidirectional cf); [|destruct H]]; destruct H as [<-|[]]; perms Df.
      + destruct (bidirectional cf); [|destruct H]. destruct H as [<-|[]]. perms Df.
    - destruct (useNewton3 cf); [exact (S _ _ _ N1 N2 D H)|]. apply in_app_or in H as [H|H]; [exact (S _ _ _ N1 N2 D H)|]. destruct (bidirectional cf); [|destruct H].
      refine (S _ _ _ N2 N1 _ H). intros x X1 X2. exact (D x X2 X1).
  Qed.
  Lemma triple3_diff g c1 c2 c3 call : (forall x, In x (parts c1) -> In x (parts c2) -> False) -> (forall x, In x (parts c1) -> In x (parts c3) -> False) -> (forall x, In x (parts c2) -> In x (parts c3) -> False) ->
    In call (processCellTriple3 view far cf g c1 c2 c3) -> callDiff call.
  Proof.
    intros D1 D2 D3 H. unfold processCellTriple3 in H. destruct (parts c1) eqn:E1; [destruct H|]. rewrite <- E1 in *. clear E1. destruct (parts c2) eqn:E2; [destruct H|]. rewrite <- E2 in *. clear E2.
    destruct (parts c3) eqn:E3; [destruct H|]. rewrite <- E3 in *. clear E3.
    match type of H with In _ (if ?b then _ else _) => destruct b end; [destruct H|].
    assert (S : forall b l1 l2 l3, (forall x, In x l1 -> In x l2 -> False) -> (forall x, In x l1 -> In x l3 -> False) -> (forall x, In x l2 -> In x l3 -> False) -> In call (soaTriple3 b l1 l2 l3) -> callDiff call).
    { intros b m1 m2 m3 A1 A2 A3 Hs. apply in_map_iff in Hs as (((x, y), z) & <- & Ht). apply triplesInTriple_ne in Ht; auto. }
    destruct (layout cf).
    - apply in_flat_map in H as (((x, y), z) & Ht & H).
      assert (Df : diff3 x y z).
      { match type of Ht with In _ (if ?b then _ else _) => destruct b end; apply triplesInTriple_ne in Ht; auto; intros u U1 U2; [apply (D1 u)|apply (D2 u)|apply (D3 u)]; first [assumption|apply in_view; assumption]. }
      unfold interactTriple3 in H. destruct (useNewton3 cf); [destruct H as [<-|[]]; exact Df|].
      destruct H as [<-|H]; [exact Df|]. destruct (bidirectional cf); [|destruct H]. destruct H as [<-|[<-|[]]]; perms Df.
    - destruct (useNewton3 cf); [exact (S _ _ _ _ D1 D2 D3 H)|]. apply in_app_or in H as [H|H]; [exact (S _ _ _ _ D1 D2 D3 H)|]. destruct (bidirectional cf); [|destruct H].
      apply in_app_or in H as [H|H]; [refine (S _ _ _ _ _ D3 D2 H)|refine (S _ _ _ _ _ _ D1 H)]; intros x X1 X2; [exact (D1 x X2 X1)|exact (D2 x X2 X1)|exact (D3 x X2 X1)].
  Qed.

  Lemma processCell3_ext c : (mayOwn c = true -> forall q, In q (parts c) -> isHalo q = isHalo' q) ->
    processCell3 isHalo view far cf c = processCell3 isHalo' view far cf c.
  Proof.
    intros H. unfold processCell3. destruct (parts c) eqn:E; [reflexivity|]. rewrite <- E in *. destruct (mayOwn c); [|reflexivity]. cbn [negb].
    destruct (layout cf); [|reflexivity]. specialize (H eq_refl). apply flat_map_same. intros ((x, y), z) Ht.
    assert (X : In x (parts c) /\ In y (parts c) /\ In z (parts c)).
    { match type of Ht with In _ (if ?b then _ else _) => destruct b end; apply (triplesInCell_sub (fun _ => 0)) in Ht as (A1 & A2 & A3); [|auto]. split; [|split]; apply in_view; assumption. }
    destruct X as (X1 & X2 & X3). unfold interactSame3. rewrite (H x X1), (H y X2), (H z X3). reflexivity.
  Qed.
End CallsDistinct.

Section Containers3.
  Variables (cutoff spt : R) (freq : Z).
  Hypothesis Hopt : validOptions cutoff spt freq.
  Variables (view : (Slot -> R3) -> R3 -> list Slot -> list Slot).
  Hypothesis Hview : forall pos dir l, isSortedView pos dir l (view pos dir l).
  Variables (lo hi : R3) (cells : list (list Particle)).
  Let il := il cutoff spt freq.
  Let skin := skin spt freq.
  Variables (lay : Layout) (newton3 : bool) (threshold : nat).

  Lemma viewPerm3 pos dir l : Permutation l (view pos dir l).
  Proof. apply Hview. Qed.
  Lemma nd_slotsOf k : NoDup (slotsOf cells k).
  Proof. apply FinFun.Injective_map_NoDup; [intros u v [=]; assumption|apply seq_NoDup]. Qed.
  Lemma slots_apart j k x : j <> k -> In x (slotsOf cells j) -> In x (slotsOf cells k) -> False.
  Proof. intros N H1 H2. apply in_slotsOf in H1 as (H1 & _), H2 as (H2 & _). congruence. Qed.

  (** All particles of a call are different. *)
  Definition apart (c : CellCall) : Prop :=
    match c with
    | OneCell _ => True
    | TwoCells a b _ => Z.to_nat a <> Z.to_nat b
    | ThreeCells a b d _ => Z.to_nat a <> Z.to_nat b /\ Z.to_nat a <> Z.to_nat d /\ Z.to_nat b <> Z.to_nat d
    end.
  Lemma calls_diff own cf sc dir l : (forall c, In c l -> apart c) ->
    forall x, In x (flat_map (tripleCalls (slotHalo cells) (view (slotPos cells)) (slotPos cells) cf sc dir (slotCells own cells)) l) -> callDiff x.
  Proof.
    intros Ha x Hx. apply in_flat_map in Hx as (c & Hc & Hx). specialize (Ha c Hc). destruct c as [a|a b d|a b e d]; cbn [tripleCalls apart] in *; unfold cellNo in Hx.
    - destruct (nth_error _ (Z.to_nat a)) as [u|] eqn:E; [|destruct Hx]. apply slotCells_nth in E. subst u. refine (cell3_diff _ _ _ _ (viewPerm3 _ _) _ _ _ Hx). apply nd_slotsOf.
    - destruct (nth_error _ (Z.to_nat a)) as [u|] eqn:E1; [|destruct Hx]. destruct (nth_error _ (Z.to_nat b)) as [v|] eqn:E2; [|destruct Hx]. apply slotCells_nth in E1, E2. subst u v.
      refine (pair3_diff _ _ _ (viewPerm3 _ _) _ _ _ _ _ _ _ Hx); [apply nd_slotsOf..|]. intros z. apply slots_apart, Ha.
    - destruct (nth_error _ (Z.to_nat a)) as [u|] eqn:E1; [|destruct Hx]. destruct (nth_error _ (Z.to_nat b)) as [v|] eqn:E2; [|destruct Hx]. destruct (nth_error _ (Z.to_nat e)) as [w|] eqn:E3; [|destruct Hx].
      apply slotCells_nth in E1, E2, E3. subst u v w. destruct Ha as (A1 & A2 & A3).
      refine (triple3_diff _ _ _ (viewPerm3 _ _) _ _ _ _ _ _ _ _ Hx); intros z; apply slots_apart; assumption.
  Qed.

  Lemma calls_same isH own cf sc dir l : (forall k q, own (Z.of_nat k) = true -> In q (slotsOf cells k) -> slotHalo cells q = isH q) ->
    flat_map (tripleCalls (slotHalo cells) (view (slotPos cells)) (slotPos cells) cf sc dir (slotCells own cells)) l =
    flat_map (tripleCalls isH (view (slotPos cells)) (slotPos cells) cf sc dir (slotCells own cells)) l.
  Proof.
    intros H. apply flat_map_same. intros c _. destruct c as [a|a b d|a b e d]; [|reflexivity..]. cbn [tripleCalls]. unfold cellNo.
    destruct (nth_error _ (Z.to_nat a)) as [u|] eqn:E; [|reflexivity]. apply slotCells_nth in E. subst u. apply processCell3_ext; [apply viewPerm3|]. cbn [mayOwn parts]. intros O q Hq. exact (H _ q O Hq).
  Qed.

  Theorem lc_container3 csf :
    let b := grid cutoff spt freq csf lo hi in
    validGrid il csf lo hi -> size cells = numCells (blockDims b) ->
    (forall k p, In p (nth k cells []) -> cellCanContainOwnedParticles b (Z.of_nat k) = true -> isHaloP p = false) ->
    (forall x, In x (allSlots cells) -> exists x0, inBox (getHaloBoxMin b) (getHaloBoxMax b) x0 /\ get1DIndexOfPosition rndExact b x0 = Some (Z.of_nat (fst x)) /\
       (dist3 x0 (slotPos cells x) <= skin / 2)%R) ->
    let calls := lcInteract3 (slotHalo cells) (view (slotPos cells)) (slotPos cells) lay threshold il (slotCells (cellCanContainOwnedParticles b) cells)
      (c01CallsDir3B (nearR (blockLength b) il) (blockOverlap rndExact il b) (blockDims b) (blockLength b)) in
    (forall x, In x calls -> callDiff x) /\
    forall a c d, In a (allSlots cells) -> In c (allSlots cells) -> In d (allSlots cells) -> a <> c -> a <> d -> c <> d -> cellCanContainOwnedParticles b (Z.of_nat (fst a)) = true ->
      pairwiseWithin (slotPos cells) cutoff a c d -> received3 slotId calls a c d = 1%nat.
  Proof.
    intros b Hg Hsize Hown Hold. cbv zeta. destruct (skin_facts cutoff spt freq Hopt) as (C0 & S0 & Ecut). fold il in S0, Ecut. fold skin in S0, Ecut. split.
    { apply calls_diff. intros c Hc.
      assert (Hfit := lc_fits2 (slotPos cells) (view (slotPos cells)) il csf skin lo hi [] Hg (Hview _)). change (gridFits2x (blockDims b) (blockOverlap rndExact il b)) in Hfit.
      assert (Sd : exists k, ownedCell (blockDims b) (blockOverlap rndExact il b) k /\
         (drop c = CCell (threeToOneD k (blockDims b)) \/
          (exists x, inGrid (blockDims b) x /\ k <> x /\ withinReach (nearR (blockLength b) il) (blockOverlap rndExact il b) k x /\ drop c = CPair (threeToOneD k (blockDims b)) (threeToOneD x (blockDims b))) \/
          (exists x y, inGrid (blockDims b) x /\ inGrid (blockDims b) y /\ k <> x /\ k <> y /\ x <> y /\ reach3 (nearR (blockLength b) il) (blockOverlap rndExact il b) k x y /\
             drop c = CTriple (threeToOneD k (blockDims b)) (threeToOneD x (blockDims b)) (threeToOneD y (blockDims b))))).
      { apply (c01_3b_sound (nearR (blockLength b) il) (blockOverlap rndExact il b) (blockDims b) Hfit). rewrite <- (calls_drop _ _ _ (blockLength b)). apply in_map, Hc. }
      destruct Sd as (k & Ok & Sd).
      assert (Gk : inGrid (blockDims b) k) by (destruct Hfit as (Hp & _); unfold positive in Hp; unfold ownedCell, inGrid in *; lia).
      assert (Ne : forall x y, inGrid (blockDims b) x -> inGrid (blockDims b) y -> x <> y -> Z.to_nat (threeToOneD x (blockDims b)) <> Z.to_nat (threeToOneD y (blockDims b))).
      { intros x y Gx Gy N E. apply N, (threeToOneD_inj (blockDims b)); auto. assert (R1 := threeToOneD_range _ _ Gx). assert (R2 := threeToOneD_range _ _ Gy). lia. }
      destruct c as [a|a a2 dd|a a2 a3 dd]; cbn [drop apart] in *; [exact Logic.I|..].
      - destruct Sd as [Sd|[(x & Gx & N & _ & Sd)|(? & ? & _ & _ & _ & _ & _ & _ & Sd)]]; try discriminate. injection Sd as -> ->. auto.
      - destruct Sd as [Sd|[(x & Gx & N & _ & Sd)|(x & y & Gx & Gy & N1 & N2 & N3 & _ & Sd)]]; try discriminate. injection Sd as -> -> ->. auto. }
    intros a c d Ha Hc Hd N1 N2 N3 Oa D.
    destruct (finite_choice slot_dec lo _ (allSlots cells) Hold) as (old & Ho). clear Hold.
    set (isH := fun x : Slot => negb (cellCanContainOwnedParticles b (Z.of_nat (fst x)))).
    unfold lcInteract3. rewrite (calls_same isH).
    2: { intros k q Om Hq. apply in_slotsOf in Hq as (Eq & Lq). unfold isH, slotHalo. rewrite Eq, Om. cbn [negb]. apply (Hown k); [|exact Om]. rewrite <- Eq. apply slot_in, in_allSlots. rewrite Eq. exact Lq. }
    assert (Hb := Hg). destruct Hb as (Hil & Hcsf & Hbox & _ & _ & _ & SX & SY & SZ).
    assert (Hps : validParticles isH old b lo hi (allSlots cells)).
    { apply Forall_forall. intros x Hx. destruct (Ho x Hx) as (A1 & A2 & _). split; [exact A1|].
      destruct (cell_of il csf lo hi Hcsf Hbox SX SY SZ old x A1) as (k & G & B & E).
      assert (W := owned_cell il csf lo hi Hcsf Hbox k (old x) G B). unfold b, grid in A2. fold il in A2. rewrite E in A2. injection A2 as A2. unfold isH. rewrite <- A2.
      rewrite negb_false_iff. symmetry. exact W. }
    assert (Hm : movedAtMost old (slotPos cells) skin (allSlots cells)).
    { apply Forall_forall. intros x Hx. rewrite dist3_sym. apply (Ho x Hx). }
    destruct (lc_triplets slotId isH (slotPos cells) old (view (slotPos cells)) il csf skin lo hi (allSlots cells) Hg (Hview _) (slot_ids cells) Hps S0 Hm lay threshold) as (cs & E & X).
    assert (Ecs : cs = slotCells (cellCanContainOwnedParticles b) cells).
    { destruct (lc_build isH old il csf lo hi (allSlots cells) Hg Hps) as (cs' & E' & Bt). rewrite E' in E. injection E as ->.
      unfold built in Bt. rewrite Bt. fold b. unfold size in Hsize. unfold grid in b. fold il in b. fold b in Hsize |- *. rewrite (slotCells_eq cells _ (inCell rndExact b old)), Hsize; [reflexivity|].
      intros k x Hx. unfold inCell. destruct (Ho x Hx) as (_ & A2 & _). rewrite A2. rewrite Z.eqb_eq. lia. }
    subst cs. refine (proj2 (X a c d Ha Hc Hd N1 N2 N3) _ _); [unfold isH; rewrite Oa; reflexivity|rewrite Ecut; exact D].
  Qed.

  Theorem ds_container3 : length cells = 7%nat -> (skin <= cutoff)%R ->
    (forall p, In p (nth 0 cells []) -> isHaloP p = false) ->
    (forall x, In x (allSlots cells) -> exists x0, (fst x = 0%nat /\ inBox lo hi x0 \/ dsHaloCell lo hi x0 = Some (fst x)) /\ (dist3 x0 (slotPos cells x) <= skin / 2)%R) ->
    let calls := dsInteract3 (slotHalo cells) (view (slotPos cells)) (slotPos cells) lay newton3 threshold cutoff (slotCells (fun i => i =? 0) cells) in
    (forall x, In x calls -> callDiff x) /\
    forall a c d, In a (allSlots cells) -> In c (allSlots cells) -> In d (allSlots cells) -> a <> c -> a <> d -> c <> d -> fst a = 0%nat ->
      pairwiseWithin (slotPos cells) cutoff a c d -> received3 slotId calls a c d = 1%nat.
  Proof.
    intros H7 Hs Hown Hold. cbv zeta. destruct (skin_facts cutoff spt freq Hopt) as (C0 & S0 & Ecut). fold il in S0, Ecut. fold skin in S0, Ecut. split.
    { apply calls_diff. intros c Hc. apply in_app_or in Hc as [Hc|Hc].
      - destruct Hc as [<-|Hc]; [exact Logic.I|]. apply in_map_iff in Hc as (i & <- & Hi). apply in_zrange in Hi. cbn [apart]. lia.
      - apply in_flat_map in Hc as (i & Hi & Hc). apply in_map_iff in Hc as (j & <- & Hj). apply in_zrange in Hi, Hj. cbn [apart]. lia. }
    intros a c d Ha Hc Hd N1 N2 N3 Oa D.
    destruct (finite_choice slot_dec lo _ (allSlots cells) Hold) as (old & Ho). clear Hold.
    set (isH := fun x : Slot => negb (Nat.eqb (fst x) 0)).
    unfold dsInteract3. rewrite (calls_same isH).
    2: { intros k q Om Hq. apply in_slotsOf in Hq as (Eq & Lq). unfold isH, slotHalo. assert (E0 : k = 0%nat) by lia. rewrite E0 in Eq, Lq. rewrite Eq. cbn [Nat.eqb negb]. apply Hown. rewrite <- Eq. apply slot_in, in_allSlots. rewrite Eq. exact Lq. }
    assert (At : forall x, In x (allSlots cells) -> dsAt old lo hi x = Z.of_nat (fst x)).
    { intros x Hx. destruct (Ho x Hx) as ([(A & B)|A] & _); unfold dsAt.
      - rewrite (proj2 (halo_none lo hi (old x)) B), A. reflexivity.
      - rewrite A. reflexivity. }
    assert (Hps : validInBox isH old lo hi (allSlots cells)).
    { apply Forall_forall. intros x Hx. rewrite <- (at_zero slotId isH (slotPos cells) old (view (slotPos cells)) lo hi x), (At x Hx). unfold isH. destruct (Nat.eqb_spec (fst x) 0); cbn; split; intros X; congruence || lia. }
    assert (Hm : movedAtMost old (slotPos cells) skin (allSlots cells)).
    { apply Forall_forall. intros x Hx. rewrite dist3_sym. apply (Ho x Hx). }
    destruct (ds_triplets slotId isH (slotPos cells) old (view (slotPos cells)) lo hi (allSlots cells) skin cutoff (Hview _) (slot_ids cells) Hps ltac:(lra) Hm lay newton3 threshold) as (cs & E & X).
    assert (Ecs : cs = slotCells (fun i => i =? 0) cells).
    { rewrite <- (dsEmpty_built old lo hi) in E. rewrite (dsAddAll_built slotId isH (slotPos cells) old (view (slotPos cells)) lo hi (allSlots cells) [] Hps) in E. injection E as <-. cbn [app].
      rewrite (slotCells_eq cells _ (fun i x => dsAt old lo hi x =? i)), H7; [reflexivity|]. intros k x Hx. rewrite (At x Hx), Z.eqb_eq. lia. }
    subst cs. refine (proj2 (X a c d Ha Hc Hd N1 N2 N3) _ _); [unfold isH; rewrite Oa; reflexivity|exact D].
  Qed.
End Containers3.

(** * The triplets of particles *)
Section Triples.
  Variable cells : list (list Particle).
  Hypothesis Hnd : NoDup (filter live (concat cells)).
  Variable calls : list (Call3 Slot).
  Hypothesis Hdiff : forall x, In x calls -> callDiff x.
  Definition triplesOf : list (Particle * (Particle * Particle)) :=
    map (fun '(x, (y, z)) => (slotParticle cells x, (slotParticle cells y, slotParticle cells z))) (flat_map added3 calls).

  Definition slotTriple (a c d : Slot) (x : Slot * (Slot * Slot)) : bool := (slotId (fst x) =? slotId a) && samePairId (slotId c) (slotId d) (slotId (fst (snd x))) (slotId (snd (snd x))).

  Lemma received3_triples a c d : diff3 a c d -> occ (slotTriple a c d) (flat_map added3 calls) = received3 slotId calls a c d.
  Proof.
    intros (N1 & N2 & N3). assert (M1 : slotId a <> slotId c) by (intros E; apply N1, slotId_inj, E). assert (M2 : slotId a <> slotId d) by (intros E; apply N2, slotId_inj, E). assert (M3 : slotId c <> slotId d) by (intros E; apply N3, slotId_inj, E).
    unfold received3. clear Hdiff. induction calls as [|x l IH]; [reflexivity|]. cbn [flat_map]. rewrite occ_app, IH, occ_cons. f_equal.
    unfold added3, contributes3. rewrite occ_cons. unfold slotTriple at 1. cbn [fst snd].
    destruct (p3n x); cbn [andb]; [|rewrite occ_nil, orb_false_r; destruct (_ && _); reflexivity].
    rewrite !occ_cons, occ_nil. unfold slotTriple, samePairId. cbn [fst snd].
    generalize (slotId (p3a x)), (slotId (p3b x)), (slotId (p3c x)). revert M1 M2 M3. clear. generalize (slotId a), (slotId c), (slotId d). clear. intros a c d M1 M2 M3 x y z.
    destruct (Z.eqb_spec x a), (Z.eqb_spec y a), (Z.eqb_spec z a), (Z.eqb_spec x c), (Z.eqb_spec y c), (Z.eqb_spec z c), (Z.eqb_spec x d), (Z.eqb_spec y d), (Z.eqb_spec z d); cbn; try reflexivity; congruence.
  Qed.

  Lemma live_in x : pown (slotParticle cells x) <> 0 -> In (slotParticle cells x) (concat cells).
  Proof.
    intros Hz. apply slot_live in Hz. assert (Hp := slot_in _ _ Hz). apply in_cells. exists (fst x). exact Hp.
  Qed.

  Lemma triples_once a c d : diff3 a c d -> pown (slotParticle cells a) <> 0 -> pown (slotParticle cells c) <> 0 -> pown (slotParticle cells d) <> 0 -> received3 slotId calls a c d = 1%nat ->
    occ (isTriple (slotParticle cells a) (slotParticle cells c) (slotParticle cells d)) triplesOf = 1%nat.
  Proof.
    intros N La Lc Ld Rc. rewrite <- received3_triples in Rc by exact N. unfold triplesOf. rewrite occ_map, <- Rc. apply occ_ext. intros (x, (y, z)) _.
    apply eq_true_iff_eq. rewrite isTriple_iff. unfold slotTriple, samePairId. cbn [fst snd]. rewrite andb_true_iff, orb_true_iff, !andb_true_iff, !Z.eqb_eq.
    assert (U : forall u v, slotParticle cells u = slotParticle cells v -> pown (slotParticle cells v) <> 0 -> slotId u = slotId v) by (intros u v E L; f_equal; apply (slot_unique cells Hnd); [exact E|rewrite E; exact L]).
    split.
    - intros [H|H]; injection H as E1 E2 E3; auto.
    - intros (E1 & [(E2 & E3)|(E2 & E3)]); apply slotId_inj in E1, E2, E3; subst; auto.
  Qed.

  Lemma triples_in t u v : In (t, (u, v)) triplesOf -> (pown t <> 0 -> In t (concat cells)) /\ (pown u <> 0 -> In u (concat cells)) /\ (pown v <> 0 -> In v (concat cells)).
  Proof.
    unfold triplesOf. intros H. apply in_map_iff in H as ((x, (y, z)) & E & _). injection E as <- <- <-. repeat split; apply live_in.
  Qed.
  Lemma triples_diff t u v : In (t, (u, v)) triplesOf -> pown t <> 0 -> pown u <> 0 -> pown v <> 0 -> t <> u /\ t <> v /\ u <> v.
  Proof.
    unfold triplesOf. intros H Lt Lu Lv. apply in_map_iff in H as ((x, (y, z)) & E & H). injection E as <- <- <-.
    assert (D : diff3 x y z).
    { apply in_flat_map in H as (c & Hc & H). destruct (Hdiff c Hc) as (D1 & D2 & D3). unfold added3 in H.
      destruct H as [H|H]; [injection H as <- <- <-; repeat split; assumption|]. destruct (p3n c); [|destruct H].
      destruct H as [H|[H|[]]]; injection H as <- <- <-; repeat split; auto using not_eq_sym. }
    destruct D as (D1 & D2 & D3).
    split; [|split]; intros E; [apply D1|apply D2|apply D3]; apply (slot_unique cells Hnd); assumption.
  Qed.
End Triples.
