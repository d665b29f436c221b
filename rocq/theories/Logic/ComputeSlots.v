(** The traversals of the containers for the particles where they are stored. *)
From Coq Require Import Reals Lra.
From Coq Require Cantor.
From Verif.Base Require Import ZRange Lists Occ.
From Verif.Grid Require Import IndexModel IndexSpec IndexProofs CellBlockModel CellBlockSpec CellBlockExact.
From Verif.Traversal Require Import C08Model C08Bases.
From Verif.Functor Require Import CellFunctorModel FunctorSpec CellFunctorProofs SortModel SortSpec.
From Verif.Container Require Import LinkedCellsModel LinkedCellsSpec LinkedCellsGeo LinkedCellsBuild LinkedCellsCount LinkedCellsDir LinkedCellsProofs IteratorModel IteratorContainers IteratorLemmas IteratorInstances ParticleModel CollectSpec
  CellCallsModel CellCallsSpec CellCallsCount DirectSumProofs.
From Verif.Logic Require Import HandlerModel HandlerSpec HandlerCont ComputeModel.
Import ListNotations.
Local Open Scope Z_scope.

Lemma finite_choice {A B} (dec : forall x y : A, {x = y} + {x <> y}) (d : B) (Q : A -> B -> Prop) l :
  (forall x, In x l -> exists y, Q x y) -> exists f, forall x, In x l -> Q x (f x).
Proof.
  induction l as [|a l IH]; intros H; [exists (fun _ => d); intros x []|].
  destruct (H a (or_introl eq_refl)) as (y & Hy). destruct IH as (f & Hf); [intros x Hx; apply H; right; exact Hx|].
  exists (fun x => if dec x a then y else f x). intros x [<-|Hx]; [destruct (dec a a); [exact Hy|contradiction]|].
  destruct (dec x a) as [->|N]; [exact Hy|exact (Hf x Hx)].
Qed.

(** The cell functor asks particles of owned cells only whether they are halo. *)
Section Ext.
  Context {P : Type}.
  Variables (isHalo isHalo' : P -> bool).

  Lemma untilFar_in far (p q : P) l : In q (untilFar far p l) -> In q l.
  Proof. induction l as [|x l IH]; [intros []|]. cbn [untilFar]. destruct (far p x); [intros []|]. intros [<-|H]; [left; reflexivity|right; exact (IH H)]. Qed.
  Lemma laterPairs_in (inner : P -> list P -> list P) (Hi : forall p l q, In q (inner p l) -> In q l) l x y :
    In (x, y) (laterPairs inner l) -> In x l /\ In y l.
  Proof.
    induction l as [|p l IH]; [intros []|]. cbn [laterPairs]. intros H. apply in_app_or in H as [H|H].
    - apply in_map_iff in H as (q & [= <- <-] & Hq). split; [left; reflexivity|right; exact (Hi p l q Hq)].
    - destruct (IH H). split; right; assumption.
  Qed.
  Lemma flat_map_same {A B} (f g : A -> list B) l : (forall x, In x l -> f x = g x) -> flat_map f l = flat_map g l.
  Proof. induction l as [|a l IH]; intros H; [reflexivity|]. cbn [flat_map]. rewrite (H a (or_introl eq_refl)), IH; [reflexivity|]. intros x Hx. apply H. right. exact Hx. Qed.

  Lemma processCell_ext view far cf c : (forall q, In q (view (parts c)) -> In q (parts c)) ->
    (mayOwn c = true -> forall q, In q (parts c) -> isHalo q = isHalo' q) ->
    processCell isHalo view far cf c = processCell isHalo' view far cf c.
  Proof.
    intros Hv H. unfold processCell. destruct (parts c) eqn:E; [reflexivity|]. rewrite <- E in *. destruct (mayOwn c); [|reflexivity]. cbn [negb].
    destruct (layout cf); [|reflexivity]. specialize (H eq_refl). unfold processCellAoS. apply flat_map_same. intros (x, y) Hxy.
    assert (X : In x (parts c) /\ In y (parts c)).
    { destruct (Nat.ltb _ _).
      - apply laterPairs_in in Hxy as (A & B); [split; apply Hv; assumption|]. intros p0 l0 q0. apply untilFar_in.
      - apply laterPairs_in in Hxy; [exact Hxy|]. auto. }
    unfold interactSame. rewrite (H x), (H y) by apply X. reflexivity.
  Qed.
End Ext.

Section Slots.
  Variable cells : list (list Particle).
  Definition slotsOf (k : nat) : list Slot := map (pair k) (seq 0 (length (nth k cells []))).
  Definition allSlots : list Slot := flat_map slotsOf (seq 0 (length cells)).
  Definition slotId (x : Slot) : Z := Z.of_nat (Cantor.to_nat x).

  Lemma in_slotsOf k x : In x (slotsOf k) <-> fst x = k /\ (snd x < length (nth k cells []))%nat.
  Proof.
    unfold slotsOf. split.
    - intros H. apply in_map_iff in H as (j & <- & Hj). apply in_seq in Hj. cbn. lia.
    - destruct x as (k', j). cbn. intros (-> & H). apply in_map, in_seq. lia.
  Qed.
  Lemma in_allSlots x : In x allSlots <-> (snd x < length (nth (fst x) cells []))%nat.
  Proof.
    unfold allSlots. rewrite in_flat_map. split.
    - intros (k & Hk & H). apply in_slotsOf in H as (-> & H). exact H.
    - intros H. exists (fst x). split; [|apply in_slotsOf; auto]. apply in_seq. destruct (Nat.lt_ge_cases (fst x) (length cells)); [lia|].
      rewrite nth_overflow in H by assumption. cbn in H. lia.
  Qed.
  Lemma slotId_inj x y : slotId x = slotId y -> x = y.
  Proof. unfold slotId. intros H. apply Nat2Z.inj in H. rewrite <- (Cantor.cancel_of_to x), <- (Cantor.cancel_of_to y), H. reflexivity. Qed.
  Lemma NoDup_pair (k : nat) l : NoDup l -> NoDup (map (pair k) l : list Slot).
  Proof. intros H. apply FinFun.Injective_map_NoDup; [|exact H]. intros a b [= ->]. reflexivity. Qed.
  Lemma NoDup_allSlots : NoDup allSlots.
  Proof.
    unfold allSlots. apply NoDup_flat_map; [apply seq_NoDup|intros k _; apply NoDup_pair, seq_NoDup|].
    intros a b x _ _ Ha Hb. apply in_slotsOf in Ha as (<- & _), Hb as (<- & _). reflexivity.
  Qed.
  Lemma slot_ids : distinctIds slotId allSlots.
  Proof. unfold distinctIds. apply FinFun.Injective_map_NoDup; [intros x y; apply slotId_inj|apply NoDup_allSlots]. Qed.

  Lemma filter_slots (f : Slot -> bool) k : (k < length cells)%nat -> (forall x, In x allSlots -> f x = true <-> fst x = k) -> filter f allSlots = slotsOf k.
  Proof.
    intros Hk Hf. unfold allSlots in *. assert (Hin : In k (seq 0 (length cells))) by (apply in_seq; lia). assert (Nd := seq_NoDup (length cells) 0). clear Hk.
    induction (seq 0 (length cells)) as [|j l IH]; [destruct Hin|]. cbn [flat_map] in *. rewrite filter_app. inversion Nd as [|? ? N1 N2]; subst.
    assert (Out : forall l', ~ In k l' -> (forall x, In x (flat_map slotsOf l') -> f x = true <-> fst x = k) -> filter f (flat_map slotsOf l') = []).
    { intros l' N H. apply filter_nil. intros x Hx. destruct (f x) eqn:F; [|reflexivity]. exfalso. apply (H x Hx) in F. apply in_flat_map in Hx as (i & Hi & Hx). apply in_slotsOf in Hx as (E & _). congruence. }
    destruct (Nat.eq_dec j k) as [->|N].
    - rewrite Out; [|exact N1|intros x Hx; apply Hf; apply in_or_app; right; exact Hx]. rewrite app_nil_r. apply filter_all. intros x Hx. apply Hf; [apply in_or_app; left; exact Hx|]. apply in_slotsOf in Hx. apply Hx.
    - rewrite IH; [|intros x Hx; apply Hf; apply in_or_app; right; exact Hx|destruct Hin; [contradiction|assumption]|exact N2].
      rewrite filter_nil; [reflexivity|]. intros x Hx. destruct (f x) eqn:F; [|reflexivity]. exfalso. apply Hf in F; [|apply in_or_app; left; exact Hx]. apply in_slotsOf in Hx as (E & _). congruence.
  Qed.

  Lemma slotCells_eq (owned : Z -> bool) (f : Z -> Slot -> bool) : (forall k x, In x allSlots -> f (Z.of_nat k) x = true <-> fst x = k) ->
    slotCells owned cells = map (fun i => mkCell (filter (f i) allSlots) (owned i)) (zrange 0 (Z.of_nat (length cells))).
  Proof.
    intros Hf. unfold slotCells, zrange. rewrite Z.sub_0_r, Nat2Z.id, map_map. apply map_ext_in. intros k Hk. apply in_seq in Hk. rewrite Z.add_0_l.
    rewrite (filter_slots (f (Z.of_nat k)) k); [reflexivity|lia|]. intros x Hx. apply Hf, Hx.
  Qed.

  Lemma slot_in x : In x allSlots -> In (slotParticle cells x) (nth (fst x) cells []).
  Proof. intros H. apply in_allSlots in H. apply nth_In, H. Qed.

  Lemma slotCells_nth owned c x : nth_error (slotCells owned cells) c = Some x -> x = mkCell (slotsOf c) (owned (Z.of_nat c)).
  Proof.
    unfold slotCells. rewrite nth_error_map. destruct (nth_error (seq 0 (length cells)) c) as [k|] eqn:E; [|discriminate]. cbn [option_map]. intros [= <-].
    assert (L : (c < length (seq 0 (length cells)))%nat) by (apply nth_error_Some; congruence). rewrite seq_length in L.
    rewrite (nth_error_nth' _ 0%nat) in E by (rewrite seq_length; exact L). rewrite seq_nth in E by exact L. injection E as <-. reflexivity.
  Qed.
End Slots.

Section Containers.
  Variables (cutoff spt : R) (freq : Z).
  Hypothesis Hopt : validOptions cutoff spt freq.
  Variables (view : (Slot -> R3) -> R3 -> list Slot -> list Slot).
  Hypothesis Hview : forall pos dir l, isSortedView pos dir l (view pos dir l).
  Variables (lo hi : R3) (cells : list (list Particle)).
  Let il := il cutoff spt freq.
  Let skin := skin spt freq.
  Variables (lay : Layout) (newton3 : bool) (threshold : nat).

  Definition slot_dec (x y : Slot) : {x = y} + {x <> y}.
  Proof. decide equality; apply Nat.eq_dec. Defined.

  Lemma view_in pos dir l q : In q (view pos dir l) -> In q l.
  Proof. intros H. destruct (Hview pos dir l) as (P & _). apply (Permutation_in _ (Permutation_sym P)), H. Qed.

  Lemma skin_facts : (0 < cutoff)%R /\ (0 <= skin <= il)%R /\ (il - skin = cutoff)%R.
  Proof.
    destruct Hopt as (C & S & F). unfold il, skin, HandlerModel.il, HandlerModel.skin. assert (0 <= spt * IZR freq)%R by (apply Rmult_le_pos; [exact S|apply IZR_le; lia]). lra.
  Qed.

  Theorem lc_container csf t calls both :
    let b := grid cutoff spt freq csf lo hi in
    validGrid il csf lo hi -> size cells = numCells (blockDims b) ->
    (forall k p, In p (nth k cells []) -> cellCanContainOwnedParticles b (Z.of_nat k) = true -> isHaloP p = false) ->
    (forall x, In x (allSlots cells) -> exists x0, inBox (getHaloBoxMin b) (getHaloBoxMax b) x0 /\ get1DIndexOfPosition rndExact b x0 = Some (Z.of_nat (fst x)) /\
       (dist3 x0 (slotPos cells x) <= skin / 2)%R) ->
    lcCalls cutoff spt freq b t = Some (calls, both) ->
    match t with LCC08 bases => Permutation bases (concat (c08Colors (blockDims b) (blockOverlap rndExact il b))) | LCC01 => newton3 = false | _ => True end ->
    forall a c, In a (allSlots cells) -> In c (allSlots cells) -> a <> c -> cellCanContainOwnedParticles b (Z.of_nat (fst a)) = true ->
      (dist3 (slotPos cells a) (slotPos cells c) <= cutoff)%R ->
      received slotId (lcInteract (slotHalo cells) (view (slotPos cells)) (slotPos cells) (mkCF lay newton3 both threshold) il (blockLength b)
        (slotCells (cellCanContainOwnedParticles b) cells) calls) a c = 1%nat.
  Proof.
    intros b Hg Hsize Hown Hold Hcalls Ht a c Ha Hc Hne Oa D. destruct skin_facts as (C0 & S0 & Ecut).
    destruct (finite_choice slot_dec lo _ (allSlots cells) Hold) as (old & Ho). clear Hold.
    set (isH := fun x : Slot => negb (cellCanContainOwnedParticles b (Z.of_nat (fst x)))).
    assert (Eh : forall cf cs, lcInteract (slotHalo cells) (view (slotPos cells)) (slotPos cells) cf il (blockLength b) (slotCells (cellCanContainOwnedParticles b) cells) cs =
      lcInteract isH (view (slotPos cells)) (slotPos cells) cf il (blockLength b) (slotCells (cellCanContainOwnedParticles b) cells) cs).
    { intros cf cs. unfold lcInteract. apply flat_map_same. intros ((c1, c2), dir) _. unfold cellCall.
      destruct (nth_error _ (Z.to_nat c1)) as [x|] eqn:E1; [|reflexivity]. destruct (nth_error _ (Z.to_nat c2)) as [y|] eqn:E2; [|reflexivity].
      destruct (c1 =? c2); [|reflexivity]. apply processCell_ext; [intros q; apply view_in|]. apply slotCells_nth in E1. subst x. cbn [mayOwn parts]. intros Om q Hq.
      apply in_slotsOf in Hq as (Eq & Lq). unfold isH, slotHalo. rewrite Eq, Om. cbn [negb]. apply (Hown (Z.to_nat c1)); [|exact Om]. rewrite <- Eq. apply slot_in, in_allSlots. rewrite Eq. exact Lq. }
    rewrite Eh. clear Eh.
    assert (Hb := Hg). destruct Hb as (Hil & Hcsf & Hbox & _ & _ & _ & SX & SY & SZ).
    assert (Hps : validParticles isH old b lo hi (allSlots cells)).
    { apply Forall_forall. intros x Hx. destruct (Ho x Hx) as (A1 & A2 & _). split; [exact A1|].
      destruct (cell_of il csf lo hi Hcsf Hbox SX SY SZ old x A1) as (k & G & B & E).
      assert (W := owned_cell il csf lo hi Hcsf Hbox k (old x) G B). unfold b, grid in A2. fold il in A2. rewrite E in A2. injection A2 as A2. unfold isH. rewrite <- A2.
      rewrite negb_false_iff. symmetry. exact W. }
    assert (Hm : movedAtMost old (slotPos cells) skin (allSlots cells)).
    { apply Forall_forall. intros x Hx. rewrite dist3_sym. apply (Ho x Hx). }
    assert (Hcells : forall cs, lcAddAll isH rndExact b old (lcEmpty b) (allSlots cells) = Some cs -> cs = slotCells (cellCanContainOwnedParticles b) cells).
    { intros cs Hcs. destruct (lc_build isH old il csf lo hi (allSlots cells) Hg Hps) as (cs' & E & Bt). unfold b, grid in Hcs. fold il in Hcs. rewrite E in Hcs. injection Hcs as <-.
      unfold built in Bt. rewrite Bt. unfold size in Hsize. rewrite (slotCells_eq cells _ (inCell rndExact b old)), Hsize; [reflexivity|].
      intros k x Hx. unfold inCell. destruct (Ho x Hx) as (_ & A2 & _). rewrite A2. rewrite Z.eqb_eq. lia. }
    assert (Ha' : isH a = false) by (unfold isH; rewrite Oa; reflexivity).
    destruct t as [|bases| |]; cbn [lcCalls] in Hcalls; [discriminate|..]; injection Hcalls as <- <-.
    - destruct (lc_c08_family slotId isH (slotPos cells) old (view (slotPos cells)) (mkCF lay newton3 true threshold) il csf skin lo hi (allSlots cells) Hg (Hview _) (slot_ids cells) Hps S0 Hm bases Ht) as (cs & E & X);
        [apply orb_true_r|]. apply Hcells in E. subst cs. apply (X a c Ha Hc Hne); [left; exact Ha'|rewrite Ecut; exact D].
    - destruct (lc_c18 slotId isH (slotPos cells) old (view (slotPos cells)) (mkCF lay newton3 true threshold) il csf skin lo hi (allSlots cells) Hg (Hview _) (slot_ids cells) Hps S0 Hm) as (cs & E & X);
        [apply orb_true_r|]. apply Hcells in E. subst cs. apply (X a c Ha Hc Hne); [left; exact Ha'|rewrite Ecut; exact D].
    - destruct (lc_c01 slotId isH (slotPos cells) old (view (slotPos cells)) (mkCF lay newton3 false threshold) il csf skin lo hi (allSlots cells) Hg (Hview _) (slot_ids cells) Hps S0 Hm Ht eq_refl) as (cs & E & X).
      apply Hcells in E. subst cs. apply (X a c Ha Hc Hne Ha'). rewrite Ecut. exact D.
  Qed.

  Theorem ds_container : length cells = 7%nat -> (skin <= cutoff)%R ->
    (forall p, In p (nth 0 cells []) -> isHaloP p = false) ->
    (forall x, In x (allSlots cells) -> exists x0, (fst x = 0%nat /\ inBox lo hi x0 \/ dsHaloCell lo hi x0 = Some (fst x)) /\ (dist3 x0 (slotPos cells x) <= skin / 2)%R) ->
    forall a c, In a (allSlots cells) -> In c (allSlots cells) -> a <> c -> fst a = 0%nat ->
      (dist3 (slotPos cells a) (slotPos cells c) <= cutoff)%R ->
      received slotId (dsInteract (slotHalo cells) (view (slotPos cells)) (slotPos cells) lay newton3 threshold cutoff lo hi (slotCells (fun i => i =? 0) cells)) a c = 1%nat.
  Proof.
    intros H7 Hs Hown Hold a c Ha Hc Hne Oa D. destruct skin_facts as (C0 & S0 & Ecut).
    destruct (finite_choice slot_dec lo _ (allSlots cells) Hold) as (old & Ho). clear Hold.
    set (isH := fun x : Slot => negb (Nat.eqb (fst x) 0)).
    assert (Eh : dsInteract (slotHalo cells) (view (slotPos cells)) (slotPos cells) lay newton3 threshold cutoff lo hi (slotCells (fun i => i =? 0) cells) =
      dsInteract isH (view (slotPos cells)) (slotPos cells) lay newton3 threshold cutoff lo hi (slotCells (fun i => i =? 0) cells)).
    { unfold dsInteract. apply flat_map_same. intros call _. unfold pairCalls. destruct call as [c1|c1 c2 dir|]; [|reflexivity..]. unfold cellNo.
      destruct (nth_error _ (Z.to_nat c1)) as [x|] eqn:E1; [|reflexivity]. apply processCell_ext; [intros q; apply view_in|]. apply slotCells_nth in E1. subst x. cbn [mayOwn parts]. intros Om q Hq.
      apply in_slotsOf in Hq as (Eq & Lq). unfold isH, slotHalo. assert (E0 : Z.to_nat c1 = 0%nat) by lia. rewrite Eq, E0. cbn [Nat.eqb negb]. apply Hown. rewrite <- E0, <- Eq. apply slot_in, in_allSlots. rewrite Eq. exact Lq. }
    rewrite Eh. clear Eh.
    assert (At : forall x, In x (allSlots cells) -> dsAt old lo hi x = Z.of_nat (fst x)).
    { intros x Hx. destruct (Ho x Hx) as ([(A & B)|A] & _); unfold dsAt.
      - rewrite (proj2 (halo_none lo hi (old x)) B), A. reflexivity.
      - rewrite A. reflexivity. }
    assert (Hps : validInBox isH old lo hi (allSlots cells)).
    { apply Forall_forall. intros x Hx. rewrite <- (at_zero slotId isH (slotPos cells) old (view (slotPos cells)) lo hi x), (At x Hx). unfold isH. destruct (Nat.eqb_spec (fst x) 0); cbn; split; intros X; congruence || lia. }
    assert (Hm : movedAtMost old (slotPos cells) skin (allSlots cells)).
    { apply Forall_forall. intros x Hx. rewrite dist3_sym. apply (Ho x Hx). }
    destruct (ds_pairs slotId isH (slotPos cells) old (view (slotPos cells)) lo hi (allSlots cells) skin cutoff (Hview _) (slot_ids cells) Hps ltac:(lra) Hm lay newton3 threshold) as (cs & E & X).
    assert (Ecs : cs = slotCells (fun i => i =? 0) cells).
    { rewrite <- (dsEmpty_built old lo hi) in E. rewrite (dsAddAll_built slotId isH (slotPos cells) old (view (slotPos cells)) lo hi (allSlots cells) [] Hps) in E. injection E as <-. cbn [app].
      rewrite (slotCells_eq cells _ (fun i x => dsAt old lo hi x =? i)), H7; [reflexivity|]. intros k x Hx. rewrite (At x Hx), Z.eqb_eq. lia. }
    subst cs. apply (X a c Ha Hc Hne); [left; unfold isH; rewrite Oa; reflexivity|exact D].
  Qed.

  (** No particle interacts with itself. *)
  Lemma cell_noself d far cf c x y : nth_error (slotCells c cells) x = Some y -> forall q, In q (processCell (slotHalo cells) (view (slotPos cells) d) far cf y) -> fstP q <> sndP q.
  Proof.
    intros E q Hq. apply slotCells_nth in E. subst y.
    assert (Di : distinctIds slotId (slotsOf cells x)).
    { unfold distinctIds, slotsOf. apply FinFun.Injective_map_NoDup; [intros u v; apply slotId_inj|]. apply FinFun.Injective_map_NoDup; [intros u v [=]; assumption|apply seq_NoDup]. }
    apply (processCell_sub slotId far (slotHalo cells) (view (slotPos cells) d)) in Hq; [apply Hq|intros z; apply view_in| |exact Di].
    cbn [parts]. destruct (Hview (slotPos cells) d (slotsOf cells x)) as (P & _). unfold distinctIds. apply (Permutation_NoDup (Permutation_map slotId P)), Di.
  Qed.
  Lemma pair_noself d far cf g c x1 x2 y1 y2 : x1 <> x2 -> nth_error (slotCells c cells) x1 = Some y1 -> nth_error (slotCells c cells) x2 = Some y2 ->
    forall q, In q (processCellPair (view (slotPos cells) d) far cf g y1 y2) -> fstP q <> sndP q.
  Proof.
    intros N E1 E2 q Hq E. apply slotCells_nth in E1, E2. subst y1 y2.
    apply (processCellPair_sub slotId far (slotHalo cells)) in Hq; [|intros z x _; apply view_in]. cbn [parts] in Hq. rewrite <- E in Hq.
    apply N. destruct Hq as [(A & B)|(_ & A & B)]; apply in_slotsOf in A as (A & _), B as (B & _); congruence.
  Qed.

  Lemma lc_noself csf t calls both :
    let b := grid cutoff spt freq csf lo hi in
    validGrid il csf lo hi -> lcCalls cutoff spt freq b t = Some (calls, both) ->
    match t with LCC08 bases => Permutation bases (concat (c08Colors (blockDims b) (blockOverlap rndExact il b))) | _ => True end ->
    forall q, In q (lcInteract (slotHalo cells) (view (slotPos cells)) (slotPos cells) (mkCF lay newton3 both threshold) il (blockLength b)
        (slotCells (cellCanContainOwnedParticles b) cells) calls) -> fstP q <> sndP q.
  Proof.
    intros b Hg Hcalls Ht q Hq.
    assert (F1 := lc_fits (slotPos cells) (view (slotPos cells)) il csf skin lo hi [] Hg (Hview _)).
    assert (F2 := lc_fits2 (slotPos cells) (view (slotPos cells)) il csf skin lo hi [] Hg (Hview _)).
    assert (Hd : directed (blockDims b) calls).
    { destruct t as [|bases| |]; cbn [lcCalls] in Hcalls; [discriminate|..]; injection Hcalls as <- <-.
      - apply c08StepsDir_directed; [exact F1|]. intros k Hk. apply c08_bases_box; [exact F1|]. eapply Permutation_in; eauto.
      - apply c18CallsDir_directed, F2.
      - apply c01CallsDir_directed, F2. }
    apply in_flat_map in Hq as (((c1, c2), dir) & Hc & Hq). destruct (Hd c1 c2 dir Hc) as (k1 & k2 & G1 & G2 & -> & -> & _).
    assert (R1 := threeToOneD_range (blockDims b) k1 G1). assert (R2 := threeToOneD_range (blockDims b) k2 G2).
    cbn [cellCall] in Hq. destruct (nth_error _ (Z.to_nat (threeToOneD k1 _))) as [x|] eqn:E1; [|destruct Hq]. destruct (nth_error _ (Z.to_nat (threeToOneD k2 _))) as [y|] eqn:E2; [|destruct Hq].
    destruct (Z.eqb_spec (threeToOneD k1 (blockDims b)) (threeToOneD k2 (blockDims b))) as [_|N]; [exact (cell_noself _ _ _ _ _ _ E1 q Hq)|].
    refine (pair_noself _ _ _ _ _ _ _ _ _ _ E1 E2 q Hq). lia.
  Qed.

  Lemma ds_noself : forall q, In q (dsInteract (slotHalo cells) (view (slotPos cells)) (slotPos cells) lay newton3 threshold cutoff lo hi (slotCells (fun i => i =? 0) cells)) -> fstP q <> sndP q.
  Proof.
    intros q Hq. apply in_flat_map in Hq as (c & [<-|Hc] & Hq).
    - cbn [pairCalls] in Hq. unfold cellNo in Hq. destruct (nth_error _ (Z.to_nat 0)) as [x|] eqn:E1; [|destruct Hq]. exact (cell_noself _ _ _ _ _ _ E1 q Hq).
    - apply in_map_iff in Hc as (i & <- & Hi). apply in_zrange in Hi. cbn [pairCalls] in Hq. unfold cellNo in Hq.
      destruct (nth_error _ (Z.to_nat 0)) as [x|] eqn:E1; [|destruct Hq]. destruct (nth_error _ (Z.to_nat i)) as [y|] eqn:E2; [|destruct Hq].
      refine (pair_noself _ _ _ _ _ _ _ _ _ _ E1 E2 q Hq). lia.
  Qed.
End Containers.
