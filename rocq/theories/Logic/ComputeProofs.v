(** One interaction computation after any history: exactly once per pair. *)
From Coq Require Import Reals Lra.
From Verif.Base Require Import ZRange Lists Occ OptionM.
From Verif.Grid Require Import IndexModel IndexSpec IndexProofs CellBlockModel CellBlockSpec CellBlockProofs CellBlockExact.
From Verif.Functor Require Import CellFunctorModel FunctorSpec SortModel SortSpec SortProofs.
From Verif.Container Require Import LinkedCellsModel LinkedCellsSpec LinkedCellsGeo IteratorModel IteratorContainers IteratorSpec IteratorLemmas IteratorInstances IteratorRegion
  ParticleModel CollectModel CollectSpec CollectProofs CollectRun CollectContainers CollectTheorems UpdateModel UpdateProofs ForEachModel ForEachProofs.
From Verif.Logic Require Import BalanceModel BalanceProofs HandlerModel HandlerSpec HandlerCont HandlerUpdate HandlerProofs HandlerExact HandlerTotal HandlerFields HandlerNear HandlerHalo HandlerAge HandlerDrift
  RemainderModel RemainderSpec RemainderProofs RemainderContainers ComputeModel ComputeSpec ComputeSlots.
Import ListNotations.
Local Open Scope Z_scope.

(** * Lists *)
Lemma map_nth_all {A} (l : list A) d : map (fun j => nth j l d) (seq 0 (length l)) = l.
Proof.
  induction l as [|a l IH]; [reflexivity|]. cbn [length seq map nth]. f_equal. rewrite <- seq_shift, map_map. exact IH.
Qed.
Lemma concat_slots cells : map (slotParticle cells) (allSlots cells) = concat cells.
Proof.
  unfold allSlots. rewrite flat_map_concat_map, concat_map, map_map. f_equal. etransitivity; [|apply (map_nth_all cells [])]. apply map_ext. intros k.
  unfold slotsOf. rewrite map_map. exact (map_nth_all (nth k cells []) _).
Qed.
Lemma NoDup_map_inj {A B} (f : A -> B) l x y : NoDup (map f l) -> In x l -> In y l -> f x = f y -> x = y.
Proof.
  induction l as [|a l IH]; intros N Hx Hy E; [destruct Hx|]. cbn [map] in N. inversion N as [|? ? N1 N2]; subst.
  destruct Hx as [<-|Hx], Hy as [<-|Hy]; [reflexivity|..|exact (IH N2 Hx Hy E)]; exfalso; apply N1; [rewrite E|rewrite <- E]; apply in_map; assumption.
Qed.
Lemma occ_one_split {A} (f : A -> bool) l : occ f l = 1%nat -> exists l1 x l2, l = l1 ++ x :: l2 /\ f x = true /\ occ f l1 = 0%nat /\ occ f l2 = 0%nat.
Proof.
  induction l as [|a l IH]; [discriminate|]. rewrite occ_cons. destruct (f a) eqn:F; intros H.
  - exists [], a, l. repeat split; auto.
  - destruct (IH H) as (l1 & x & l2 & -> & Fx & O1 & O2). exists (a :: l1), x, l2. rewrite occ_cons, F. auto.
Qed.
Lemma exactlyOnce_nodup {A} (x : A) l : NoDup l -> In x l -> exactlyOnce x l.
Proof.
  intros N H. apply in_split in H as (l1 & l2 & ->). exists l1, l2. split; [reflexivity|]. apply NoDup_remove_2 in N. rewrite in_app_iff in N. tauto.
Qed.
Lemma exactlyOnce_left {A} (x : A) l r : exactlyOnce x l -> ~ In x r -> exactlyOnce x (l ++ r).
Proof. intros (l1 & l2 & -> & N1 & N2) N. exists l1, (l2 ++ r). rewrite <- app_assoc, in_app_iff. tauto. Qed.
Lemma exactlyOnce_right {A} (x : A) l r : ~ In x l -> exactlyOnce x r -> exactlyOnce x (l ++ r).
Proof. intros N (l1 & l2 & -> & N1 & N2). exists (l ++ l1), l2. rewrite <- app_assoc, in_app_iff. tauto. Qed.
Lemma filter_two {A} (f g : A -> bool) l : (forall x, In x l -> f x = true -> g x = false) -> Permutation (filter f l ++ filter g l) (filter (fun x => f x || g x) l).
Proof.
  induction l as [|a l IH]; intros H; [constructor|]. cbn [filter]. assert (IH' := IH (fun x Hx => H x (or_intror Hx))).
  destruct (f a) eqn:F; cbn [orb].
  - rewrite (H a (or_introl eq_refl) F). cbn [app]. constructor. exact IH'.
  - destruct (g a); [|exact IH']. rewrite <- Permutation_middle. constructor. exact IH'.
Qed.

(** * The pairs of the container *)
Section Pairs.
  Variables (cells : list (list Particle)) (calls : list (CellFunctorModel.Call Slot)).
  Definition live (p : Particle) : bool := negb (isDummy p).
  Hypothesis Hnd : NoDup (filter live (concat cells)).
  Definition pairsOf : list (Particle * Particle) := map (fun xy => (slotParticle cells (fst xy), slotParticle cells (snd xy))) (flat_map added calls).

  Lemma live_iff p : live p = true <-> pown p <> 0.
  Proof. unfold live, isDummy, stDummy. rewrite negb_true_iff. apply Z.eqb_neq. Qed.
  Lemma slot_live x : pown (slotParticle cells x) <> 0 -> In x (allSlots cells).
  Proof.
    intros H. apply in_allSlots. destruct (Nat.lt_ge_cases (snd x) (length (nth (fst x) cells []))) as [L|L]; [exact L|].
    exfalso. apply H. unfold slotParticle. rewrite nth_overflow by exact L. reflexivity.
  Qed.
  Lemma filter_map {A B} (f : B -> bool) (g : A -> B) l : filter f (map g l) = map g (filter (fun x => f (g x)) l).
  Proof. induction l as [|a l IH]; [reflexivity|]. cbn [map filter]. destruct (f (g a)); cbn [map]; rewrite IH; reflexivity. Qed.
  Lemma slot_unique x y : slotParticle cells x = slotParticle cells y -> pown (slotParticle cells x) <> 0 -> x = y.
  Proof.
    intros E H. assert (H' := H). rewrite E in H'. assert (N := Hnd). rewrite <- concat_slots, filter_map in N. apply (NoDup_map_inj _ _ x y N); [| |exact E].
    - apply filter_In. split; [apply slot_live, H|apply live_iff, H].
    - apply filter_In. split; [apply slot_live, H'|apply live_iff, H'].
  Qed.
  Lemma slot_of p : In p (concat cells) -> exists x, In x (allSlots cells) /\ slotParticle cells x = p.
  Proof. rewrite <- concat_slots. intros H. apply in_map_iff in H as (x & E & Hx). exists x. auto. Qed.

  Lemma received_pairs a c : a <> c -> occ (fun xy => (slotId (fst xy) =? slotId a) && (slotId (snd xy) =? slotId c)) (flat_map added calls) = received slotId calls a c.
  Proof.
    intros N. assert (N' : slotId a <> slotId c) by (intros E; apply N, slotId_inj, E). unfold received. induction calls as [|x l IH]; [reflexivity|]. cbn [flat_map]. rewrite occ_app, IH, occ_cons. f_equal.
    unfold added, contributes. rewrite occ_cons. cbn [fst snd].
    destruct (n3 x); [rewrite occ_cons|]; cbn [fst snd andb]; rewrite occ_nil;
      destruct (Z.eqb_spec (slotId (fstP x)) (slotId a)), (Z.eqb_spec (slotId (sndP x)) (slotId c)), (Z.eqb_spec (slotId (fstP x)) (slotId c)), (Z.eqb_spec (slotId (sndP x)) (slotId a)); cbn; try reflexivity; congruence.
  Qed.

  Lemma pairs_once a c : a <> c -> pown (slotParticle cells a) <> 0 -> pown (slotParticle cells c) <> 0 -> received slotId calls a c = 1%nat ->
    exactlyOnce (slotParticle cells a, slotParticle cells c) pairsOf.
  Proof.
    intros N La Lc R. rewrite <- received_pairs in R by exact N. apply occ_one_split in R as (l1 & (x, y) & l2 & E & F & O1 & O2). cbn [fst snd] in F.
    apply andb_prop in F as (F1 & F2). apply Z.eqb_eq in F1, F2. apply slotId_inj in F1, F2. subst x y.
    unfold pairsOf. rewrite E, map_app. cbn [map fst snd]. eexists _, _. split; [reflexivity|].
    assert (Q : forall l, occ (fun xy : Slot * Slot => (slotId (fst xy) =? slotId a) && (slotId (snd xy) =? slotId c)) l = 0%nat ->
      ~ In (slotParticle cells a, slotParticle cells c) (map (fun xy : Slot * Slot => (slotParticle cells (fst xy), slotParticle cells (snd xy))) l)).
    { intros l O H. apply in_map_iff in H as ((x, y) & [= E1 E2] & H). apply (occ_zero_inv _ _ O) in H. cbn [fst snd] in *.
      apply slot_unique in E1; [|rewrite E1; exact La]. apply slot_unique in E2; [|rewrite E2; exact Lc]. subst. rewrite !Z.eqb_refl in H. discriminate. }
    split; apply Q; assumption.
  Qed.

  Lemma pairs_in p q : In (p, q) pairsOf -> pown p <> 0 -> pown q <> 0 -> In p (concat cells) /\ In q (concat cells).
  Proof.
    unfold pairsOf. intros H Lp Lq. apply in_map_iff in H as ((x, y) & [= E1 E2] & _). cbn [fst snd] in *. subst p q.
    split; apply in_concat; eexists; (split; [|apply slot_in, slot_live; eassumption]).
    all: apply nth_In; match goal with |- (fst ?z < _)%nat => assert (Hz : In z (allSlots cells)) by (apply slot_live; assumption); apply in_allSlots in Hz; destruct (Nat.lt_ge_cases (fst z) (length cells)) as [?|O]; [assumption|rewrite nth_overflow in Hz by exact O; cbn in Hz; lia] end.
  Qed.
End Pairs.

(** * The remainder, with dummies in the container *)
Lemma visited_live behavior region l : behavior = 1 \/ behavior = 3 -> filter (visitedb behavior region) (filter live l) = filter (visitedb behavior region) l.
Proof.
  intros B. rewrite filter_filter. apply filter_ext_in. intros p _. unfold visitedb, live, isDummy, stDummy. destruct (Z.eqb_spec (pown p) 0) as [->|N]; cbn [negb andb].
  - destruct B as [-> | ->]; reflexivity.
  - reflexivity.
Qed.

Lemma remainder_lc_live cutoff skin csf bMin bMax cells bufs halos newton3 numLocks :
  let il := (cutoff + skin)%R in let b := rebuild rndExact il csf bMin bMax in
  validGrid il csf bMin bMax -> (0 < cutoff)%R -> (0 <= skin)%R ->
  size cells = numCells (blockDims b) ->
  (forall k p, In p (nth k cells []) -> validState (pown p) /\
     (pown p = 1 -> cellCanContainOwnedParticles b (Z.of_nat k) = true) /\
     (pown p = 2 -> cellCanContainHaloParticles b (Z.of_nat k) = true) /\
     exists x0, inBox (getHaloBoxMin b) (getHaloBoxMax b) x0 /\
        get1DIndexOfPosition rndExact b x0 = Some (Z.of_nat k) /\ within skin x0 (ppos p)) ->
  NoDup (concat bufs ++ concat halos ++ filter live (concat cells)) ->
  (forall p, In p (concat bufs) -> pown p = 1 /\ inGrownBox il bMin bMax (ppos p)) ->
  (forall p, In p (concat halos) -> pown p = 2 /\ inGrownBox il bMin bMax (ppos p)) ->
  length bufs = length halos -> (length bufs <= numLocks)%nat ->
  exists calls,
    remainder2B rndExact newton3 cutoff (fun behavior lo hi => lcForEachInRegion rndExact b skin behavior lo hi cells) numLocks bufs halos = Some calls /\
    remainderCorrect cutoff (concat bufs ++ concat halos) (filter live (concat cells)) (flat_map forces calls).
Proof.
  intros il b Hg Hc Hs Hsize Hpl Hall Hb Hh Hlen Hlocks.
  assert (Nl : NoDup (filter live (concat cells))) by (rewrite app_assoc in Hall; apply NoDup_app_inv in Hall; apply Hall).
  assert (Ch : exists old, forall p k, In p (nth k cells []) -> pown p <> 0 -> inBox (getHaloBoxMin b) (getHaloBoxMax b) (old p) /\ get1DIndexOfPosition rndExact b (old p) = Some (Z.of_nat k) /\ movedWithin old ppos skin p).
  { set (at_ := fun x : Slot => fun x0 => inBox (getHaloBoxMin b) (getHaloBoxMax b) x0 /\ get1DIndexOfPosition rndExact b x0 = Some (Z.of_nat (fst x)) /\ within skin x0 (ppos (slotParticle cells x))).
    destruct (finite_choice slot_dec bMin at_ (allSlots cells)) as (f & Hf).
    { intros x Hx. destruct (Hpl (fst x) (slotParticle cells x) (slot_in cells x Hx)) as (_ & _ & _ & X). exact X. }
    (* every live particle has one slot *)
    assert (dec : forall p q : Particle, {p = q} + {p <> q}).
    { intros [i1 [x1 y1 z1] o1 d1] [i2 [x2 y2 z2] o2 d2].
      destruct (Z.eq_dec i1 i2); [|right; congruence]. destruct (Z.eq_dec o1 o2); [|right; congruence]. destruct (Z.eq_dec d1 d2); [|right; congruence].
      destruct (Req_EM_T x1 x2); [|right; congruence]. destruct (Req_EM_T y1 y2); [|right; congruence]. destruct (Req_EM_T z1 z2); [|right; congruence]. left; congruence. }
    destruct (finite_choice dec (0, 0)%nat (fun p x => In x (allSlots cells) /\ slotParticle cells x = p) (concat cells)) as (g & Hg').
    { intros p Hp. apply slot_of, Hp. }
    exists (fun p => f (g p)). intros p k Hp L. destruct (Hg' p) as (G1 & G2); [apply in_cells; exists k; exact Hp|]. destruct (Hf _ G1) as (F1 & F2 & F3).
    split; [exact F1|]. split.
    - rewrite F2. f_equal. f_equal. apply In_nth with (d := mkParticle 0 (mkR3 0 0 0) stDummy 0) in Hp as (j & Hj & Ej).
      assert (E : g p = (k, j)) by (apply (slot_unique cells Nl); [rewrite G2; symmetry; exact Ej|rewrite G2; exact L]). rewrite E. reflexivity.
    - rewrite G2 in F3. unfold movedWithin. unfold within in F3. exact F3. }
  destruct Ch as (old & Hold).
  apply remainder_any; auto; try lra.
  - intros p Hp. apply Hb, Hp.
  - intros p Hp. apply Hh, Hp.
  - intros q Hq. apply filter_In in Hq as (Hq & _). apply in_cells in Hq as (k & Hq). apply (Hpl k q Hq).
  - intros p behavior Hp B. rewrite (visited_live _ _ _ B).
    assert (G : inGrownBox il bMin bMax (ppos p)) by (apply in_app_or in Hp as [Hp|Hp]; [apply Hb|apply Hh]; exact Hp).
    destruct G as (G1 & G2 & G3). unfold growLow, growHigh in *. cbn [rx ry rz] in *.
    apply (lc_for_each_in_region il csf bMin bMax Hg cells Hsize) with (old := old).
    + intros k q Hq. destruct (Hpl k q Hq) as (A1 & A2 & A3 & _). auto.
    + intros k q Hq O. apply (Hold q k Hq O).
    + destruct B as [->| ->]; unfold lambdaBehavior; auto.
    + destruct B as [->| ->]; discriminate.
    + destruct B as [->| ->]; discriminate.
    + unfold low, rndExact, il in *. cbn [rx ry rz] in *. lra.
    + unfold low, rndExact, il in *. cbn [rx ry rz] in *. lra.
    + unfold low, rndExact, il in *. cbn [rx ry rz] in *. lra.
    + unfold high, rndExact, il in *. cbn [rx ry rz] in *. lra.
    + unfold high, rndExact, il in *. cbn [rx ry rz] in *. lra.
    + unfold high, rndExact, il in *. cbn [rx ry rz] in *. lra.
    + unfold low, high, rndExact. cbn [rx ry rz]. lra.
    + unfold low, high, rndExact. cbn [rx ry rz]. lra.
    + unfold low, high, rndExact. cbn [rx ry rz]. lra.
Qed.

Lemma remainder_ds_live cutoff cells bufs halos newton3 numLocks :
  (0 < cutoff)%R -> length cells = 7%nat ->
  (forall k p, In p (nth k cells []) -> validState (pown p) /\ (k = 0%nat -> pown p <> 2) /\ (k <> 0%nat -> pown p <> 1)) ->
  NoDup (concat bufs ++ concat halos ++ filter live (concat cells)) ->
  (forall p, In p (concat bufs) -> pown p = 1) -> (forall p, In p (concat halos) -> pown p = 2) ->
  length bufs = length halos -> (length bufs <= numLocks)%nat ->
  exists calls,
    remainder2B rndExact newton3 cutoff (fun behavior lo hi => dsForEachInRegion behavior lo hi cells) numLocks bufs halos = Some calls /\
    remainderCorrect cutoff (concat bufs ++ concat halos) (filter live (concat cells)) (flat_map forces calls).
Proof.
  intros Hc H7 Hpl Hall Hb Hh Hlen Hlocks. apply remainder_any; auto; try lra.
  - intros q Hq. apply filter_In in Hq as (Hq & _). apply in_cells in Hq as (k & Hq). apply (Hpl k q Hq).
  - intros p behavior Hp B. rewrite (visited_live _ _ _ B). apply ds_for_each_in_region; auto.
    + destruct B as [->| ->]; unfold lambdaBehavior; auto.
    + destruct B as [->| ->]; discriminate.
    + destruct B as [->| ->]; discriminate.
Qed.
