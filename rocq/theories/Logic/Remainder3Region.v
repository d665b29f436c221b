(** The nested region iterators of the three-body remainder traversal visit every pair of
    particles in the region once. *)
From Coq Require Import Reals Lra.
From Verif.Base Require Import ZRange Lists Occ OptionM.
From Verif.Grid Require Import IndexModel IndexSpec IndexProofs CellBlockModel CellBlockSpec CellBlockProofs CellBlockExact.
From Verif.Functor Require Import CellFunctorModel FunctorSpec SortModel SortSpec SortProofs.
From Verif.Container Require Import LinkedCellsModel LinkedCellsSpec LinkedCellsGeo IteratorModel IteratorContainers IteratorSpec IteratorLemmas IteratorInstances IteratorRegion IteratorProps
  ParticleModel CollectModel CollectSpec CollectRun ForEachModel ForEachProofs.
From Verif.Logic Require Import HandlerModel HandlerSpec HandlerCont RemainderModel RemainderSpec RemainderProofs ComputeModel ComputeSlots ComputeProofs Remainder3Model Remainder3Core.
Import ListNotations.
Local Open Scope Z_scope.

(** * One thread without deletions *)
Section Visits.
  Variables (conf : Z -> Conf Particle) (st : Store Particle) (gatherNow : Store Particle -> list nat).
  Notation run := (runParallel conf gatherNow (fun _ _ _ => false)).

  Lemma run_visits : forall k it seen st' ths, run (repeat 0%nat k) st [Running it seen] = Some (st', ths) ->
    exists it' l, ths = [Running it' (seen ++ l)] /\ st' = st /\ (current it' = None -> forall fuel, (k <= fuel)%nat -> visits (conf 0) st fuel it = Some l).
  Proof.
    induction k as [|k IH]; intros it seen st' ths H.
    - cbn [repeat runParallel] in H. injection H as <- <-. exists it, []. rewrite app_nil_r. split; [reflexivity|]. split; [reflexivity|].
      intros E fuel _. destruct fuel; cbn [visits]; rewrite E; reflexivity.
    - cbn [repeat runParallel nth_error] in H. cbn [threadStep] in H. change (Z.of_nat 0) with 0 in H. destruct (current it) as [x|] eqn:Cu.
      + unfold loopStep in H. destruct (next (conf 0) st it) as [it1|] eqn:Nx; [|discriminate]. cbn [setAt] in H.
        destruct (IH _ _ _ _ H) as (it' & l & -> & -> & V). exists it', (x :: l). rewrite <- app_assoc. split; [reflexivity|]. split; [reflexivity|].
        intros E fuel Hf. destruct fuel as [|fuel]; [lia|]. cbn [visits]. rewrite Cu, Nx. rewrite V by (assumption || lia). reflexivity.
      + cbn [setAt] in H. destruct (IH _ _ _ _ H) as (it' & l & -> & -> & V). exists it', l. split; [reflexivity|]. split; [reflexivity|].
        intros E fuel Hf. apply V; [exact E|lia].
  Qed.

  Lemma nested_visits : forall fuel it l, visits (conf 0) st fuel it = Some l -> nestedVisits (conf 0) st fuel it = Some (later l).
  Proof.
    induction fuel as [|fuel IH]; intros it l H; cbn [visits nestedVisits] in *; destruct (current it) as [x|]; try discriminate; try (injection H as <-; reflexivity).
    destruct (next (conf 0) st it) as [it1|]; [|discriminate]. destruct (visits (conf 0) st fuel it1) as [l1|] eqn:V; [|discriminate]. cbn [option_map] in H. injection H as <-.
    rewrite (IH _ _ V). reflexivity.
  Qed.
End Visits.

Lemma pairs_visited (conf : Z -> Conf Particle) cells behavior region marks :
  iterationCorrect pown behavior 0 1 region conf marks (fun _ _ _ => false) (mkStore cells []) (repeat 0%nat (S (S (length (concat cells))))) ->
  exists it l, begin_ (conf 0) (mkStore cells []) [] = Some it /\ nestedVisits (conf 0) (mkStore cells []) (S (length (concat cells))) it = Some (later l) /\
    Permutation l (filter (fun x => region x && wantedb behavior (pown x)) (concat cells)).
Proof.
  intros (st' & ths & H & Fair & Fin & _). set (n := length (concat cells)) in *. change (repeat 0%nat (S (S n))) with (0%nat :: repeat 0%nat (S n)) in H.
  assert (G : gather behavior 0 (mkStore cells []) = []).
  { unfold gather. cbn [buffers length]. destruct (hasFlag _ _), (hasFlag _ _); reflexivity. }
  cbn [runParallel] in H. change (repeat NotStarted 1) with [@NotStarted Particle] in H. cbn [nth_error] in H. cbn [threadStep] in H. rewrite G in H.
  change (Z.of_nat 0) with 0 in H. destruct (begin_ (conf 0) (mkStore cells []) []) as [it|]; [|discriminate]. cbn [setAt] in H.
  destruct (run_visits conf (mkStore cells []) _ (S n) it [] st' ths H) as (it' & l & -> & -> & V). cbn [app] in *.
  assert (F : Forall finished [Running it' l]).
  { apply Fair. intros t Ht. assert (t = 0%nat) by lia. subst t. unfold contents. cbn [IteratorModel.cells buffers concat]. rewrite app_nil_r. fold n. rewrite count_occ_repeat_eq by reflexivity. lia. }
  assert (Cu : current it' = None) by (inversion F; assumption).
  exists it, l. split; [reflexivity|]. split; [apply nested_visits, V; [exact Cu|lia]|].
  specialize (Fin F). unfold visited, visitedBy, contents in Fin. cbn [seq flat_map nth_error IteratorModel.cells buffers concat] in Fin. rewrite !app_nil_r in Fin. exact Fin.
Qed.

(** * The containers *)
Lemma choose_old cells (Q : nat -> Particle -> R3 -> Prop) : NoDup (filter live (concat cells)) -> (forall k p, In p (nth k cells []) -> exists x0, Q k p x0) ->
  exists old, forall k p, In p (nth k cells []) -> pown p <> 0 -> Q k p (old p).
Proof.
  intros Nl HQ.
  destruct (finite_choice slot_dec (mkR3 0 0 0) (fun x => Q (fst x) (slotParticle cells x)) (allSlots cells)) as (f & Hf).
  { intros x Hx. apply HQ, slot_in, Hx. }
  destruct (finite_choice particle_dec (0, 0)%nat (fun p x => In x (allSlots cells) /\ slotParticle cells x = p) (concat cells)) as (g & Hg).
  { intros p Hp. apply slot_of, Hp. }
  exists (fun p => f (g p)). intros k p Hp L. destruct (Hg p) as (G1 & G2); [apply in_cells; exists k; exact Hp|]. assert (F := Hf _ G1).
  apply In_nth with (d := mkParticle 0 (mkR3 0 0 0) stDummy 0) in Hp as (j & Hj & Ej).
  assert (E : g p = (k, j)) by (apply (slot_unique cells Nl); [rewrite G2; symmetry; exact Ej|rewrite G2; exact L]).
  rewrite G2 in F. rewrite E in F |- *. exact F.
Qed.

Lemma at_nth {A} (l : list (list A)) c x : at_ l c = Some x -> 0 <= c /\ nth (Z.to_nat c) l [] = x.
Proof. unfold at_. destruct (Z.ltb_spec c 0); [discriminate|]. intros E. split; [lia|]. apply nth_error_nth, E. Qed.
Lemma cell_size {A} (l : list (list A)) c x : at_ l c = Some x -> size x <= size (concat l).
Proof.
  unfold at_. destruct (Z.ltb_spec c 0); [discriminate|]. intros E. apply nth_error_In in E. unfold size. apply inj_le. induction l as [|a l IH]; [destruct E|].
  cbn [concat]. rewrite app_length. destruct E as [->|E]; [lia|]. specialize (IH E). lia.
Qed.

Section Kinds.
  Variables (cutoff spt : R) (freq : Z) (lo hi : R3) (c : Cont) (steps : Z).
  Let len := il cutoff spt freq.
  Let cells := ccells c.
  Definition seenb (l h : R3) (p : Particle) : bool := inBoxb l h (ppos p) && inBoxb (shift lo (- len)) (shift hi len) (ppos p) && wantedb 11 (pown p).
  Hypothesis Hmany : size (concat cells) < sizeMax.
  Hypothesis Nl : NoDup (filter live (concat cells)).

  Lemma lc_pairs csf l h : kind c = KLinkedCells csf ->
    let b := grid cutoff spt freq csf lo hi in
    validGrid len csf lo hi -> size cells = numCells (blockDims b) -> size cells < sizeMax ->
    (forall k p, In p (nth k cells []) -> validState (pown p) /\
       (pown p = 1 -> cellCanContainOwnedParticles b (Z.of_nat k) = true) /\ (pown p = 2 -> cellCanContainHaloParticles b (Z.of_nat k) = true) /\
       exists x0, inBox (getHaloBoxMin b) (getHaloBoxMax b) x0 /\ get1DIndexOfPosition rndExact b x0 = Some (Z.of_nat k) /\ within (spt * IZR steps) x0 (ppos p)) ->
    (0 <= spt * IZR steps <= len)%R ->
    (rx l <= rx hi + len)%R -> (ry l <= ry hi + len)%R -> (rz l <= rz hi + len)%R ->
    (rx lo - len <= rx h)%R -> (ry lo - len <= ry h)%R -> (rz lo - len <= rz h)%R ->
    exists ps, regionPairsOf cutoff spt freq lo hi c steps l h = Some (later ps) /\ Permutation ps (filter (seenb l h) (concat cells)).
  Proof.
    intros K b Hg Hsize Hlim Hpl Hm A1 A2 A3 A4 A5 A6.
    destruct (choose_old cells (fun k p x0 => inBox (getHaloBoxMin b) (getHaloBoxMax b) x0 /\ get1DIndexOfPosition rndExact b x0 = Some (Z.of_nat k) /\ within (spt * IZR steps) x0 (ppos p)) Nl) as (old & Hold).
    { intros k p Hp. apply (Hpl k p Hp). }
    destruct (lc_region len csf lo hi Hg pown old ppos 11 1 0 1 None (fun _ _ _ => false) (mkStore cells []) (repeat 0%nat (S (S (length (concat cells))))) (spt * IZR steps) l h) as (conf & Hc & It); auto.
    - split; [lia|]. right. split; [|reflexivity]. right. right. left. reflexivity.
    - split; [exact Hsize|]. split; [exact Hlim|]. intros i x Hi. split; [apply (Z.le_lt_trans _ _ _ (cell_size _ _ _ Hi) Hmany)|].
      intros p Hp. destruct (at_nth _ _ _ Hi) as (I0 & Hx). cbn [IteratorModel.cells] in Hx. rewrite <- Hx in Hp. destruct (Hpl _ p Hp) as (V & V1 & V2 & _). rewrite Z2Nat.id in V1, V2 by exact I0. auto.
    - split; [cbn; lia|]. split; [reflexivity|]. split; [intros x []|]. intros i x p Hi. destruct i; discriminate.
    - intros m [=].
    - left. reflexivity.
    - intros i x p Hi Hp Wa. destruct (at_nth _ _ _ Hi) as (I0 & Hx). cbn [IteratorModel.cells] in Hx. rewrite <- Hx in Hp.
      assert (O : pown p <> 0) by (intros O; rewrite O in Wa; discriminate). destruct (Hold _ p Hp O) as (F1 & F2 & F3). rewrite Z2Nat.id in F2 by exact I0.
      split; [exact F1|]. split; [exact F2|exact F3].
    - apply pairs_visited in It as (it & ps & B & Nv & Pm). exists ps. split; [|exact Pm].
      unfold regionPairsOf, regionConfOf. rewrite K. change (Z.lor bhOwnedOrHalo bhForceSequential) with 11. unfold grid. fold len. fold cells. rewrite (Hc 0), B. exact Nv.
  Qed.

  Lemma ds_pairs_region l h : kind c = KDirectSum -> length cells = 7%nat ->
    (forall k p, In p (nth k cells []) -> validState (pown p) /\ (k = 0%nat -> pown p <> 2) /\ (k <> 0%nat -> pown p <> 1)) ->
    exists ps, regionPairsOf cutoff spt freq lo hi c steps l h = Some (later ps) /\ Permutation ps (filter (seenb l h) (concat cells)).
  Proof.
    intros K H7 Hpl.
    destruct (ds_region_visits pown ppos len lo hi 11 1 0 1 (fun _ _ _ => false) (mkStore cells []) (repeat 0%nat (S (S (length (concat cells))))) l h) as (region & Hr & It).
    - split; [lia|]. right. split; [|reflexivity]. right. right. left. reflexivity.
    - split; [unfold size; cbn [IteratorModel.cells]; rewrite H7; reflexivity|]. intros i x Hi. split; [apply (Z.le_lt_trans _ _ _ (cell_size _ _ _ Hi) Hmany)|].
      intros p Hp. destruct (at_nth _ _ _ Hi) as (I0 & Hx). cbn [IteratorModel.cells] in Hx. rewrite <- Hx in Hp. destruct (Hpl _ p Hp) as (V & V1 & V2).
      split; [exact V|]. split; intros Hi0; [apply V1|apply V2]; lia.
    - split; [cbn; lia|]. split; [reflexivity|]. split; [intros x []|]. intros i x p Hi. destruct i; discriminate.
    - right. reflexivity.
    - left. reflexivity.
    - apply pairs_visited in It as (it & ps & B & Nv & Pm). exists ps. split.
      + unfold regionPairsOf, regionConfOf. rewrite K. change (Z.lor bhOwnedOrHalo bhForceSequential) with 11. fold len. fold cells. cbn [IteratorModel.cells] in B, Nv. rewrite B. exact Nv.
      + rewrite Pm. erewrite filter_ext; [reflexivity|]. intros p. unfold seenb. f_equal. apply eq_true_iff_eq. rewrite Hr, andb_true_iff, !inBoxb_iff. reflexivity.
  Qed.
End Kinds.
