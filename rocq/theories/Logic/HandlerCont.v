(** What the operations of the containers do to the stored particles. *)
From Coq Require Import Reals Lra.
From Verif.Base Require Import ZRange Lists Occ.
From Verif.Grid Require Import IndexModel IndexSpec IndexProofs CellBlockModel CellBlockSpec CellBlockProofs CellBlockExact.
From Verif.Functor Require Import SortModel.
From Verif.Container Require Import LinkedCellsModel LinkedCellsSpec LinkedCellsGeo IteratorModel IteratorContainers IteratorSpec IteratorLemmas IteratorInstances IteratorRegion
  ParticleModel CollectModel CollectSpec CollectProofs CollectRun CollectContainers CollectTheorems UpdateModel UpdateProofs.
From Verif.Logic Require Import BalanceModel BalanceProofs HandlerModel HandlerSpec.
Import ListNotations.
Local Open Scope Z_scope.

Lemma nth_In_lt {A} k (l : list (list A)) p : In p (nth k l []) -> (k < length l)%nat.
Proof. intros H. destruct (Nat.lt_ge_cases k (length l)) as [X|X]; [exact X|]. rewrite nth_overflow in H by lia. destruct H. Qed.
Lemma in_cells {A} (l : list (list A)) p : In p (concat l) <-> exists k, In p (nth k l []).
Proof.
  rewrite in_concat. split.
  - intros (x & Hx & Hp). apply In_nth with (d := []) in Hx as (k & _ & <-). exists k. exact Hp.
  - intros (k & Hk). exists (nth k l []). split; [apply nth_In, (nth_In_lt _ _ _ Hk)|exact Hk].
Qed.
Lemma filter_filter {A} (f g : A -> bool) l : filter f (filter g l) = filter (fun x => g x && f x) l.
Proof. induction l as [|x l IH]; [reflexivity|]. cbn [filter]. destruct (g x); cbn [andb filter]; [destruct (f x)|]; rewrite IH; reflexivity. Qed.
Lemma pushAt_some {cells i p cells'} : pushAt cells i p = Some cells' -> (i < length cells)%nat.
Proof.
  revert i cells'. induction cells as [|c r IH]; intros [|i] cells'; cbn [pushAt length]; try discriminate; [lia|].
  destruct (pushAt r i p) as [r'|] eqn:E; [|discriminate]. intros _. apply IH in E. lia.
Qed.
Lemma pushAt_inv {cells i p cells'} : pushAt cells i p = Some cells' -> length cells' = length cells /\
  Permutation (concat cells') (p :: concat cells) /\ (forall k q, In q (nth k cells' []) <-> In q (nth k cells []) \/ (k = i /\ q = p)).
Proof.
  intros H. destruct (pushAt_spec cells i p (pushAt_some H)) as (c' & E & A). rewrite H in E. injection E as <-. exact A.
Qed.

Section Cont.
  Variables (cutoff spt : R) (freq : Z).
  Let il := il cutoff spt freq.
  Let skin := skin spt freq.
  Variables lo hi : R3.
  Notation grid := (grid cutoff spt freq).

  (** Where particles may be. *)
  Definition placeOk (k : Kind) (c : nat) (p : Particle) : Prop :=
    validState (pown p) /\
    match k with
    | KDirectSum => (c = 0%nat -> pown p <> 2) /\ (c <> 0%nat -> pown p <> 1)
    | KLinkedCells csf => (pown p = 1 -> cellCanContainOwnedParticles (grid csf lo hi) (Z.of_nat c) = true) /\
                          (pown p = 2 -> cellCanContainHaloParticles (grid csf lo hi) (Z.of_nat c) = true)
    end.
  Definition numberOfCells (k : Kind) : Z :=
    match k with KDirectSum => 7 | KLinkedCells csf => numCells (blockDims (grid csf lo hi)) end.
  Definition every (Q : nat -> Particle -> Prop) (cells : list (list Particle)) : Prop := forall c p, In p (nth c cells []) -> Q c p.
  Definition placed (c : Cont) : Prop := size (ccells c) = numberOfCells (kind c) /\ every (placeOk (kind c)) (ccells c).
  (** The cell the container looks up for a position. *)
  Definition cellFor (k : Kind) (c : nat) (x : R3) : Prop :=
    match k with KDirectSum => c = 0%nat \/ dsHaloCell lo hi x = Some c | KLinkedCells csf => get1DIndexOfPosition rndExact (grid csf lo hi) x = Some (Z.of_nat c) end.

  Lemma lcInsert_inv csf cells p cells' : lcInsert rndExact (grid csf lo hi) cells p = Some cells' -> pown p = 1 \/ pown p = 2 ->
    exists i, pushAt cells i p = Some cells' /\ placeOk (KLinkedCells csf) i p /\ cellFor (KLinkedCells csf) i (ppos p).
  Proof.
    unfold lcInsert. destruct (get1DIndexOfPosition rndExact (grid csf lo hi) (ppos p)) as [i|] eqn:E; [|discriminate].
    destruct (Z.ltb_spec i 0) as [L|L]; cbn [orb]; [discriminate|]. intros H V.
    destruct (if isHaloP p then _ else _) eqn:B in H; cbn [negb] in H; [|discriminate]. exists (Z.to_nat i). split; [exact H|].
    unfold placeOk, cellFor. rewrite Z2Nat.id by lia. split; [|exact E]. unfold isHaloP, stHalo in B. unfold validState.
    split; [destruct V; auto|]. destruct V as [V|V]; rewrite V in *; cbn in B; split; intros; try congruence; exact B.
  Qed.

  Lemma addOwned_inv c p c' : addOwned cutoff spt freq lo hi c p = Some c' -> pown p = 1 ->
    kind c' = kind c /\ exists i, pushAt (ccells c) i p = Some (ccells c') /\ placeOk (kind c) i p /\ cellFor (kind c) i (ppos p).
  Proof.
    unfold addOwned. destruct (kind c) as [|csf] eqn:K; intros H V.
    - destruct (pushAt (ccells c) 0 p) as [cs|] eqn:E; [|discriminate]. injection H as <-. split; [reflexivity|]. exists 0%nat.
      split; [exact E|]. split; [|left; reflexivity]. unfold placeOk, validState. rewrite V. split; [auto|]. split; [lia|congruence].
    - destruct (lcInsert _ _ _ _) as [cs|] eqn:E in H; [|discriminate]. injection H as <-. split; [reflexivity|]. cbn [ccells].
      apply (lcInsert_inv csf (ccells c) p cs E (or_introl V)).
  Qed.

  Lemma addHalo_inv c p c' : addHaloC cutoff spt freq lo hi c p = Some c' -> pown p = 2 -> ~ inBox lo hi (ppos p) ->
    kind c' = kind c /\ exists i, pushAt (ccells c) i p = Some (ccells c') /\ placeOk (kind c) i p /\ cellFor (kind c) i (ppos p).
  Proof.
    unfold addHaloC. destruct (kind c) as [|csf] eqn:K; intros H V N.
    - destruct (dsHaloCell lo hi (ppos p)) as [i|] eqn:D.
      + destruct (pushAt (ccells c) i p) as [cs|] eqn:E; [|discriminate]. injection H as <-. split; [reflexivity|]. exists i. split; [exact E|].
        split; [|right; exact D]. unfold placeOk, validState. rewrite V. split; [auto|]. split; [|lia]. intros ->. exfalso. revert D. unfold dsHaloCell.
        repeat (match goal with |- context [if ?c then _ else _] => destruct c; try discriminate end).
      + exfalso. apply N. revert D. unfold dsHaloCell, inBox.
        repeat (match goal with |- context [if ?c then _ else _] => destruct c; try discriminate end). intros _. lra.
    - destruct (lcInsert _ _ _ _) as [cs|] eqn:E in H; [|discriminate]. injection H as <-. split; [reflexivity|]. cbn [ccells].
      destruct (lcInsert_inv csf (ccells c) p cs E (or_intror V)) as (i & A & B & C). exists i. auto.
  Qed.

  (** Overwriting a halo particle. *)
  Lemma updateCell_inv same p : forall cell cell', updateCell same p cell = Some cell' ->
    exists q r, pid q = pid p /\ same q = true /\ Permutation cell (q :: r) /\ Permutation cell' (p :: r) /\
      (forall x, In x cell' -> In x cell \/ x = p).
  Proof.
    induction cell as [|q r IH]; intros cell' H; [discriminate|]. cbn [updateCell] in H.
    destruct ((pid q =? pid p) && same q) eqn:B.
    - injection H as <-. apply andb_prop in B as (B1 & B2). apply Z.eqb_eq in B1. exists q, r. repeat (split; [assumption || reflexivity|]).
      intros x [->|X]; [right; reflexivity|left; right; exact X].
    - destruct (updateCell same p r) as [r'|]; [|discriminate]. injection H as <-. destruct (IH r' eq_refl) as (q0 & r0 & E1 & E2 & P1 & P2 & X).
      exists q0, (q :: r0). split; [exact E1|]. split; [exact E2|]. rewrite P1, P2. repeat split; try (apply perm_swap).
      intros x [->|Y]; [left; left; reflexivity|]. destruct (X x Y) as [Y'|Y']; [left; right; exact Y'|right; exact Y'].
  Qed.

  Lemma updateCells_inv same p : forall is cells cells' u, updateCells same p is cells = Some (cells', u) ->
    (u = false /\ cells' = cells) \/
    (u = true /\ exists i q r, In i is /\ 0 <= i < size cells /\ In q (nth (Z.to_nat i) cells []) /\ pid q = pid p /\ same q = true /\
       length cells' = length cells /\ Permutation (concat cells) (q :: r) /\ Permutation (concat cells') (p :: r) /\
       (forall k x, In x (nth k cells' []) -> In x (nth k cells []) \/ (k = Z.to_nat i /\ x = p))).
  Proof.
    induction is as [|i is IH]; intros cells cells' u H; cbn [updateCells] in H.
    - injection H as <- <-. left. auto.
    - destruct (at_ cells i) as [cell|] eqn:A; [|discriminate]. apply at_some in A as (A1 & A2).
      destruct (updateCell same p cell) as [cell'|] eqn:U.
      + injection H as <- <-. right. split; [reflexivity|]. destruct (updateCell_inv same p _ _ U) as (q & r & E1 & E2 & P1 & P2 & X).
        destruct (setAt_concat cells (Z.to_nat i) cell cell' A2) as (r' & Q1 & Q2).
        assert (N : nth (Z.to_nat i) cells [] = cell) by (apply nth_error_nth with (1 := A2)).
        exists i, q, (r ++ r'). split; [left; reflexivity|]. split; [exact A1|].
        split; [rewrite N; apply (Permutation_in _ (Permutation_sym P1)); left; reflexivity|].
        split; [exact E1|]. split; [exact E2|]. split; [apply setAt_length|]. split; [rewrite Q1, P1; reflexivity|]. split; [rewrite Q2, P2; reflexivity|].
        intros k x Hx. rewrite nth_setAt in Hx. destruct (Nat.eqb_spec (Z.to_nat i) k) as [<-|D]; cbn [andb] in Hx; [|left; exact Hx].
        destruct (_ <? _)%nat in Hx; [|left; exact Hx]. destruct (X x Hx) as [Y|Y]; [left; rewrite N; exact Y|right; auto].
      + destruct (IH cells cells' u H) as [D|(D & j & q & r & E)]; [left; exact D|right]. split; [exact D|]. exists j, q, r.
        destruct E as (E0 & E). split; [right; exact E0|exact E].
  Qed.

  Lemma nearby_only_halo b x d is : nearbyHaloCells b x d = Some is -> forall i, In i is -> onlyHalo b i = true.
  Proof.
    unfold nearbyHaloCells. destruct (get3DIndexOfPosition _ _ _) as [own|]; [|discriminate].
    destruct (get3DIndexOfPosition _ _ _) as [low|]; [|discriminate]. destruct (get3DIndexOfPosition _ _ _) as [high|]; [|discriminate].
    intros H i Hi. injection H as <-. apply in_app_or in Hi as [Hi|Hi].
    - destruct (onlyHalo b _) eqn:O in Hi; [destruct Hi as [<-|[]]; exact O|destruct Hi].
    - apply filter_In in Hi as (_ & Hi). apply andb_prop in Hi as (_ & Hi). exact Hi.
  Qed.

  Lemma ds_update_cells x i : In i (dsUpdateCells spt freq lo hi x) -> 1 <= i <= 6.
  Proof.
    unfold dsUpdateCells. rewrite !in_app_iff. intros [H|[H|H]];
      repeat (match type of H with context [if ?c then _ else _] => destruct c end); cbn in H; lia.
  Qed.

  (** The overwritten particle was looked for near the position [x]. *)
  Definition nearSlot (k : Kind) (i : nat) (q : Particle) (x : R3) : Prop :=
    match k with
    | KDirectSum => closeBy (skin / 2)%R x q = true
    | KLinkedCells csf => exists is, nearbyHaloCells (grid csf lo hi) x skin = Some is /\ In (Z.of_nat i) is
    end.
  Lemma updateHalo_full c p c' u : updateHaloC cutoff spt freq lo hi c p = Some (c', u) -> pown p = 2 -> placed c ->
    kind c' = kind c /\
    ((u = false /\ ccells c' = ccells c) \/
     (u = true /\ exists i q r, In q (nth i (ccells c) []) /\ pid q = pid p /\ nearSlot (kind c) i q (ppos p) /\ pown q <> 1 /\ placeOk (kind c) i p /\
        length (ccells c') = length (ccells c) /\ Permutation (concat (ccells c)) (q :: r) /\ Permutation (concat (ccells c')) (p :: r) /\
        (forall k x, In x (nth k (ccells c') []) -> In x (nth k (ccells c) []) \/ (k = i /\ x = p)))).
  Proof.
    unfold updateHaloC. intros H V (Hsize & Hplace). destruct (kind c) as [|csf] eqn:K.
    - destruct (updateCells _ _ _ _) as [(cs, u')|] eqn:E in H; [|discriminate]. injection H as <- <-. split; [reflexivity|]. cbn [ccells].
      destruct (updateCells_inv _ _ _ _ _ _ E) as [(-> & ->)|(-> & i & q & r & I & R & Q & E1 & E2 & L & P1 & P2 & X)]; [left; auto|right; split; [reflexivity|]].
      apply ds_update_cells in I. exists (Z.to_nat i), q, r. split; [exact Q|]. split; [exact E1|]. split; [exact E2|].
      assert (Hq := Hplace _ _ Q). destruct Hq as (_ & _ & Hq). split; [apply Hq; lia|]. split.
      { unfold placeOk, validState. rewrite V. split; [auto|]. split; intros; lia. }
      auto.
    - destruct (nearbyHaloCells _ _ _) as [is|] eqn:N in H; [|discriminate].
      destruct (updateCells _ _ _ _) as [(cs, u')|] eqn:E in H; [|discriminate]. injection H as <- <-. split; [reflexivity|]. cbn [ccells].
      destruct (updateCells_inv _ _ _ _ _ _ E) as [(-> & ->)|(-> & i & q & r & I & R & Q & E1 & E2 & L & P1 & P2 & X)]; [left; auto|right; split; [reflexivity|]].
      assert (O := nearby_only_halo _ _ _ _ N i I). unfold onlyHalo in O. apply andb_prop in O as (O1 & O2). apply negb_true_iff in O2.
      exists (Z.to_nat i), q, r. split; [exact Q|]. split; [exact E1|]. split; [exists is; split; [exact N|rewrite Z2Nat.id by lia; exact I]|].
      assert (Hq := Hplace _ _ Q). destruct Hq as (_ & Hq & _). rewrite Z2Nat.id in Hq by lia. split; [intros Y; rewrite (Hq Y) in O2; discriminate|]. split.
      { unfold placeOk, validState. rewrite V. split; [auto|]. rewrite Z2Nat.id by lia. split; [congruence|intros _; exact O1]. }
      auto.
  Qed.

  Lemma updateHalo_inv c p c' u : updateHaloC cutoff spt freq lo hi c p = Some (c', u) -> pown p = 2 -> placed c ->
    kind c' = kind c /\
    ((u = false /\ ccells c' = ccells c) \/
     (u = true /\ exists i q r, In q (nth i (ccells c) []) /\ pid q = pid p /\ pown q <> 1 /\ placeOk (kind c) i p /\
        length (ccells c') = length (ccells c) /\ Permutation (concat (ccells c)) (q :: r) /\ Permutation (concat (ccells c')) (p :: r) /\
        (forall k x, In x (nth k (ccells c') []) -> In x (nth k (ccells c) []) \/ (k = i /\ x = p)))).
  Proof.
    intros H V P. destruct (updateHalo_full c p c' u H V P) as (K & [D|(D & i & q & r & Q1 & Q2 & _ & Q3)]); (split; [exact K|]); [left; exact D|right].
    split; [exact D|]. exists i, q, r. exact (conj Q1 (conj Q2 Q3)).
  Qed.

  Lemma placed_push c i p c' : placed c -> kind c' = kind c -> pushAt (ccells c) i p = Some (ccells c') -> placeOk (kind c) i p -> placed c'.
  Proof.
    intros (L & H) K E P. destruct (pushAt_inv E) as (L' & _ & I). split; [unfold size in *; rewrite K, L'; exact L|].
    intros k q Hq. rewrite K. apply I in Hq as [Hq|(-> & ->)]; [apply H; exact Hq|exact P].
  Qed.

  (** Copying particles into a container. *)
  Lemma copy_inv : forall l c c', copyInto cutoff spt freq lo hi c l = Some c' -> (forall p, In p l -> pown p = 1 \/ pown p = 2) -> placed c ->
    kind c' = kind c /\ placed c' /\ Permutation (concat (ccells c')) (l ++ concat (ccells c)) /\
    (forall p, In p l -> (pown p = 1 -> inBox lo hi (ppos p)) /\ (pown p = 2 -> ~ inBox lo hi (ppos p))) /\
    (forall k p, In p (nth k (ccells c') []) -> In p (nth k (ccells c) []) \/ (In p l /\ cellFor (kind c) k (ppos p))).
  Proof.
    induction l as [|p l IH]; intros c c' H V P; cbn [copyInto] in H.
    - injection H as <-. split; [reflexivity|]. split; [exact P|]. split; [reflexivity|]. split; [intros p []|]. intros k p Hp. left. exact Hp.
    - assert (Vp := V p (or_introl eq_refl)).
      assert (G : exists c1, copyInto cutoff spt freq lo hi c1 l = Some c' /\ kind c1 = kind c /\ placed c1 /\
                   ((pown p = 1 -> inBox lo hi (ppos p)) /\ (pown p = 2 -> ~ inBox lo hi (ppos p))) /\
                   exists i, pushAt (ccells c) i p = Some (ccells c1) /\ cellFor (kind c) i (ppos p)).
      { unfold isOwned, stOwned in H. destruct (Z.eqb_spec (pown p) 1) as [O|O].
        - destruct (inBoxb lo hi (ppos p)) eqn:B; [|discriminate]. apply inBoxb_iff in B. destruct (addOwned _ _ _ _ _ _ _) as [c1|] eqn:E in H; [|discriminate].
          destruct (addOwned_inv c p c1 E O) as (K & i & E' & Pl & C). exists c1. split; [exact H|]. split; [exact K|].
          split; [apply (placed_push c i p c1 P K E' Pl)|]. split; [split; [auto|congruence]|]. exists i. auto.
        - destruct Vp as [Vp|Vp]; [congruence|]. destruct (inBoxb lo hi (ppos p)) eqn:B; [discriminate|].
          assert (N : ~ inBox lo hi (ppos p)) by (intros I; apply inBoxb_iff in I; congruence).
          destruct (addHaloC _ _ _ _ _ _ _) as [c1|] eqn:E in H; [|discriminate]. destruct (addHalo_inv c p c1 E Vp N) as (K & i & E' & Pl & C).
          exists c1. split; [exact H|]. split; [exact K|]. split; [apply (placed_push c i p c1 P K E' Pl)|]. split; [split; [congruence|auto]|]. exists i. auto. }
      destruct G as (c1 & H1 & K1 & P1 & B1 & i & E1 & C1).
      destruct (IH c1 c' H1 (fun q Hq => V q (or_intror Hq)) P1) as (K2 & P2 & Q2 & B2 & X2).
      destruct (pushAt_inv E1) as (L' & Q1 & I1).
      split; [congruence|]. split; [exact P2|]. split; [rewrite Q2, Q1; cbn [app]; symmetry; apply Permutation_middle|]. split.
      + intros q [<-|Hq]; [exact B1|apply B2, Hq].
      + intros k q Hq. rewrite K1 in X2. destruct (X2 k q Hq) as [Y|(Y1 & Y2)]; [|right; split; [right; exact Y1|exact Y2]].
        apply I1 in Y as [Y|(-> & ->)]; [left; exact Y|right]. split; [left; reflexivity|exact C1].
  Qed.

  Lemma empty_placed k : validKind cutoff spt freq lo hi k -> placed (mkCont k (emptyCells cutoff spt freq k lo hi)).
  Proof.
    intros V. split.
    - cbn [kind ccells]. unfold emptyCells, size, numberOfCells. destruct k as [|csf]; rewrite repeat_length; [reflexivity|].
      cbn [validKind] in V. pose proof V as (G1 & G2 & HB & _). pose proof (grid_pos il csf lo hi G2) as Hp.
      unfold numCells. destruct Hp as (A & B & C). rewrite Z2Nat.id; [reflexivity|].
      fold il in A, B, C. unfold HandlerModel.grid. fold il. apply Z.mul_nonneg_nonneg; [apply Z.mul_nonneg_nonneg|]; lia.
    - cbn [kind ccells]. intros c p H. exfalso. unfold emptyCells in H. destruct k as [|csf].
      + rewrite nth_repeat in H. destruct H.
      + rewrite nth_repeat in H. destruct H.
  Qed.

  Lemma generate_inv k old c' : generate cutoff spt freq k lo hi old = Some c' -> validKind cutoff spt freq lo hi k ->
    (forall p, In p (concat old) -> validState (pown p)) ->
    kind c' = k /\ placed c' /\ Permutation (concat (ccells c')) (filter (fun p => negb (pown p =? 0)) (concat old)) /\
    (forall p, In p (concat old) -> (pown p = 1 -> inBox lo hi (ppos p)) /\ (pown p = 2 -> ~ inBox lo hi (ppos p))) /\
    (forall i p, In p (nth i (ccells c') []) -> cellFor k i (ppos p)).
  Proof.
    unfold generate. intros H V Hv. set (l := filter (fun p => negb (isDummy p)) (concat old)) in *.
    assert (Hl : forall p, In p l <-> In p (concat old) /\ (pown p = 1 \/ pown p = 2)).
    { intros p. unfold l. rewrite filter_In. unfold isDummy, stDummy. rewrite negb_true_iff, Z.eqb_neq. split; intros (A & B); split; try exact A; [|lia].
      destruct (Hv p A) as [?|[?|?]]; auto; contradiction. }
    destruct (copy_inv l _ c' H) as (K & P & Q & B & X).
    - intros p Hp. apply Hl in Hp. tauto.
    - apply empty_placed, V.
    - cbn [kind ccells] in *. assert (E : concat (emptyCells cutoff spt freq k lo hi) = []).
      { unfold emptyCells. destruct k as [|csf]; [reflexivity|]. generalize (Z.to_nat (numCells (blockDims (HandlerModel.grid cutoff spt freq csf lo hi)))). intros n. induction n as [|n IH]; [reflexivity|exact IH]. }
      rewrite E, app_nil_r in Q. split; [exact K|]. split; [exact P|]. split; [exact Q|]. split.
      + intros p Hp. split; intros Hs; apply (B p); auto; apply Hl; auto.
      + intros i p Hp. destruct (X i p Hp) as [Y|(_ & Y)]; [|exact Y].
        exfalso. assert (Z : In p (concat (emptyCells cutoff spt freq k lo hi))) by (apply in_cells; exists i; exact Y). rewrite E in Z. destruct Z.
  Qed.
End Cont.
