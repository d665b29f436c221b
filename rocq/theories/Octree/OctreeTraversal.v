(** The octree traversals: every pair of leaves within reach is processed once. *)
From Coq Require Import Reals Lra Permutation.
From Verif.Base Require Import ZRange Occ Lists.
From Verif.Functor Require Import CellFunctorModel FunctorSpec CellFunctorProofs SortModel SortSpec SortProofs CellsCount.
From Verif.Grid Require Import CellBlockModel CellBlockSpec.
From Verif.Container Require Import IteratorModel IteratorContainers LinkedCellsSpec LinkedCellsGeo LinkedCellsCount.
From Verif.Octree Require Import DirectionModel OctreeModel OctreeSpec OctreeBase OctreeAxis OctreeNeighbor OctreeTouch OctreeInsert OctreeProps OctreeDouble OctreeGap OctreeTraversalModel.
Local Open Scope Z_scope.

Lemma indexIn_range p l : In p l -> 0 <= indexIn p l < Z.of_nat (length l).
Proof.
  induction l as [|q l IH]; [intros []|]. intros I. cbn [indexIn length]. destruct (path_dec p q) as [E|N]; [lia|].
  destruct I as [I|I]; [congruence|]. specialize (IH I). lia.
Qed.
Lemma indexIn_inj p q l : In p l -> In q l -> indexIn p l = indexIn q l -> p = q.
Proof.
  induction l as [|r l IH]; [intros []|]. intros I J. cbn [indexIn].
  destruct (path_dec p r) as [E|N], (path_dec q r) as [E'|N']; try congruence.
  - intros H. destruct J as [J|J]; [congruence|]. pose proof (indexIn_range q l J). lia.
  - intros H. destruct I as [I|I]; [congruence|]. pose proof (indexIn_range p l I). lia.
  - intros H. destruct I as [I|I]; [congruence|]. destruct J as [J|J]; [congruence|]. apply IH; auto. lia.
Qed.

Section Traversal.
  Context {P : Type}.
  Variables (pid : P -> Z) (isHalo : P -> bool) (pos old : P -> R3) (view : R3 -> list P -> list P).
  Variables (rnd : R -> R) (threshold : nat) (il M eps cutoff s : R).
  Variables (bMin bMax hMin hMax : R3) (ownedPs haloPs : list P) (t u : Tree P).
  Variable order : list Path -> list Path.
  Variable cf : CFSettings.
  Hypothesis Hview : forall dir l, isSortedView pos dir l (view dir l).
  Hypothesis Horder : forall l, Permutation l (order l).
  Hypothesis Pt : precise rnd M eps il bMin bMax.
  Hypothesis Pu : precise rnd M eps il hMin hMax.
  Hypothesis Bt : builtBy old rnd threshold il bMin bMax ownedPs t.
  Hypothesis Bu : builtBy old rnd threshold il hMin hMax haloPs u.
  Hypothesis Hw : wideBox il hMin hMax.
  Hypothesis HilM : (il <= M)%R.
  Hypothesis Hids : distinctIds pid (ownedPs ++ haloPs).
  Hypothesis Hmoved : movedAtMost old pos s (ownedPs ++ haloPs).
  Hypothesis Hcut : (cutoff + s <= il - 3 * eps)%R.

  Notation content := (leafParticles t u).
  Notation ID := (leafID t u).
  Notation near := (haloNeighbors t u order rnd il).
  Notation c01 := (otC01 t u order rnd il).
  Notation c18 := (otC18 t u order rnd il).

  Lemma built_inBox lo hi ps (v : Tree P) : builtBy old rnd threshold il lo hi ps v -> Forall (fun p => inBox lo hi (old p)) ps.
  Proof using. induction 1; [constructor|]. apply Forall_app. auto. Qed.

  Lemma built_home lo hi ps (v : Tree P) p : precise rnd M eps il lo hi -> builtBy old rnd threshold il lo hi ps v -> In p ps ->
    exists path l h c, leafAt v path l h c /\ In p c /\ inBox l h (old p).
  Proof using.
    intros Pr B I. destruct (built_leaves old rnd threshold il lo hi ps v M eps Pr B) as (_ & C & F & _).
    pose proof (built_inBox _ _ _ _ B) as Q. rewrite Forall_forall in Q. destruct (C (old p) (Q p I)) as (path & (l & h & c & L & J) & _).
    exists path, l, h, c. split; [exact L|]. split; [|exact J]. eapply Permutation_in; [apply Permutation_sym, (F _ _ _ _ L)|].
    apply filter_In. split; [exact I|]. now apply inBoxb_iff.
  Qed.

  Let Wt : wf rnd il t := proj1 (built_good old rnd threshold il bMin bMax ownedPs t Bt).
  Let Wu : wf rnd il u := proj1 (built_good old rnd threshold il hMin hMax haloPs u Bu).

  Lemma content_cases k x : In x (content k) ->
    match k with
    | Owned p => exists l h c, leafAt t p l h c /\ In x c /\ inBox l h (old x) /\ In x ownedPs
    | Halo p => exists l h c, leafAt u p l h c /\ In x c /\ inBox l h (old x) /\ In x haloPs
    end.
  Proof using Bt Bu.
    unfold leafParticles, leafOf, leafAt. destruct k as [p|p].
    - destruct (nodeAt t p) as [[l h c|]|] eqn:E; intros I; try destruct I. exists l, h, c.
      destruct (built_keeps old rnd threshold il bMin bMax ownedPs t Bt) as (Q & F). split; [reflexivity|]. split; [exact I|].
      split; [exact (F _ _ _ _ _ E I)|]. eapply Permutation_in; [exact Q|]. clear - E I.
      revert E. enough (G : forall (v n : Tree P), nodeAt v p = Some n -> In x (collectAllParticles n) -> In x (collectAllParticles v)) by (intros E; apply (G t _ E I)).
      clear. induction p as [|a p IH]; intros v n E I; [now injection E as ->|]. cbn in E. destruct (nodeAt v p) as [m|] eqn:F; [|discriminate].
      apply (IH v m F). destruct m as [|a1 a2 cs]; [discriminate|]. cbn in E |- *. apply in_flat_map. exists n. split; [now apply nth_error_In in E|exact I].
    - destruct (nodeAt u p) as [[l h c|]|] eqn:E; intros I; try destruct I. exists l, h, c.
      destruct (built_keeps old rnd threshold il hMin hMax haloPs u Bu) as (Q & F). split; [reflexivity|]. split; [exact I|].
      split; [exact (F _ _ _ _ _ E I)|]. eapply Permutation_in; [exact Q|]. clear - E I.
      revert E. enough (G : forall (v n : Tree P), nodeAt v p = Some n -> In x (collectAllParticles n) -> In x (collectAllParticles v)) by (intros E; apply (G u _ E I)).
      clear. induction p as [|a p IH]; intros v n E I; [now injection E as ->|]. cbn in E. destruct (nodeAt v p) as [m|] eqn:F; [|discriminate].
      apply (IH v m F). destruct m as [|a1 a2 cs]; [discriminate|]. cbn in E |- *. apply in_flat_map. exists n. split; [now apply nth_error_In in E|exact I].
  Qed.

  Lemma solid_t : solidLeaves t.
  Proof using Pt Bt. exact (proj1 (built_leaves old rnd threshold il bMin bMax ownedPs t M eps Pt Bt)). Qed.
  Lemma solid_u : solidLeaves u.
  Proof using Pu Bu. exact (proj1 (built_leaves old rnd threshold il hMin hMax haloPs u M eps Pu Bu)). Qed.

  Lemma in_all k x : In x (content k) -> In x (ownedPs ++ haloPs).
  Proof using Bt Bu. intros I. apply in_or_app. apply content_cases in I. destruct k; destruct I as (l & h & c & _ & _ & _ & I); auto. Qed.

  Lemma content_disjoint k1 k2 x y : In x (content k1) -> In y (content k2) -> pid x = pid y -> x = y /\ k1 = k2.
  Proof using Bt Bu Pt Pu Hids.
    intros I J E. assert (x = y) as ->.
    { apply (ids_inj pid (ownedPs ++ haloPs)); auto; [exact (in_all k1 x I)|exact (in_all k2 y J)]. }
    split; [reflexivity|]. clear E. assert (D : In y ownedPs -> In y haloPs -> False).
    { intros A B. unfold distinctIds in Hids. rewrite map_app in Hids.  apply in_split in A as (l1 & l2 & Eq). apply (in_map pid) in B. rewrite Eq, map_app in Hids. cbn [map] in Hids.
      rewrite <- !app_assoc in Hids. cbn [app] in Hids. apply NoDup_remove_2 in Hids. apply Hids. rewrite !in_app_iff. auto. }
    apply content_cases in I, J. destruct k1 as [p|p], k2 as [q|q]; destruct I as (l & h & c & L & _ & B & I), J as (l' & h' & c' & L' & _ & B' & J).
    - f_equal. exact (leaf_unique rnd il t (old y) Wt solid_t p l h c q l' h' c' L B L' B').
    - exfalso. auto.
    - exfalso. auto.
    - f_equal. exact (leaf_unique rnd il u (old y) Wu solid_u p l h c q l' h' c' L B L' B').
  Qed.

  Lemma content_ids k : distinctIds pid (content k).
  Proof using Bt Bu Pt Pu Hids.
    unfold distinctIds in Hids. rewrite map_app in Hids.
    assert (F : forall (f : P -> bool) l, NoDup (map pid l) -> NoDup (map pid (filter f l))).
    { clear. induction l as [|a l IH]; intros N; cbn; [constructor|]. inversion N as [|? ? N1 N2]; subst. destruct (f a); [|auto]. cbn. constructor; [|auto].
      intros I. apply N1. apply in_map_iff in I as (b & E & I). apply filter_In in I as [I _]. rewrite <- E. now apply in_map. }
    assert (N1 : NoDup (map pid ownedPs)) by (apply NoDup_app_inv in Hids; tauto).
    assert (N2 : NoDup (map pid haloPs)) by (apply NoDup_app_inv in Hids; tauto).
    unfold distinctIds, leafParticles, leafOf. destruct k as [p|p].
    - destruct (nodeAt t p) as [[l h c|]|] eqn:E; try constructor.
      destruct (built_leaves old rnd threshold il bMin bMax ownedPs t M eps Pt Bt) as (_ & _ & Q & _).
      eapply Permutation_NoDup; [apply Permutation_map, Permutation_sym, (Q p l h c E)|auto].
    - destruct (nodeAt u p) as [[l h c|]|] eqn:E; try constructor.
      destruct (built_leaves old rnd threshold il hMin hMax haloPs u M eps Pu Bu) as (_ & _ & Q & _).
      eapply Permutation_NoDup; [apply Permutation_map, Permutation_sym, (Q p l h c E)|auto].
  Qed.

  (** The processed pairs of leaves. *)
  Lemma leaves_iff p : In p (appendAllLeaves t []) <-> isLeafAt t p.
  Proof using Bt.
    rewrite (in_appendAllLeaves rnd il t [] p Wt). split; [intros (m & -> & H); now rewrite app_nil_r|]. intros H. exists p. now rewrite app_nil_r.
  Qed.
  Lemma in_order l x : In x (order l) <-> In x l.
  Proof using Horder. split; apply Permutation_in; [apply Permutation_sym|]; apply Horder. Qed.

  Lemma in_c01 k1 k2 : In (k1, k2) c01 <-> exists p, isLeafAt t p /\ k1 = Owned p /\
    (k2 = Owned p \/ (exists n, In n (getNeighborLeaves t p) /\ k2 = Owned n) \/ (exists n, In n (near p) /\ k2 = Halo n)).
  Proof using Bt Horder.
    unfold otC01. rewrite in_flat_map. split.
    - intros (p & I & J). apply leaves_iff in I. exists p. split; [exact I|]. destruct J as [J|J]; [injection J as <- <-; auto|].
      apply in_app_or in J as [J|J]; apply in_map_iff in J as (n & E & J); injection E as <- <-; split; auto; right.
      + left. exists n. split; [exact (proj1 (in_order _ _) J)|reflexivity].
      + right. exists n. auto.
    - intros (p & I & -> & H). exists p. split; [now apply leaves_iff|]. destruct H as [->|[(n & J & ->)|(n & J & ->)]]; [now left|right|right]; apply in_or_app.
      + left. apply (in_map (fun n => (Owned p, Owned n))). exact (proj2 (in_order _ _) J).
      + right. now apply (in_map (fun n => (Owned p, Halo n))).
  Qed.

  Lemma not_own_neighbor p : isLeafAt t p -> ~ In p (getNeighborLeaves t p).
  Proof using Bt Pt. intros (l & h & c & L) I. apply (built_neighbors old rnd threshold il bMin bMax ownedPs t M eps p p l h c Pt Bt L) in I. tauto. Qed.

  Lemma in_c18 k1 k2 : In (k1, k2) c18 <-> In (k1, k2) c01 /\ (k1 = k2 \/ ID k1 < ID k2).
  Proof using Bt Pt Horder.
    rewrite in_c01. unfold otC18. rewrite in_flat_map. split.
    - intros (p & I & J). apply leaves_iff in I. destruct J as [J|J]; [injection J as <- <-; split; [exists p; auto|auto]|].
      apply in_app_or in J as [J|J]; apply filter_In in J as [J C]; apply in_map_iff in J as (n & E & J); injection E as <- <-; cbn [fst snd] in C; apply Z.ltb_lt in C; (split; [exists p; split; [exact I|]; split; [reflexivity|]; right|right; exact C]).
      + left. exists n. split; [exact (proj1 (in_order _ _) J)|reflexivity].
      + right. exists n. auto.
    - intros ((p & I & -> & H) & C). exists p. split; [now apply leaves_iff|]. destruct H as [->|[(n & J & ->)|(n & J & ->)]]; [now left|right|right]; apply in_or_app.
      + left. apply filter_In. split; [apply (in_map (fun n => (Owned p, Owned n))); exact (proj2 (in_order _ _) J)|]. apply Z.ltb_lt.
        destruct C as [C|C]; [|exact C]. injection C as <-. destruct (not_own_neighbor p I J).
      + right. apply filter_In. split; [now apply (in_map (fun n => (Owned p, Halo n)))|]. apply Z.ltb_lt. destruct C as [C|C]; [discriminate|exact C].
  Qed.

  Lemma NoDup_map_inj {A B} (f : A -> B) l : (forall x y, f x = f y -> x = y) -> NoDup l -> NoDup (map f l).
  Proof using. intros I N. induction N as [|x l N _ IH]; cbn; constructor; auto. intros J. apply in_map_iff in J as (y & E & J). apply I in E. now subst. Qed.

  Lemma NoDup_near p : NoDup (near p).
  Proof using Bu Horder. unfold haloNeighbors. eapply Permutation_NoDup; [apply Horder|]. apply (NoDup_range rnd il u [] _ _ Wu). Qed.

  Lemma NoDup_c01 : NoDup c01.
  Proof using Bt Bu Pt Horder.
    unfold otC01. apply NoDup_flat_map'; [exact (NoDup_appendAllLeaves rnd il t [] Wt)| |].
    - intros p I. apply leaves_iff in I. constructor.
      + intros J. apply in_app_or in J as [J|J]; apply in_map_iff in J as (n & E & J); [|discriminate]. injection E as ->. apply (proj1 (in_order _ _)) in J. exact (not_own_neighbor p I J).
      + apply NoDup_app'.
        * apply NoDup_map_inj; [intros x y E; now injection E|]. eapply Permutation_NoDup; [apply Horder|]. apply NoDup_nodup.
        * apply NoDup_map_inj; [intros x y E; now injection E|apply NoDup_near].
        * intros z A B. apply in_map_iff in A as (n & <- & _). apply in_map_iff in B as (m & E & _). discriminate.
    - intros p q z _ _ A B. assert (forall r z, In z ((Owned r, Owned r) :: map (fun n => (Owned r, Owned n)) (order (getNeighborLeaves t r)) ++ map (fun n => (Owned r, Halo n)) (near r)) -> fst z = Owned r).
      { intros r z' [<-|I]; [reflexivity|]. apply in_app_or in I as [I|I]; apply in_map_iff in I as (n & <- & _); reflexivity. }
      apply H in A, B. congruence.
  Qed.

  Lemma NoDup_c18 : NoDup c18.
  Proof using Bt Bu Pt Horder.
    unfold otC18. apply NoDup_flat_map'; [exact (NoDup_appendAllLeaves rnd il t [] Wt)| |].
    - intros p I. apply leaves_iff in I. constructor.
      + intros J. apply in_app_or in J as [J|J]; apply filter_In in J as [J _]; apply in_map_iff in J as (n & E & J); [|discriminate]. injection E as ->. apply (proj1 (in_order _ _)) in J. exact (not_own_neighbor p I J).
      + apply NoDup_app'.
        * apply NoDup_filter, NoDup_map_inj; [intros x y E; now injection E|]. eapply Permutation_NoDup; [apply Horder|]. apply NoDup_nodup.
        * apply NoDup_filter, NoDup_map_inj; [intros x y E; now injection E|apply NoDup_near].
        * intros z A B. apply filter_In in A as [A _]. apply filter_In in B as [B _]. apply in_map_iff in A as (n & <- & _). apply in_map_iff in B as (m & E & _). discriminate.
    - intros p q z _ _ A B.
      set (f := fun c : LeafPtr * LeafPtr => ID (fst c) <? ID (snd c)) in *.
      assert (forall r z, In z ((Owned r, Owned r) :: filter f (map (fun n => (Owned r, Owned n)) (order (getNeighborLeaves t r))) ++ filter f (map (fun n => (Owned r, Halo n)) (near r))) -> fst z = Owned r).
      { intros r z' [<-|I]; [reflexivity|]. apply in_app_or in I as [I|I]; apply filter_In in I as [I _]; apply in_map_iff in I as (n & <- & _); reflexivity. }
      apply H in A, B. congruence.
  Qed.

  (** Leaves within reach. *)
  Lemma old_near a c ka kc : In a (content ka) -> In c (content kc) -> (dist3 (pos a) (pos c) <= cutoff)%R -> (dist3 (old a) (old c) <= il - 3 * eps)%R.
  Proof using Bt Bu Hmoved Hcut.
    intros Ia Ic D. pose proof (proj1 (Forall_forall _ _) Hmoved a (in_all ka a Ia)) as Ma.
    pose proof (proj1 (Forall_forall _ _) Hmoved c (in_all kc c Ic)) as Mc. cbn beta in Ma, Mc.
    pose proof (dist3_triangle (old a) (pos a) (old c)). pose proof (dist3_triangle (pos a) (pos c) (old c)).
    rewrite (dist3_sym (old a) (pos a)) in *. lra.
  Qed.

  Lemma near_in_c01 a c p kc : In a (content (Owned p)) -> In c (content kc) -> (dist3 (pos a) (pos c) <= cutoff)%R -> In (Owned p, kc) c01.
  Proof using Bt Bu Hmoved Hcut Pt Pu Horder Hw HilM.
    intros Ia Ic D. apply (old_near a c _ _ Ia Ic) in D. apply in_c01. pose proof (content_cases _ _ Ia) as (l & h & ca & L & _ & J & _).
    exists p. split; [now exists l, h, ca|]. split; [reflexivity|]. destruct Pt as (Acc & He & H8 & Hil & U & Dt).
    pose proof (built_good old rnd threshold il bMin bMax ownedPs t Bt) as (_ & _ & Et & Et' & _).
    destruct kc as [q|q]; pose proof (content_cases _ _ Ic) as (l' & h' & cc & L' & _ & J' & _).
    - destruct (path_dec q p) as [->|N]; [now left|]. right. left. exists q. split; [|reflexivity].
      apply (built_neighbors old rnd threshold il bMin bMax ownedPs t M eps p q l h ca Pt Bt L). split; [exact N|].
      exists l', h', cc. split; [exact L'|]. rewrite <- Et in U, Dt. rewrite <- Et' in U, Dt.
      exact (leaves_apart rnd il M eps Acc He H8 Hil t p l h ca q l' h' cc (old a) (old c) Wt U Dt L L' J J' D).
    - right. right. exists q. split; [|reflexivity]. unfold haloNeighbors. apply (proj2 (in_order _ _)).
      assert (E1 : leafMin t u (Owned p) = l) by (unfold leafMin, leafOf; now rewrite L).
      assert (E2 : leafMax t u (Owned p) = h) by (unfold leafMax, leafOf; now rewrite L). rewrite E1, E2.
      pose proof (built_good old rnd threshold il hMin hMax haloPs u Bu) as (_ & _ & Eu & Eu' & _).
      destruct Pu as (_ & _ & _ & _ & Uu & _).
      assert (Wd : wideBox (il - 3 * eps) hMin hMax) by (unfold wideBox in *; lra).
      rewrite <- Eu, <- Eu' in Uu, Wd.
      rewrite <- (app_nil_r q).
      refine (range_complete rnd il M eps Acc He H8 Hil u [] _ _ (old c) Wu Uu Wd q l' h' cc L' J' _).
      rewrite <- Et, <- Et' in U. pose proof (proj1 (node_within rnd il t _ p Wt solid_t L)) as In1. unfold within in In1. cbn [boxMin boxMax] in In1.
      pose proof (solid_t p _ _ _ L) as Bl.
      apply coord_le_dist in D. destruct U as (U1 & U2 & U3), J as (J1 & J2 & J3), Bl as (Bl1 & Bl2 & Bl3).
      unfold wellInside. cbn [rx ry rz].
      pose proof (rnd_bounds rnd M eps Acc (rx l - il)%R ltac:(lra)). pose proof (rnd_bounds rnd M eps Acc (rx h + il)%R ltac:(lra)).
      pose proof (rnd_bounds rnd M eps Acc (ry l - il)%R ltac:(lra)). pose proof (rnd_bounds rnd M eps Acc (ry h + il)%R ltac:(lra)).
      pose proof (rnd_bounds rnd M eps Acc (rz l - il)%R ltac:(lra)). pose proof (rnd_bounds rnd M eps Acc (rz h + il)%R ltac:(lra)).
      lra.
  Qed.

  (** Homes of the particles. *)
  Lemma home a : In a (ownedPs ++ haloPs) ->
    exists k, In a (content k) /\ (In a ownedPs -> exists p, k = Owned p) /\ (In a haloPs -> exists p, k = Halo p).
  Proof using Bt Bu Pt Pu Hids.
    intros I. assert (D : In a ownedPs -> In a haloPs -> False).
    { intros A B. unfold distinctIds in Hids. rewrite map_app in Hids. apply NoDup_app_inv in Hids as (_ & _ & H).
      exact (H (pid a) (in_map pid _ _ A) (in_map pid _ _ B)). }
    apply in_app_or in I as [I|I].
    - destruct (built_home bMin bMax ownedPs t a Pt Bt I) as (p & l & h & ps & L & J & _). exists (Owned p).
      split; [unfold leafParticles, leafOf; now rewrite L|]. split; [eauto|]. intros H. destruct (D I H).
    - destruct (built_home hMin hMax haloPs u a Pu Bu I) as (p & l & h & ps & L & J & _). exists (Halo p).
      split; [unfold leafParticles, leafOf; now rewrite L|]. split; [|eauto]. intros H. destruct (D H I).
  Qed.

  Lemma first_owned k1 k2 : In (k1, k2) c01 -> exists p, k1 = Owned p.
  Proof using Bt Horder. intros I. apply in_c01 in I as (p & _ & -> & _). eauto. Qed.

  Lemma ID_owned_halo p n : isLeafAt t p -> ID (Owned p) < ID (Halo n).
  Proof using Bt.
    intros L. apply leaves_iff in L. apply indexIn_range in L. cbn [leafID].
    assert (Q : 0 <= indexIn n (appendAllLeaves u [])) by (generalize (appendAllLeaves u []); clear; induction l as [|q l IH]; cbn [indexIn]; [lia|]; destruct (path_dec n q); lia). clear - L Q. lia.
  Qed.
  Lemma ID_total p q : isLeafAt t p -> isLeafAt t q -> p <> q -> ID (Owned p) < ID (Owned q) \/ ID (Owned q) < ID (Owned p).
  Proof using Bt.
    intros L L' N. apply leaves_iff in L, L'. cbn [leafID].
    destruct (Z.lt_trichotomy (indexIn p (appendAllLeaves t [])) (indexIn q (appendAllLeaves t []))) as [H|[H|H]]; auto.
    exfalso. apply N. exact (indexIn_inj p q _ L L' H).
  Qed.

  Let dirOf k := normalize (rsub (leafMax t u k) (leafMin t u k)).
  Let calls e := otInteract isHalo pos view t u cf cutoff e.
  Lemma calls_events e : calls e = flat_map (eventCalls leafPtr_dec isHalo pos view cf cutoff content dirOf) e.
  Proof using. reflexivity. Qed.
  Lemma dirOf_le k : (dot (dirOf k) (dirOf k) <= 1)%R.
  Proof using. apply normalize_le_1. Qed.

  Theorem ot_c18 a c : useNewton3 cf = true -> In a (ownedPs ++ haloPs) -> In c (ownedPs ++ haloPs) -> a <> c ->
    (received pid (calls c18) a c <= 1)%nat /\
    (In a ownedPs \/ In c ownedPs -> (dist3 (pos a) (pos c) <= cutoff)%R -> received pid (calls c18) a c = 1%nat) /\
    (In a haloPs -> In c haloPs -> received pid (calls c18) a c = 0%nat).
  Proof using All.
    intros Hn Ja Jc N. destruct (home a Ja) as (ka & Ia & Oa & Ha). destruct (home c Jc) as (kc & Ic & Oc & Hc).
    rewrite calls_events.
    destruct (events_n3 leafPtr_dec pid isHalo pos view cf cutoff content dirOf Hview dirOf_le content_ids content_disjoint a c ka kc Ia Ic N c18 Hn) as [Le Eq].
    assert (U : forall x y, In x c18 -> In y c18 -> samePairK leafPtr_dec ka kc x = true -> samePairK leafPtr_dec ka kc y = true -> x = y).
    { intros (x1 & x2) (y1 & y2) Ix Iy Sx Sy. apply (samePairK_iff leafPtr_dec) in Sx, Sy. apply in_c18 in Ix as (_ & Cx), Iy as (_ & Cy).
      destruct Sx as [[-> ->]|[-> ->]], Sy as [[-> ->]|[-> ->]]; try reflexivity; (destruct Cx as [->|Cx]; [reflexivity|]; destruct Cy as [->|Cy]; [reflexivity|]; lia). }
    pose proof (occ_le_one_of_unique _ _ NoDup_c18 U) as Le1. split; [lia|]. split.
    - intros O D. assert (D' : (dist3 (pos c) (pos a) <= cutoff)%R) by now rewrite dist3_sym. rewrite (Eq D D').
      enough (Ex : exists e, In e c18 /\ samePairK leafPtr_dec ka kc e = true).
      { destruct Ex as (e & I & Se). pose proof (occ_pos_of_in _ _ _ I Se). lia. }
      assert (Sym : In (ka, kc) c18 \/ In (kc, ka) c18).
      { rewrite !in_c18. destruct O as [O|O].
        - destruct (Oa O) as (p & ->). pose proof (near_in_c01 a c p kc Ia Ic D) as I. destruct kc as [q|q].
          + destruct (path_dec p q) as [->|Npq]; [left; auto|].
            pose proof (near_in_c01 c a q (Owned p) Ic Ia D') as I'.
            pose proof (content_cases _ _ Ia) as (l & h & x & L & _). pose proof (content_cases _ _ Ic) as (l' & h' & x' & L' & _).
            destruct (ID_total p q) as [T|T]; [now exists l, h, x|now exists l', h', x'|exact Npq|left; auto|right; auto].
          + left. split; [exact I|]. right. apply ID_owned_halo. pose proof (content_cases _ _ Ia) as (l & h & x & L & _). now exists l, h, x.
        - destruct (Oc O) as (q & ->). pose proof (near_in_c01 c a q ka Ic Ia D') as I. destruct ka as [p|p].
          + destruct (path_dec p q) as [->|Npq]; [left; auto|].
            pose proof (near_in_c01 a c p (Owned q) Ia Ic D) as I'.
            pose proof (content_cases _ _ Ia) as (l & h & x & L & _). pose proof (content_cases _ _ Ic) as (l' & h' & x' & L' & _).
            destruct (ID_total p q) as [T|T]; [now exists l, h, x|now exists l', h', x'|exact Npq|left; auto|right; auto].
          + right. split; [exact I|]. right. apply ID_owned_halo. pose proof (content_cases _ _ Ic) as (l & h & x & L & _). now exists l, h, x. }
      destruct Sym as [I|I]; eexists; (split; [exact I|]); apply (samePairK_iff leafPtr_dec); auto.
    - intros Va Vc. destruct (Ha Va) as (p & ->). destruct (Hc Vc) as (q & ->). enough (Z : occ (samePairK leafPtr_dec (Halo p) (Halo q)) c18 = 0%nat) by lia.
      apply occ_zero. intros (k1 & k2) I. apply in_c18 in I as [I _]. apply first_owned in I as (r & ->).
      destruct (samePairK _ _ _ _) eqn:E; [|reflexivity]. apply (samePairK_iff leafPtr_dec) in E. destruct E as [[E _]|[E _]]; discriminate.
  Qed.

  Theorem ot_c01 a c : useNewton3 cf = false -> bidirectional cf = false -> In a (ownedPs ++ haloPs) -> In c (ownedPs ++ haloPs) -> a <> c ->
    (received pid (calls c01) a c <= 1)%nat /\
    (In a ownedPs -> isHalo a = false -> (dist3 (pos a) (pos c) <= cutoff)%R -> received pid (calls c01) a c = 1%nat) /\
    (In a haloPs -> received pid (calls c01) a c = 0%nat).
  Proof using All.
    intros Hn Hb Ja Jc N. destruct (home a Ja) as (ka & Ia & Oa & Ha). destruct (home c Jc) as (kc & Ic & Oc & Hc).
    rewrite calls_events.
    pose proof (events_ordered_le leafPtr_dec pid isHalo pos view cf cutoff content dirOf Hview dirOf_le content_ids content_disjoint a c ka kc Ia Ic N c01 Hn Hb) as Le.
    assert (U : forall x y, In x c01 -> In y c01 -> orderedPairK leafPtr_dec ka kc x = true -> orderedPairK leafPtr_dec ka kc y = true -> x = y).
    { intros (x1 & x2) (y1 & y2) _ _ Sx Sy. apply (orderedPairK_iff leafPtr_dec) in Sx as [-> ->], Sy as [-> ->]. reflexivity. }
    pose proof (occ_le_one_of_unique _ _ NoDup_c01 U) as Le1. split; [lia|]. split.
    - intros O Hh D. assert (D' : (dist3 (pos c) (pos a) <= cutoff)%R) by now rewrite dist3_sym.
      rewrite (events_ordered leafPtr_dec pid isHalo pos view cf cutoff content dirOf Hview dirOf_le content_ids content_disjoint a c ka kc Ia Ic N c01 Hn Hb Hh D D').
      destruct (Oa O) as (p & ->). pose proof (near_in_c01 a c p kc Ia Ic D) as I.
      enough (1 <= occ (orderedPairK leafPtr_dec (Owned p) kc) c01)%nat by lia.
      apply (occ_pos_of_in _ _ _ I). apply (orderedPairK_iff leafPtr_dec). auto.
    - intros Va. destruct (Ha Va) as (p & ->). enough (Z : occ (orderedPairK leafPtr_dec (Halo p) kc) c01 = 0%nat) by lia.
      apply occ_zero. intros (k1 & k2) I. apply first_owned in I as (r & ->).
      destruct (orderedPairK _ _ _ _) eqn:E; [|reflexivity]. apply (orderedPairK_iff leafPtr_dec) in E as [E _]. discriminate.
  Qed.
End Traversal.

(** Exact arithmetic: a bound on all coordinates exists. *)
Lemma exact_common il lo hi lo' hi' : (0 < il)%R -> below lo hi -> below lo' hi' ->
  exists M, precise rndExact M 0 il lo hi /\ precise rndExact M 0 il lo' hi' /\ (il <= M)%R.
Proof.
  intros H B B'. destruct (exact_precise il lo hi H B) as (M1 & A1). destruct (exact_precise il lo' hi' H B') as (M2 & A2).
  exists (Rmax (Rmax M1 M2) il). pose proof (Rmax_l (Rmax M1 M2) il). pose proof (Rmax_r (Rmax M1 M2) il). pose proof (Rmax_l M1 M2). pose proof (Rmax_r M1 M2).
  set (M := Rmax (Rmax M1 M2) il) in *.
  assert (G : forall M0 a b, (M0 <= M)%R -> precise rndExact M0 0 il a b -> precise rndExact M 0 il a b).
  { intros M0 a b L (_ & E & E8 & Ei & U & D). split; [apply exact_accurate|]. split; [lra|]. split; [lra|]. split; [lra|]. split; [|exact D]. unfold boxUpTo in *. lra. }
  split; [eapply G; [|exact A1]; lra|]. split; [eapply G; [|exact A2]; lra|lra].
Qed.

(** A concrete case: three particles, the second on the other side of the first split,
    the third a halo particle. *)
Definition exOOld (p : Z) : R3 :=
  match p with 0%Z => mkR3 (19 / 10) (3 / 10) 1 | 1%Z => mkR3 (24 / 10) (3 / 10) 1 | _ => mkR3 (19 / 10) (- (2 / 10)) 1 end.
Definition exOPos (p : Z) : R3 := match p with 0%Z => mkR3 2 (3 / 10) 1 | _ => exOOld p end.
Lemma ot_example :
  let bMin := mkR3 0 0 0 in let bMax := mkR3 4 4 4 in let hMin := mkR3 (-1) (-1) (-1) in let hMax := mkR3 5 5 5 in
  exists t u, builtBy exOOld rndExact 1 1 bMin bMax [0; 1]%Z t /\ builtBy exOOld rndExact 1 1 hMin hMax [2]%Z u /\
  (below bMin bMax /\ below hMin hMax /\ wideBox 1 hMin hMax) /\ distinctIds (fun p => p) ([0; 1] ++ [2]) /\
  movedAtMost exOOld exOPos (1 / 5) ([0; 1] ++ [2]) /\ (dist3 (exOPos 0) (exOPos 1) <= 1 - 1 / 5)%R /\ (dist3 (exOPos 0) (exOPos 2) <= 1 - 1 / 5)%R /\
  (forall p l h c, leafAt t p l h c -> ~ (In 0%Z c /\ In 1%Z c)).
Proof.
  cbv zeta. assert (B1 : below (mkR3 0 0 0) (mkR3 4 4 4)) by (unfold below; cbn [rx ry rz]; lra).
  assert (B2 : below (mkR3 (-1) (-1) (-1)) (mkR3 5 5 5)) by (unfold below; cbn [rx ry rz]; lra).
  destruct (exact_common 1 _ _ _ _ ltac:(lra) B1 B2) as (M & P1 & P2 & _).
  assert (Hd : forall x y z u v w r, (0 <= r)%R -> ((x - u) * (x - u) + (y - v) * (y - v) + (z - w) * (z - w) <= r * r)%R ->
             (dist3 (mkR3 x y z) (mkR3 u v w) <= r)%R).
  { intros x y z u v w r Hr H. unfold dist3, dot, rsub. cbn [rx ry rz]. rewrite <- (sqrt_Rsqr r Hr). apply sqrt_le_1_alt. exact H. }
  destruct (built_total exOOld rndExact 1 1 _ _ [0; 1]%Z M 0 P1) as (t & Bt).
  { repeat constructor; unfold inBox, exOOld; cbn [rx ry rz]; lra. }
  destruct (built_total exOOld rndExact 1 1 _ _ [2]%Z M 0 P2) as (u & Bu).
  { repeat constructor; unfold inBox, exOOld; cbn [rx ry rz]; lra. }
  exists t, u. split; [exact Bt|]. split; [exact Bu|]. split; [split; [exact B1|]; split; [exact B2|]; unfold wideBox; cbn [rx ry rz]; lra|].
  split; [unfold distinctIds; repeat constructor; cbn; intuition lia|].
  split; [unfold movedAtMost, exOPos, exOOld; repeat (apply Forall_cons || apply Forall_nil); apply Hd; lra|].
  split; [apply Hd; lra|]. split; [apply Hd; lra|].
  intros p l h c L (I0 & I1). destruct (built_good exOOld rndExact 1 1 _ _ _ _ Bt) as (W & _ & E1 & E2 & _).
  destruct (built_keeps exOOld rndExact 1 1 _ _ _ _ Bt) as (_ & K). pose proof (K p l h c _ L I0) as J0. pose proof (K p l h c _ L I1) as J1.
  clear K. assert (Q : t <> Leaf (mkR3 0 0 0) (mkR3 4 4 4) c).
  { intros ->. inversion Bt as [|ps t1 q fuel t' B1' I' E' Eq Eq']; subst. change [0; 1]%Z with ([0] ++ [1])%Z in Eq. apply app_inj_tail in Eq as [-> ->].
    inversion B1' as [|ps t2 q fuel2 t'' B2' I2 E2' Eq Eq']; subst. change [0]%Z with ([] ++ [0])%Z in Eq. apply app_inj_tail in Eq as [-> ->].
    inversion B2' as [|ps t3 q f3 t3' B3 I3 E3 Eq Eq']; subst; [|destruct ps; discriminate].
    destruct fuel2 as [|f2]; [discriminate|]. cbn [insert length Nat.ltb Nat.leb orb app] in E2'. injection E2' as <-.
    destruct fuel as [|f]; [discriminate|]. cbn [insert length Nat.ltb Nat.leb orb] in E'.
    assert (T : tooSmall rndExact 1 (mkR3 0 0 0) (mkR3 4 4 4) = false).
    { unfold tooSmall, tooSmall1, rndExact. cbn [rx ry rz]. destruct (Rlt_dec _ _); [lra|reflexivity]. }
    rewrite T in E'. destruct (insert exOOld rndExact 1 1 f (newInner rndExact (mkR3 0 0 0) (mkR3 4 4 4)) 1%Z) as [t4|] eqn:E4; [|discriminate].
    destruct f as [|f]; [discriminate|]. cbn [insert newInner] in E4. destruct (insertFirst _ _ _) as [cs|]; [|discriminate]. injection E4 as <-.
    cbn [foldInsert] in E'. destruct (insert _ _ _ _ _ _ _) as [t5|] eqn:E5; [|discriminate]. injection E' as ->.
    cbn [insert] in E5. destruct (insertFirst _ _ _); discriminate. }
  assert (N : p <> []).
  { intros ->. apply Q. unfold leafAt in L. cbn in L. injection L as L. rewrite L in E1, E2 |- *. cbn in E1, E2. now subst. }
  destruct (exists_last N) as (m & v & ->). unfold leafAt in L. rewrite nodeAt_last in L. destruct t as [|lo hi cs]; [discriminate|].
  destruct (SON (Inner lo hi cs) v) as [d|] eqn:S; [|discriminate]. inversion W as [|? ? ? L8 B Wc T]; subst. cbn [boxMin boxMax] in E1, E2. subst lo hi.
  pose proof (proj1 (node_within rndExact 1 d _ m (Wc _ _ S) (solid_son _ d v (proj1 (built_leaves exOOld rndExact 1 1 _ _ _ _ M 0 P1 Bt)) S) L)) as A.
  destruct (B _ _ S) as [D1 D2]. cbn [boxMin boxMax] in A. rewrite D1, D2 in A. unfold within, childMin, childMax, center, rndExact in A. cbn [rx ry rz] in A.
  unfold inBox, exOOld in J0, J1. cbn [rx ry rz] in J0, J1. destruct (Nat.testbit (vertexToIndex v) 2); lra.
Qed.
