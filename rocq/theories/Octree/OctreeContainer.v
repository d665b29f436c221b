(** updateContainer, forEach and forEachInRegion of the octree. *)
From Coq Require Import Reals Lra Permutation.
From Verif.Base Require Import ZRange OptionM.
From Verif.Functor Require Import SortModel SortSpec.
From Verif.Grid Require Import CellBlockModel CellBlockSpec.
From Verif.Container Require Import IteratorModel IteratorContainers IteratorSpec ParticleModel ForEachModel ForEachProofs.
From Verif.Octree Require Import DirectionModel OctreeModel OctreeSpec OctreeBase OctreeAxis OctreeTouch OctreeInsert OctreeDouble OctreeProps OctreeContainerModel OctreeExample.
Local Open Scope R_scope.

Lemma filter_none {A} (f : A -> bool) l : (forall x, In x l -> f x = false) -> filter f l = [].
Proof. induction l as [|x l IH]; intros H; [reflexivity|]. cbn. rewrite (H x (or_introl eq_refl)). apply IH. intros y I. apply H. now right. Qed.

Lemma distribute_spec bMin bMax ps : otDistribute bMin bMax ps =
  (filter (fun p => negb (isDummy p) && inBoxb bMin bMax (ppos p))%bool ps, filter (fun p => negb (isDummy p) && negb (inBoxb bMin bMax (ppos p)))%bool ps).
Proof.
  induction ps as [|p r IH]; [reflexivity|]. cbn [otDistribute filter]. rewrite IH.
  destruct (isDummy p); cbn [negb andb]; [reflexivity|]. destruct (inBoxb bMin bMax (ppos p)); reflexivity.
Qed.

Section Update.
  Variable rnd : R -> R.
  Variable threshold : nat.
  Variable il : R.

  Lemma foldInsert_built lo hi M eps : precise rnd M eps il lo hi -> forall qs ps t,
    builtBy ppos rnd threshold il lo hi ps t -> Forall (fun p => inBox lo hi (ppos p)) qs ->
    exists t' fuel0, builtBy ppos rnd threshold il lo hi (ps ++ qs) t' /\
      forall fuel, (fuel0 <= fuel)%nat -> foldInsert (insert ppos rnd threshold il fuel) t qs = Some t'.
  Proof.
    intros (Acc & He & H8 & Hil & U & D). induction qs as [|q qs IH]; intros ps t B F.
    - exists t, 0%nat. rewrite app_nil_r. split; [exact B|]. reflexivity.
    - inversion F as [|? ? Iq Fq]; subst. destruct (built_good ppos rnd threshold il lo hi ps t B) as (W & Pl & E1 & E2 & Q).
      destruct (insert_terminates ppos rnd threshold il M eps Acc He H8 Hil t q W) as (f & t1 & E); [now rewrite E1, E2|now rewrite E1, E2|].
      destruct (IH (ps ++ [q]) t1 (builtInsert ppos rnd threshold il lo hi ps t q f t1 B Iq E) Fq) as (t' & f' & B' & E').
      exists t', (Nat.max f f'). rewrite <- app_assoc in B'. split; [exact B'|]. intros fuel L. cbn [foldInsert].
      rewrite (insert_mono ppos rnd threshold il f fuel _ _ _ ltac:(lia) E). apply E'. lia.
  Qed.

  Lemma ot_update bMin bMax M eps owned halo : precise rnd M eps il bMin bMax ->
    boxMin owned = bMin -> boxMax owned = bMax ->
    (forall p, In p (collectAllParticles owned) -> validState (pown p) /\ pown p <> 2%Z) ->
    (forall p, In p (collectAllParticles halo) -> validState (pown p) /\ pown p <> 1%Z) ->
    exists stays leaves owned' halo' out fuel0,
      (forall p, stays p = true <-> pown p = 1%Z /\ inBox bMin bMax (ppos p)) /\
      (forall p, leaves p = true <-> pown p = 1%Z /\ ~ inBox bMin bMax (ppos p)) /\
      (forall fuel, (fuel0 <= fuel)%nat -> otUpdate rnd threshold il fuel bMin bMax owned halo = Some (owned', halo', out)) /\
      builtBy ppos rnd threshold il bMin bMax (filter stays (collectAllParticles owned)) owned' /\
      builtBy ppos rnd threshold il (boxMin halo) (boxMax halo) [] halo' /\
      Permutation (collectAllParticles owned' ++ collectAllParticles halo') (filter stays (collectAllParticles owned ++ collectAllParticles halo)) /\
      Permutation out (filter leaves (collectAllParticles owned ++ collectAllParticles halo)).
  Proof.
    intros Pr Bl Bh Ho Hh.
    set (stays := fun p => ((pown p =? 1)%Z && inBoxb bMin bMax (ppos p))%bool).
    set (leaves := fun p => ((pown p =? 1)%Z && negb (inBoxb bMin bMax (ppos p)))%bool).
    assert (Hs : forall p, stays p = true <-> pown p = 1%Z /\ inBox bMin bMax (ppos p)).
    { intros p. unfold stays. rewrite andb_true_iff, Z.eqb_eq, inBoxb_iff. tauto. }
    assert (Hl : forall p, leaves p = true <-> pown p = 1%Z /\ ~ inBox bMin bMax (ppos p)).
    { intros p. unfold leaves. rewrite andb_true_iff, Z.eqb_eq, negb_true_iff. rewrite <- inBoxb_iff.
      destruct (inBoxb bMin bMax (ppos p)); intuition congruence. }
    assert (Eq : otDistribute bMin bMax (collectAllParticles owned) = (filter stays (collectAllParticles owned), filter leaves (collectAllParticles owned))).
    { rewrite distribute_spec. f_equal; apply filter_ext_in; intros p I; destruct (Ho p I) as ([V|[V|V]] & N); unfold stays, leaves, isDummy, stDummy;
        rewrite V; try reflexivity; lia. }
    assert (N1 : filter stays (collectAllParticles halo) = []).
    { apply filter_none. intros p I. unfold stays. destruct (Z.eqb_spec (pown p) 1) as [V|V]; [|reflexivity]. now destruct (Hh p I). }
    assert (N2 : filter leaves (collectAllParticles halo) = []).
    { apply filter_none. intros p I. unfold leaves. destruct (Z.eqb_spec (pown p) 1) as [V|V]; [|reflexivity]. now destruct (Hh p I). }
    destruct (foldInsert_built bMin bMax M eps Pr (filter stays (collectAllParticles owned)) [] (Leaf bMin bMax []) (builtEmpty _ _ _ _ _ _)) as (t' & f & B & E).
    { apply Forall_forall. intros p I. apply filter_In in I as [_ I]. now apply Hs in I. }
    exists stays, leaves, t', (otClear halo), (filter leaves (collectAllParticles owned)), f.
    split; [exact Hs|]. split; [exact Hl|]. split; [|split; [exact B|split; [apply builtEmpty|split]]].
    - intros fuel L. unfold otUpdate, otClear. rewrite Eq, Bl, Bh, (E fuel L). reflexivity.
    - unfold otClear. cbn [collectAllParticles]. rewrite app_nil_r, filter_app, N1, app_nil_r. apply (built_keeps ppos rnd threshold il bMin bMax _ t' B).
    - rewrite filter_app, N2, app_nil_r. reflexivity.
  Qed.
End Update.

Section ForEach.
  Variable rnd : R -> R.
  Variable il : R.

  Lemma nodeForEach_collect t : wf rnd il t -> nodeForEach t = collectAllParticles t.
  Proof.
    intros W. induction W as [|lo hi cs L _ _ IH _]; [reflexivity|]. cbn. clear L. induction cs as [|c r J]; [reflexivity|].
    cbn. rewrite (IH 0%nat c eq_refl), J; [reflexivity|]. intros i d E. exact (IH (S i) d E).
  Qed.

  Lemma encloses_exact a b lo hi x : inBox a b x -> inBox lo hi x -> enclosesVolume rndExact a b lo hi = true.
  Proof.
    intros (A1 & A2 & A3) (B1 & B2 & B3). unfold enclosesVolume, overlaps1, rndExact.
    assert (T : forall p q r s u, p <= u < q -> r <= u < s -> 0 < Rmin q s - Rmax p r).
    { intros. unfold Rmin, Rmax. destruct (Rle_dec q s), (Rle_dec p r); lra. }
    destruct (Rlt_dec _ _) as [_|N]; [|exfalso; apply N; eapply T; eassumption].
    destruct (Rlt_dec _ _) as [_|N]; [|exfalso; apply N; eapply T; eassumption].
    destruct (Rlt_dec _ _) as [_|N]; [|exfalso; apply N; eapply T; eassumption]. reflexivity.
  Qed.
End ForEach.

Lemma leafAt_son {P} (t c : Tree P) v path l h ps : SON t v = Some c -> leafAt c path l h ps -> leafAt t (path ++ [v]) l h ps.
Proof. intros E L. unfold leafAt in *. rewrite nodeAt_last, E. exact L. Qed.

(** Every particle is in some leaf. *)
Lemma collect_leaf {P} rnd il (t : Tree P) p : wf rnd il t -> In p (collectAllParticles t) -> exists path l h c, leafAt t path l h c /\ In p c.
Proof.
  intros W. induction W as [lo hi ps|lo hi cs L B W IH T]; intros I.
  - exists [], lo, hi, ps. split; [reflexivity|exact I].
  - cbn in I. apply in_flat_map in I as (c & Ic & Ip). apply In_nth_error in Ic as (i & E).
    destruct (IH i c E Ip) as (path & l & h & ps & Lp & Ips).
    assert (Hi : (i < 8)%nat) by (rewrite <- L; apply nth_error_Some; congruence). destruct (index_surj i Hi) as (v & <-).
    exists (path ++ [v]), l, h, ps. split; [|exact Ips]. apply (leafAt_son (Inner lo hi cs) c); [exact E|exact Lp].
Qed.

Lemma node_region rnd il behavior lo hi t : wf rnd il t -> solidLeaves t ->
  lambdaBehavior behavior -> (forall p, In p (collectAllParticles t) -> validState (pown p)) ->
  (forall path l h c p, leafAt t path l h c -> In p c -> wantedb behavior (pown p) = true -> inBox l h (ppos p)) ->
  nodeForEachInRegion rndExact behavior lo hi t = Some (filter (visitedb behavior (inBoxb lo hi)) (collectAllParticles t)).
Proof.
  intros W. revert behavior. induction W as [a b ps|a b cs L B W IH T]; intros behavior S H V Pl.
  - cbn [nodeForEachInRegion collectAllParticles]. now apply cellForEach_spec.
  - pose proof (wfInner rnd il a b cs L B W T) as WI. cbn [nodeForEachInRegion collectAllParticles].
    assert (G : forall c, In c cs -> (if enclosesVolume rndExact (boxMin c) (boxMax c) lo hi then nodeForEachInRegion rndExact behavior lo hi c else Some []) =
      Some (filter (visitedb behavior (inBoxb lo hi)) (collectAllParticles c))).
    { intros c Ic. apply In_nth_error in Ic as (i & E).
      assert (Hi : (i < 8)%nat) by (rewrite <- L; apply nth_error_Some; congruence). destruct (index_surj i Hi) as (v & <-).
      assert (Sc : solidLeaves c) by exact (solid_son (Inner a b cs) c v S E).
      assert (Plc : forall path l h ps p, leafAt c path l h ps -> In p ps -> wantedb behavior (pown p) = true -> inBox l h (ppos p)).
      { intros path l h ps p Lf Ip. apply (Pl (path ++ [v]) l h ps p); [|exact Ip]. apply (leafAt_son (Inner a b cs) c); [exact E|exact Lf]. }
      destruct (enclosesVolume _ _ _ _ _) eqn:En.
      - apply (IH _ _ E); auto. intros p Ip. apply V. apply in_flat_map. exists c. split; [now apply nth_error_In in E|exact Ip].
      - f_equal. symmetry. apply filter_none. intros p Ip. unfold visitedb. destruct (wantedb behavior (pown p)) eqn:Wp; [|reflexivity].
        cbn [andb]. destruct (inBoxb lo hi (ppos p)) eqn:Ib; [|reflexivity]. exfalso. apply inBoxb_iff in Ib.
        destruct (collect_leaf rnd il c p (W _ _ E) Ip) as (path & l & h & ps & Lf & Ips).
        pose proof (proj1 (node_within rnd il c _ path (W _ _ E) Sc Lf)) as A. cbn [boxMin boxMax] in A.
        pose proof (within_in _ _ _ _ _ A (Plc _ _ _ _ _ Lf Ips Wp)) as J.
        rewrite (encloses_exact _ _ lo hi (ppos p) J Ib) in En. discriminate. }
    clear - G. induction cs as [|c r IHr]; [reflexivity|]. rewrite (G c (or_introl eq_refl)), IHr by (intros d Id; apply G; now right).
    cbn [flat_map]. now rewrite filter_app.
Qed.

Section TreeMap.
  Variable f : Particle -> Particle.
  Lemma boxMin_treeMap t : boxMin (treeMap f t) = boxMin t.
  Proof. destruct t; reflexivity. Qed.
  Lemma boxMax_treeMap t : boxMax (treeMap f t) = boxMax t.
  Proof. destruct t; reflexivity. Qed.
  Lemma nodeAt_treeMap t q : nodeAt (treeMap f t) q = option_map (treeMap f) (nodeAt t q).
  Proof.
    induction q as [|v q IH]; [reflexivity|]. cbn. rewrite IH. destruct (nodeAt t q) as [n|]; [|reflexivity]. cbn.
    destruct n as [|? ? cs]; [reflexivity|]. cbn. apply nth_error_map.
  Qed.
  Lemma leafAt_treeMap t q l h c' : leafAt (treeMap f t) q l h c' <-> exists c, leafAt t q l h c /\ c' = map f c.
  Proof.
    unfold leafAt. rewrite nodeAt_treeMap. destruct (nodeAt t q) as [[|]|]; cbn; split.
    - intros E. injection E as <- <- <-. eauto.
    - intros (c & E & ->). now injection E as -> -> ->.
    - discriminate.
    - intros (c & E & _). discriminate.
    - discriminate.
    - intros (c & E & _). discriminate.
  Qed.
  Lemma solid_treeMap t : solidLeaves t -> solidLeaves (treeMap f t).
  Proof. intros S q l h c' L. apply leafAt_treeMap in L as (c & L & _). exact (S _ _ _ _ L). Qed.
  Lemma wf_treeMap rnd il t : wf rnd il t -> wf rnd il (treeMap f t).
  Proof.
    intros W. induction W as [|lo hi cs L B W IH T]; [constructor|]. cbn. constructor; [now rewrite map_length| | |exact T].
    - intros i c E. rewrite nth_error_map in E. destruct (nth_error cs i) as [d|] eqn:D; [|discriminate]. injection E as <-.
      rewrite boxMin_treeMap, boxMax_treeMap. now apply B.
    - intros i c E. rewrite nth_error_map in E. destruct (nth_error cs i) as [d|] eqn:D; [|discriminate]. injection E as <-. eauto.
  Qed.
  Lemma collect_treeMap rnd il t : wf rnd il t -> collectAllParticles (treeMap f t) = map f (collectAllParticles t).
  Proof.
    intros W. induction W as [|lo hi cs L _ _ IH _]; [reflexivity|]. cbn. clear L. induction cs as [|c r J]; [reflexivity|].
    cbn. rewrite map_app, (IH 0%nat c eq_refl), J; [reflexivity|]. intros i d E. exact (IH (S i) d E).
  Qed.
End TreeMap.

Lemma perm_filter {A} (f : A -> bool) l l' : Permutation l l' -> Permutation (filter f l) (filter f l').
Proof.
  intros Q. induction Q; cbn; auto.
  - destruct (f x); auto.
  - destruct (f x), (f y); auto. apply perm_swap.
  - etransitivity; eassumption.
Qed.

Section Props.
  Variable threshold : nat.
  Variable il : R.
  Variables lo hi hlo hhi : R3.
  Hypothesis Hil : 0 < il.
  Hypothesis Hbox : below lo hi.
  Hypothesis Hhalo : below hlo hhi.
  Variables ps qs : list Particle.
  Variables owned halo : Tree Particle.
  Hypothesis Bo : builtBy ppos rndExact threshold il lo hi ps owned.
  Hypothesis Bh : builtBy ppos rndExact threshold il hlo hhi qs halo.
  Variable now : Particle -> Particle.
  Hypothesis Vo : forall p, In p ps -> validState (pown (now p)) /\ pown (now p) <> 2%Z.
  Hypothesis Vh : forall p, In p qs -> validState (pown (now p)) /\ pown (now p) <> 1%Z.

  Let goodTree t l h xs : below l h -> builtBy ppos rndExact threshold il l h xs t ->
    wf rndExact il (treeMap now t) /\ solidLeaves (treeMap now t) /\ Permutation (collectAllParticles (treeMap now t)) (map now xs).
  Proof using Hil.
    intros D B. destruct (exact_precise il l h Hil D) as (M & Pr).
    pose proof (proj1 (built_leaves ppos rndExact threshold il l h xs t M 0 Pr B)) as S.
    destruct (built_good ppos rndExact threshold il l h xs t B) as (W & _ & _ & _ & Q).
    split; [now apply wf_treeMap|]. split; [now apply solid_treeMap|]. rewrite (collect_treeMap now rndExact il t W). now apply Permutation_map.
  Qed.

  Lemma ot_for_each behavior : behavior = 1%Z \/ behavior = 2%Z \/ behavior = 3%Z ->
    (forall p, In p (ps ++ qs) -> pown (now p) <> 0%Z) ->
    exists l, otForEach behavior (treeMap now owned) (treeMap now halo) = Some l /\
      Permutation l (filter (fun p => wantedb behavior (pown p)) (map now (ps ++ qs))).
  Proof using All.
    intros Bb N. destruct (goodTree owned lo hi ps Hbox Bo) as (W1 & _ & Q1). destruct (goodTree halo hlo hhi qs Hhalo Bh) as (W2 & _ & Q2).
    unfold otForEach. rewrite (nodeForEach_collect _ _ _ W1), (nodeForEach_collect _ _ _ W2).
    assert (O : forall p, In p (map now ps) -> pown p = 1%Z).
    { intros p I. apply in_map_iff in I as (q & <- & I). specialize (N q ltac:(apply in_app_iff; auto)). destruct (Vo q I) as ([V|[V|V]] & X); congruence. }
    assert (H : forall p, In p (map now qs) -> pown p = 2%Z).
    { intros p I. apply in_map_iff in I as (q & <- & I). specialize (N q ltac:(apply in_app_iff; auto)). destruct (Vh q I) as ([V|[V|V]] & X); congruence. }
    assert (F : forall b l, (forall p : Particle, In p l -> wantedb behavior (pown p) = b) -> filter (fun p => wantedb behavior (pown p)) l = if b then l else []).
    { clear. intros b l E. destruct b; [|now apply filter_none]. induction l as [|x l IH]; [reflexivity|]. cbn.
      rewrite (E x (or_introl eq_refl)). f_equal. apply IH. intros y I. apply E. now right. }
    destruct Bb as [-> | [-> | ->]]; cbn [negb hasFlag]; (eexists; split; [reflexivity|]); rewrite map_app, filter_app.
    - rewrite (F true (map now ps)), (F false (map now qs)), app_nil_r; [|intros p I; now rewrite (H p I)|intros p I; now rewrite (O p I)].
      cbn. rewrite app_nil_r. exact Q1.
    - rewrite (F false (map now ps)), (F true (map now qs)); [|intros p I; now rewrite (H p I)|intros p I; now rewrite (O p I)].
      cbn. exact Q2.
    - rewrite (F true (map now ps)), (F true (map now qs)); [|intros p I; now rewrite (H p I)|intros p I; now rewrite (O p I)].
      cbn. now apply Permutation_app.
  Qed.

  Hypothesis Po : forall path l h c p, leafAt owned path l h c -> In p c -> pown (now p) <> 0%Z -> inBox l h (ppos (now p)).
  Hypothesis Ph : forall path l h c p, leafAt halo path l h c -> In p c -> pown (now p) <> 0%Z -> inBox l h (ppos (now p)).

  Let region t l h xs rlo rhi : below l h -> builtBy ppos rndExact threshold il l h xs t ->
    (forall p, In p xs -> validState (pown (now p))) ->
    (forall path l h c p, leafAt t path l h c -> In p c -> pown (now p) <> 0%Z -> inBox l h (ppos (now p))) ->
    exists r, nodeForEachInRegion rndExact bhOwnedOrHalo rlo rhi (treeMap now t) = Some r /\
      Permutation r (filter (visitedb 3 (inBoxb rlo rhi)) (map now xs)).
  Proof using Hil.
    intros D B V Pl. destruct (goodTree t l h xs D B) as (W & S & Q). exists (filter (visitedb 3 (inBoxb rlo rhi)) (collectAllParticles (treeMap now t))). split.
    - apply (node_region rndExact il bhOwnedOrHalo rlo rhi _ W S); [unfold lambdaBehavior; right; right; left; reflexivity| |].
      + intros p I. apply (Permutation_in _ Q) in I. apply in_map_iff in I as (q & <- & I). now apply V.
      + intros path a b c' p L I Wp. apply leafAt_treeMap in L as (c & L & ->). apply in_map_iff in I as (q & <- & I).
        apply (Pl path a b c q L I). intros E. rewrite E in Wp. discriminate.
    - now apply perm_filter.
  Qed.

  Lemma ot_for_each_in_region behavior rlo rhi : behavior = 1%Z \/ behavior = 2%Z \/ behavior = 3%Z ->
    exists l, otForEachInRegion rndExact behavior rlo rhi (treeMap now owned) (treeMap now halo) = Some l /\
      Permutation l (filter (fun p => wantedb behavior (pown p) && inBoxb rlo rhi (ppos p))%bool (map now (ps ++ qs))).
  Proof using All.
    intros Bb. destruct (region owned lo hi ps rlo rhi Hbox Bo (fun p I => proj1 (Vo p I)) Po) as (r1 & E1 & Q1).
    destruct (region halo hlo hhi qs rlo rhi Hhalo Bh (fun p I => proj1 (Vh p I)) Ph) as (r2 & E2 & Q2).
    unfold otForEachInRegion. rewrite E1, E2.
    assert (Vw : forall w : bool, forall xs, (forall p, In p (map now xs) -> (wantedb behavior (pown p) = wantedb 3 (pown p) && w)%bool) ->
      filter (fun p => wantedb behavior (pown p) && inBoxb rlo rhi (ppos p))%bool (map now xs) = if w then filter (visitedb 3 (inBoxb rlo rhi)) (map now xs) else []).
    { clear. intros w xs E. destruct w.
      - apply filter_ext_in. intros p I. unfold visitedb. now rewrite (E p I), andb_true_r.
      - apply filter_none. intros p I. now rewrite (E p I), andb_false_r. }
    assert (O : forall p, In p (map now ps) -> pown p = 0%Z \/ pown p = 1%Z).
    { intros p I. apply in_map_iff in I as (q & <- & I). destruct (Vo q I) as ([V|[V|V]] & X); tauto. }
    assert (H : forall p, In p (map now qs) -> pown p = 0%Z \/ pown p = 2%Z).
    { intros p I. apply in_map_iff in I as (q & <- & I). destruct (Vh q I) as ([V|[V|V]] & X); tauto. }
    destruct Bb as [-> | [-> | ->]]; cbn [negb hasFlag]; (eexists; split; [reflexivity|]); rewrite map_app, filter_app.
    - rewrite (Vw true ps), (Vw false qs), !app_nil_r; [exact Q1| |].
      + intros p I. destruct (H p I) as [-> | ->]; reflexivity.
      + intros p I. destruct (O p I) as [-> | ->]; reflexivity.
    - rewrite (Vw false ps), (Vw true qs); [exact Q2| |].
      + intros p I. destruct (H p I) as [-> | ->]; reflexivity.
      + intros p I. destruct (O p I) as [-> | ->]; reflexivity.
    - rewrite (Vw true ps), (Vw true qs); [now apply Permutation_app| |].
      + intros p I. destruct (H p I) as [-> | ->]; reflexivity.
      + intros p I. destruct (O p I) as [-> | ->]; reflexivity.
  Qed.
End Props.
