(** updateContainer of the cluster lists keeps the owned particles in the box and returns
    the others. *)
From Coq Require Import Reals Lra Psatz Permutation.
From Verif.Base Require Import ZRange OptionM Lists.
From Verif.Functor Require Import SortModel.
From Verif.Grid Require Import CellBlockSpec.
From Verif.Container Require IteratorInstances.
From Verif.Container Require Import IteratorModel IteratorContainers IteratorSpec IteratorLemmas IteratorRegion ParticleModel.
From Verif.Cluster Require BlockBuild.
From Verif.Cluster Require Import TowerModel TowerSpec BlockModel ClusterContainerModel ClusterContainerSpec ClusterIterate.
Local Open Scope nat_scope.

Definition noHalo (p : Particle) : bool := negb (isHaloP p).

(** * Particles to add *)
Lemma eraseHalos_spec : forall fuel l j, length l - j < fuel -> j <= length l -> Forall (fun p => isHaloP p = false) (firstn j l) ->
  exists l', eraseHalos fuel l j = Some l' /\ Permutation l' (filter noHalo l).
Proof.
  induction fuel as [|fuel IH]; intros l j F J H; [lia|]. cbn [eraseHalos].
  destruct (nth_error l j) as [p|] eqn:E.
  - assert (L : j < length l) by (apply nth_error_Some; congruence).
    destruct (isHaloP p) eqn:Hp.
    + assert (K := swapDelete_perm l j p E). assert (Lk := Permutation_length K). cbn [length] in Lk.
      destruct (IH (swapDelete l j) j) as (l' & E' & P'); [lia|lia| |].
      * destruct (swapDelete_spec l j p E) as [(b & m & _ & _ & -> & _)|(_ & _ & -> & _)].
        -- rewrite firstn_app, firstn_firstn, Nat.min_id. rewrite firstn_length_le by lia. rewrite Nat.sub_diag. cbn [firstn]. now rewrite app_nil_r.
        -- now rewrite firstn_firstn, Nat.min_id.
      * exists l'. split; [exact E'|]. rewrite P'. rewrite (filter_perm noHalo _ _ K). cbn [filter]. unfold noHalo at 2. rewrite Hp. reflexivity.
    + apply IH; [lia|lia|]. assert (Sp := setAt_split l j p p E). destruct Sp as [Sp _].
      rewrite Sp. replace (S j) with (length (firstn j l) + 1) by (rewrite firstn_length; lia).
      rewrite firstn_app_2. cbn [firstn]. apply Forall_app. split; [exact H|]. now constructor.
  - apply nth_error_None in E. exists l. split; [reflexivity|]. rewrite firstn_all2 in H by lia.
    clear -H. rewrite BlockBuild.filter_all; [reflexivity|]. eapply Forall_impl; [|exact H]. intros a Ha. unfold noHalo. now rewrite Ha.
Qed.

(** * Towers *)
Lemma setAt_at {A} (a b : list A) x y : setAt (a ++ x :: b) (length a) y = a ++ y :: b.
Proof. induction a as [|c a IH]; [reflexivity|]. cbn. now rewrite IH. Qed.
Lemma nth_at {A} (a b : list A) x : nth_error (a ++ x :: b) (length a) = Some x.
Proof. rewrite nth_error_app2 by lia. now rewrite Nat.sub_diag. Qed.

Lemma sweep_spec : forall fuel a b tl, length b < fuel ->
  exists a' tl', sweepTower fuel (a ++ b ++ tl) (length tl) (length a) = Some (a' ++ tl', length tl') /\
    Permutation a' (a ++ filter noHalo b) /\ length tl' = length tl + length (filter isHaloP b) /\
    (Forall (fun p => isDummy p = true) tl -> Forall (fun p => isDummy p = true) tl') /\
    (filter isHaloP b = [] -> a' = a ++ b /\ tl' = tl).
Proof.
  induction fuel as [|fuel IH]; intros a b tl F; [lia|]. cbn [sweepTower].
  destruct b as [|p b].
  - exists a, tl. cbn [app]. rewrite app_length.
    replace ((length tl <? length a + length tl) && (length a <? length a + length tl - length tl)) with false.
    2: { symmetry. apply andb_false_iff. right. apply Nat.ltb_ge. lia. }
    rewrite !app_nil_r. split; [reflexivity|]. split; [reflexivity|]. split; [cbn; lia|]. auto.
  - assert (L : length (a ++ (p :: b) ++ tl) = length a + S (length b) + length tl) by (rewrite !app_length; cbn; lia).
    rewrite L. replace (_ && _) with true by (symmetry; apply andb_true_iff; split; apply Nat.ltb_lt; lia).
    replace (nth_error (a ++ (p :: b) ++ tl) (length a)) with (Some p) by (symmetry; cbn [app]; apply nth_at).
    cbn [length] in F. destruct (isHaloP p) eqn:Hp.
    + destruct b as [|q b _] using rev_ind.
      * cbn [length app] in *. replace (length a + 1 + length tl - 1 - length tl) with (length a) by lia.
        rewrite nth_at, !setAt_at.
        destruct (IH a [] (markDeleted p :: tl)) as (a' & tl' & E & P1 & P2 & P3 & P4); [cbn; lia|].
        exists a', tl'. cbn [length app filter] in E, P1, P2. cbn [filter]. rewrite Hp. unfold noHalo. rewrite Hp. cbn [negb length].
        split; [exact E|]. split; [exact P1|]. split; [lia|]. split; [|discriminate]. intros D. apply P3. now constructor.
      * rewrite app_length in *. cbn [length] in *. replace (length a + S (length b + 1) + length tl - 1 - length tl) with (length (a ++ p :: b)) by (rewrite app_length; cbn; lia).
        replace (a ++ (p :: b ++ [q]) ++ tl) with ((a ++ p :: b) ++ q :: tl) by (rewrite <- !app_assoc; cbn [app]; rewrite <- app_assoc; reflexivity).
        rewrite nth_at.
        replace (setAt ((a ++ p :: b) ++ q :: tl) (length a) q) with ((a ++ q :: b) ++ q :: tl).
        2: { rewrite <- !app_assoc. cbn [app]. now rewrite setAt_at. }
        replace (length (a ++ p :: b)) with (length (a ++ q :: b)) by (rewrite !app_length; reflexivity).
        rewrite setAt_at.
        destruct (IH a (q :: b) (markDeleted q :: tl)) as (a' & tl' & E & P1 & P2 & P3 & P4); [cbn; lia|].
        exists a', tl'. rewrite <- app_assoc. split; [exact E|]. cbn [filter]. rewrite Hp. unfold noHalo at 1. rewrite Hp. cbn [negb].
        rewrite !filter_app. split; [|split; [|split; [|discriminate]]].
        -- rewrite P1. apply Permutation_app_head. rewrite <- filter_app. apply filter_perm. apply Permutation_cons_append.
        -- rewrite P2. cbn [length]. rewrite <- filter_app.
           rewrite (Permutation_length (filter_perm isHaloP (b ++ [q]) (q :: b) (Permutation_sym (Permutation_cons_append b q)))). lia.
        -- intros D. apply P3. now constructor.
    + destruct (IH (a ++ [p]) b tl) as (a' & tl' & E & P1 & P2 & P3 & P4); [lia|].
      rewrite app_length in E. cbn [length] in E. rewrite Nat.add_comm in E. cbn [Nat.add] in E. rewrite <- app_assoc in E. cbn [app] in E.
      exists a', tl'. cbn [app filter]. rewrite Hp. unfold noHalo at 1. rewrite Hp. cbn [negb]. split; [exact E|].
      rewrite <- app_assoc in P1. cbn [app] in P1. split; [exact P1|]. split; [exact P2|]. split; [exact P3|].
      intros H. destruct (P4 H) as [-> ->]. now rewrite <- app_assoc.
Qed.

(** A tower with padding of dummies. *)
Definition padded (t : Tower) : Prop := tDummies t <= length (tParts t) /\ Forall (fun p => isDummy p = true) (padding t).
Definition notDummyP (p : Particle) : bool := negb (isDummy p).

Lemma parts_split t : tDummies t <= length (tParts t) -> tParts t = actual t ++ padding t /\ length (padding t) = tDummies t.
Proof.
  intros H. unfold actual, padding. split; [symmetry; apply firstn_skipn|]. rewrite skipn_length. unfold numActual. lia.
Qed.

Lemma filter_empty {A} (f : A -> bool) l : Forall (fun x => f x = false) l -> filter f l = [].
Proof. induction 1 as [|a l H _ IH]; [reflexivity|]. cbn. now rewrite H. Qed.

Lemma dummies_filter l : Forall (fun p => isDummy p = true) l -> filter notDummyP l = [].
Proof. intros H. apply filter_empty. eapply Forall_impl; [|exact H]. intros p E. unfold notDummyP. now rewrite E. Qed.

Lemma filter_comm {A} (f g : A -> bool) l : filter f (filter g l) = filter g (filter f l).
Proof.
  induction l as [|a l IH]; [reflexivity|]. cbn. destruct (f a) eqn:F; destruct (g a) eqn:G; cbn; rewrite ?F, ?G, IH; reflexivity.
Qed.

Lemma erase_tower before t : padded t -> exists t' b, eraseTower before t = Some (t', b) /\
  Permutation (tParts (deleteDummyParticles t')) (filter notDummyP (filter noHalo (actual t))) /\
  b = negb (length (filter isHaloP (actual t)) =? 0).
Proof.
  intros [D Pd]. destruct (parts_split t D) as [S L]. unfold eraseTower.
  destruct (sweep_spec (Datatypes.S (length (tParts t))) [] (actual t) (padding t)) as (a' & tl' & E & P1 & P2 & P3 & P4).
  { rewrite S, app_length. lia. }
  cbn [length app] in E. rewrite <- S, L in E. rewrite E. eexists. eexists. split; [reflexivity|].
  rewrite P2, L. split.
  - assert (K : forall b : bool, filter notDummyP (tParts (if b then deleteDummyParticles (withParts t (a' ++ tl')) else withParts t (a' ++ tl')))
      = filter notDummyP (a' ++ tl')).
    { intros [|]; cbn [deleteDummyParticles withParts tParts]; [|reflexivity]. apply BlockBuild.filter_idem. }
    unfold deleteDummyParticles at 1. cbn [tParts]. fold notDummyP.
    match goal with |- Permutation (filter _ (tParts (if ?b then _ else _))) _ => specialize (K b) end.
    change (fun p : Particle => negb (isDummy p)) with notDummyP. rewrite K. rewrite filter_app, (dummies_filter tl' (P3 Pd)), app_nil_r.
    apply filter_perm. exact P1.
  - f_equal. destruct (Nat.eqb_spec (length (filter isHaloP (actual t))) 0) as [Z|Z]; [apply Nat.eqb_eq|apply Nat.eqb_neq]; lia.
Qed.

Lemma mapM_ex {A B} (f : A -> option B) (R : A -> B -> Prop) l : (forall a, In a l -> exists b, f a = Some b /\ R a b) ->
  exists r, mapM f l = Some r /\ Forall2 R l r.
Proof.
  induction l as [|a l IH]; intros H; [exists []; split; [reflexivity|constructor]|].
  destruct (H a (or_introl eq_refl)) as (b & E & Rb). destruct IH as (r & Er & Rr); [intros; apply H; now right|].
  exists (b :: r). cbn [mapM]. rewrite E, Er. split; [reflexivity|now constructor].
Qed.

Lemma Forall2_map_snd {A B C} (R : B -> C -> Prop) (l : list (A * B)) r :
  Forall2 (fun ab c => R (snd ab) c) l r -> Forall2 R (map snd l) r.
Proof. induction 1; [constructor|]. cbn. now constructor. Qed.
Lemma combine_snd {A B} (a : list A) (b : list B) : length a = length b -> map snd (combine a b) = b.
Proof. revert b. induction a as [|x a IH]; intros [|y b] H; try discriminate; [reflexivity|]. cbn. f_equal. apply IH. now injection H. Qed.

(** What updateContainer keeps before the parallel region. *)
Definition ownedOnly (p : Particle) : bool := notDummyP p && noHalo p.
Definition sweptBy (l : list Particle) (l' : list Particle) : Prop := Permutation l' (filter ownedOnly l).

Lemma start_spec before towers toAdd valid : Forall padded towers ->
  exists towers1 toAdd1 valid1, vclUpdateStart before towers toAdd valid = Some (towers1, toAdd1, valid1) /\
    Forall2 sweptBy (map actual towers) (map collectAllActualParticles towers1) /\
    Forall2 (fun l l' => Permutation l' (filter noHalo l)) toAdd toAdd1 /\
    (valid1 = true -> valid = true).
Proof.
  intros H. unfold vclUpdateStart, deleteHaloParticles.
  destruct (mapM_ex (fun l => eraseHalos (S (length l)) l 0) (fun l l' => Permutation l' (filter noHalo l)) toAdd) as (toAdd1 & E1 & R1).
  { intros l _. apply eraseHalos_spec; [lia|lia|constructor]. }
  destruct (mapM_ex (fun it : nat * Tower => eraseTower (before (fst it)) (snd it))
    (fun it r => sweptBy (actual (snd it)) (collectAllActualParticles (deleteDummyParticles (fst r))))
    (combine (seq 0 (length towers)) towers)) as (r & E2 & R2).
  { intros [i t] I. apply in_combine_r in I. rewrite Forall_forall in H. cbn [fst snd].
    destruct (erase_tower (before i) t (H t I)) as (t' & b & E & P & _). exists (t', b). split; [exact E|]. cbn [fst].
    unfold sweptBy, collectAllActualParticles, numActual. cbn [deleteDummyParticles tParts tDummies] in *. rewrite Nat.sub_0_r, firstn_all.
    rewrite P. apply eq_perm. clear. induction (actual t) as [|p l IH]; [reflexivity|]. cbn [filter]. unfold ownedOnly at 1.
    destruct (noHalo p); cbn [filter]; rewrite ?andb_false_r, ?andb_true_r; [destruct (notDummyP p)|]; rewrite IH; reflexivity. }
  rewrite E1, E2. eexists. eexists. eexists. split; [reflexivity|]. split; [|split; [exact R1|]].
  - rewrite <- (combine_snd (seq 0 (length towers)) towers) at 1 by apply seq_length.
    rewrite !map_map. clear -R2. induction R2; [constructor|]. cbn [map]. now constructor.
  - intros V. apply andb_prop in V. tauto.
Qed.

(** * The parallel region *)
Lemma Forall2_len {A B} (R : A -> B -> Prop) l r : Forall2 R l r -> length l = length r.
Proof. induction 1; [reflexivity|]. cbn. now f_equal. Qed.

Lemma inTowers_sub old g cs cs' : inTowers pown old g cs -> Forall2 sweptBy cs cs' -> inTowers pown old g cs'.
Proof.
  intros I F. assert (L := Forall2_len _ _ _ F). destruct I as [(R & S & M & H)|(-> & X)].
  - left. split; [exact R|]. unfold size in *. rewrite <- L. split; [exact S|]. split; [exact M|].
    intros c l' E. apply at_some in E. destruct E as [C E].
    assert (E0 : exists l, nth_error cs (Z.to_nat c) = Some l /\ sweptBy l l').
    { revert E. generalize (Z.to_nat c). clear -F. induction F; intros n E; [destruct n; discriminate|].
      destruct n as [|n]; [injection E as <-; exists x; auto|]. now apply IHF. }
    destruct E0 as (l & E0 & Sw). destruct (H c l) as [H1 H2].
    { unfold at_. destruct (Z.ltb_spec c 0); [unfold size in C; lia|exact E0]. }
    assert (Le : length l' <= length l).
    { rewrite (Permutation_length Sw). apply IteratorInstances.filter_length_le. }
    split; [unfold size; lia|]. intros x Hx. apply H2. apply (Permutation_in _ Sw) in Hx. apply filter_In in Hx. tauto.
  - right. split; [|exact X]. inversion F; subst. inversion H3; subst. unfold sweptBy in H1. cbn in H1.
    apply Permutation_sym, Permutation_nil in H1. now subst.
Qed.

Lemma swept_concat cs cs' : Forall2 sweptBy cs cs' -> Permutation (concat cs') (filter ownedOnly (concat cs)).
Proof. induction 1; [reflexivity|]. cbn. rewrite filter_app. now apply Permutation_app. Qed.
Lemma erased_concat cs cs' : Forall2 (fun l l' => Permutation l' (filter noHalo l)) cs cs' -> Permutation (concat cs') (filter noHalo (concat cs)).
Proof. induction 1; [reflexivity|]. cbn. rewrite filter_app. now apply Permutation_app. Qed.

Lemma chosen_filter {P} (d : P -> bool) (seen : list P) : chosen (fun _ x => d x) seen = filter d seen.
Proof.
  unfold chosen. generalize (@nil P). induction seen as [|x l IH]; intros b; [reflexivity|]. cbn [chosenFrom filter]. rewrite IH.
  now destruct (d x).
Qed.

Lemma flat_map_nth_error {A B} (f : option A -> list B) (l : list A) : f None = [] ->
  flat_map (fun t => f (nth_error l t)) (seq 0 (length l)) = flat_map (fun a => f (Some a)) l.
Proof.
  intros _. rewrite !flat_map_concat_map. f_equal.
  assert (G : forall n, (forall k, k < length l -> nth_error l k = nth_error l k) -> forall pre, length pre = n ->
    map (fun t => f (nth_error (pre ++ l) t)) (seq n (length l)) = map (fun a => f (Some a)) l).
  { clear. induction l as [|a l IH]; intros n _ pre Hp; [reflexivity|]. cbn [length seq map]. f_equal.
    - f_equal. rewrite <- Hp. apply nth_at.
    - rewrite <- (IH (S n) (fun _ _ => eq_refl) (pre ++ [a])); [|rewrite app_length; cbn; lia].
      rewrite <- app_assoc. reflexivity. }
  apply (G 0 (fun _ _ => eq_refl) []). reflexivity.
Qed.

Lemma leavers_deleted bMin bMax T (ths : list (Thread Particle)) : length ths = T ->
  flat_map (leavers bMin bMax) ths = deletedParticles (fun _ _ p => leftBox bMin bMax p) T ths.
Proof.
  intros <-. unfold deletedParticles, deletedBy, visitedBy.
  transitivity (flat_map (fun t => match nth_error ths t with Some th => leavers bMin bMax th | None => [] end) (seq 0 (length ths))).
  { symmetry. exact (flat_map_nth_error (fun o => match o with Some th => leavers bMin bMax th | None => [] end) ths eq_refl). }
  apply flat_map_ext. intros t. rewrite chosen_filter. destruct (nth_error ths t) as [[|it seen]|]; reflexivity.
Qed.

Lemma run_length {P} conf gatherNow decide schedule : forall (st : Store P) ths st' ths',
  runParallel conf gatherNow decide schedule st ths = Some (st', ths') -> length ths' = length ths.
Proof.
  induction schedule as [|t r IH]; intros st ths st' ths' E; cbn [runParallel] in E; [now injection E as <- <-|].
  destruct (nth_error ths t); [|now apply IH in E]. destruct (threadStep _ _ _ _ _ _) as [[s th]|]; [|discriminate].
  apply IH in E. now rewrite setAt_length in E.
Qed.

(** Cancelling what is deleted. *)
Lemma rest_perm (d : Particle -> bool) (l del rest : list Particle) :
  Permutation del (filter d l) -> Permutation l (del ++ rest) -> Permutation rest (filter (fun p => negb (d p)) l).
Proof.
  intros D L. apply (Permutation_app_inv_l del). rewrite <- L, D. apply BlockBuild.filter_split_perm.
Qed.

Lemma visited_deleted {P} (d : P -> bool) T (ths : list (Thread P)) :
  deletedParticles (fun _ _ x => d x) T ths = filter d (visited T ths).
Proof.
  unfold deletedParticles, visited, deletedBy. induction (seq 0 T) as [|t l IH]; [reflexivity|]. cbn [flat_map].
  rewrite IH, chosen_filter, filter_app. reflexivity.
Qed.

(** [filter d] of a list of which some more were visited. *)
Lemma again_deleted {P} (d : P -> bool) (l again never : list P) : Permutation (again ++ never) (filter (fun x => negb (d x)) l) ->
  filter d again = [].
Proof.
  intros H. apply filter_empty. apply Forall_forall. intros x Hx.
  assert (I : In x (filter (fun x => negb (d x)) l)) by (apply (Permutation_in _ H); apply in_or_app; now left).
  apply filter_In in I. destruct I as [_ I]. now apply negb_true_iff in I.
Qed.

Definition staysIn (bMin bMax : R3) (p : Particle) : bool := (pown p =? 1)%Z && inBoxb bMin bMax (ppos p).
Definition leavesFrom (bMin bMax : R3) (p : Particle) : bool := (pown p =? 1)%Z && leftBox bMin bMax p.

Lemma filter_weaker {A} (f h : A -> bool) l : (forall a, f a = true -> h a = true) -> filter f (filter h l) = filter f l.
Proof.
  intros H. induction l as [|a l IH]; [reflexivity|]. cbn [filter]. destruct (h a) eqn:Ha; cbn [filter]; [now rewrite IH|].
  destruct (f a) eqn:Fa; [now rewrite (H a Fa) in Ha|exact IH].
Qed.

Section Update.
  Variables (old : Particle -> R3) (g : Grid) (bMin bMax : R3) (numThreads : Z) (T : nat) (before : nat -> bool).
  Variables (towers : list Tower) (toAdd : list (list Particle)) (valid : bool).
  Hypothesis threads : loopThreads 1 numThreads T.
  Hypothesis placed : inTowers pown old g (map collectAllActualParticles towers).
  Hypothesis pads : Forall padded towers.
  Hypothesis buffers_ok : vclBuffers pown 0 0 valid toAdd.
  Hypothesis some_vector : toAdd <> [].
  Let all := concat (map collectAllActualParticles towers) ++ concat toAdd.

  Lemma all_valid p : In p all -> validState (pown p).
  Proof using placed buffers_ok.
    intros H. apply in_app_or in H. destruct H as [H|H]; apply in_concat in H; destruct H as (l & L & H).
    - now apply (towers_valid pown old g _ l p placed).
    - destruct buffers_ok as (_ & _ & _ & _ & V & _). now apply (V l).
  Qed.

  Lemma vcl_update : exists towers1 toAdd1 valid1,
    vclUpdateStart before towers toAdd valid = Some (towers1, toAdd1, valid1) /\
    forall schedule, exists st ths,
      vclUpdateLoop g bMin bMax numThreads T towers1 toAdd1 valid1 schedule = Some (st, ths) /\
      ((forall t, t < T -> 2 * length all + 1 < count_occ Nat.eq_dec schedule t) -> Forall finished ths) /\
      (Forall finished ths ->
        Permutation (filter notDummyP (contents st)) (filter (staysIn bMin bMax) all) /\
        Permutation (flat_map (leavers bMin bMax) ths) (filter (leavesFrom bMin bMax) all)).
  Proof using All.
    destruct (start_spec before towers toAdd valid pads) as (towers1 & toAdd1 & valid1 & E & F1 & F2 & Hv).
    exists towers1, toAdd1, valid1. split; [exact E|]. intros schedule.
    change (map actual towers) with (map collectAllActualParticles towers) in F1.
    assert (placed1 := inTowers_sub _ _ _ _ placed F1).
    set (st0 := mkStore (map collectAllActualParticles towers1) toAdd1).
    assert (C0 : Permutation (filter (fun p => (pown p =? 1)%Z) (contents st0)) (filter (fun p => (pown p =? 1)%Z) all)).
    { unfold contents, st0, all. cbn [cells buffers]. rewrite !filter_app.
      rewrite (filter_perm _ _ _ (swept_concat _ _ F1)), (filter_perm _ _ _ (erased_concat _ _ F2)). apply Permutation_app; apply eq_perm.
      - apply filter_weaker. intros p H. unfold ownedOnly, notDummyP, noHalo, isDummy, isHaloP, stDummy, stHalo. lia.
      - apply filter_weaker. intros p H. unfold noHalo, isHaloP, stHalo. lia. }
    assert (C1 : forall p, In p (contents st0) -> In p all /\ isHaloP p = false).
    { intros p H. unfold contents, st0 in H. cbn [cells buffers] in H. unfold all. apply in_app_or in H. destruct H as [H|H].
      - apply (Permutation_in _ (swept_concat _ _ F1)) in H. apply filter_In in H. destruct H as [H O]. split; [apply in_or_app; now left|].
        unfold ownedOnly, noHalo in O. apply andb_prop in O. destruct O as [_ O]. now apply negb_true_iff in O.
      - apply (Permutation_in _ (erased_concat _ _ F2)) in H. apply filter_In in H. destruct H as [H O]. split; [apply in_or_app; now right|].
        unfold noHalo in O. now apply negb_true_iff in O. }
    assert (L0 : length (contents st0) <= length all).
    { unfold contents, st0, all. cbn [cells buffers]. rewrite !app_length.
      rewrite (Permutation_length (swept_concat _ _ F1)), (Permutation_length (erased_concat _ _ F2)).
      pose proof (IteratorInstances.filter_length_le ownedOnly (concat (map collectAllActualParticles towers))).
      pose proof (IteratorInstances.filter_length_le noHalo (concat toAdd)). lia. }
    assert (B1 : vclBuffers pown 0 0 valid1 toAdd1).
    { destruct buffers_ok as (_ & _ & V2 & V3 & V4 & V5).
      assert (IN : forall l', In l' toAdd1 -> exists l, In l toAdd /\ Permutation l' (filter noHalo l)).
      { clear -F2. induction F2 as [|x y lx ly H F IHF]; intros l0' H0; [destruct H0|]. destruct H0 as [<-|H0]; [exists x; split; [now left|exact H]|].
        destruct (IHF l0' H0) as (l0 & I & Q). exists l0. split; [now right|exact Q]. }
      split; [split; [cbn; lia|]; split; [reflexivity|]; split; [intros l []|]; intros b l x Eb; destruct b; discriminate|].
      split; [lia|]. split; [unfold size in *; rewrite <- (Forall2_len _ _ _ F2); exact V2|]. split; [|split].
      - intros l' I. destruct (IN l' I) as (l & Il & Q). specialize (V3 l Il). unfold size in *.
        rewrite (Permutation_length Q). pose proof (IteratorInstances.filter_length_le noHalo l). lia.
      - cbn [skipn]. intros l' x I X. destruct (IN l' I) as (l & Il & Q). apply (V4 l); [exact Il|]. apply (Permutation_in _ Q) in X.
        apply filter_In in X. tauto.
      - cbn [skipn]. intros H l' I. destruct (IN l' I) as (l & Il & Q). rewrite (V5 (Hv H) l Il) in Q. cbn in Q.
        now apply Permutation_sym, Permutation_nil in Q. }
    assert (Sz : size towers1 = size (cells st0)) by (unfold st0, size; cbn [cells]; now rewrite map_length).
    set (d := leftBox bMin bMax).
    assert (Main : exists st ths,
      vclUpdateLoop g bMin bMax numThreads T towers1 toAdd1 valid1 schedule = Some (st, ths) /\
      ((forall t, t < T -> 2 * length (contents st0) + 1 < count_occ Nat.eq_dec schedule t) -> Forall finished ths) /\
      (Forall finished ths ->
        Permutation (deletedParticles (fun _ _ x => d x) T ths) (filter d (filter (fun p => (pown p =? 1)%Z) (contents st0))) /\
        (exists marked, Forall (fun x => exists y, x = markDeleted y) marked /\
           Permutation (marked ++ contents st0) (deletedParticles (fun _ _ x => d x) T ths ++ contents st)))).
    { unfold vclUpdateLoop. change bhOwned with 1%Z. rewrite Sz. fold st0.
      assert (W : forall l, filter (fun x => true && wantedb 1 (pown x)) l = filter (fun p => (pown p =? 1)%Z) l).
      { intros l. apply filter_ext. intros p. unfold wantedb. cbn [Z.testbit Pos.testbit andb orb]. now rewrite !orb_false_r. }
      destruct valid1.
      - destruct (vcl_restart pown old g 1 numThreads 0 0 T true markDeleted d st0 schedule threads placed1 B1) as (st & ths & R & Hf & Hr).
        { reflexivity. } { lia. } { reflexivity. }
        exists st, ths. split; [exact R|]. split; [exact Hf|]. intros Fin. destruct (Hr Fin) as ((again & never & A1 & A2) & (marked & M1 & M2) & _).
        rewrite !W in A1. rewrite W in M2. rewrite W in A2.
        assert (D : Permutation (deletedParticles (fun _ _ x => d x) T ths) (filter d (filter (fun p => (pown p =? 1)%Z) (contents st0)))).
        { rewrite visited_deleted, (filter_perm d _ _ A1), filter_app. now rewrite (again_deleted d _ again never A2), app_nil_r. }
        split; [exact D|]. exists marked. split; [exact M1|]. rewrite D. exact M2.
      - destruct (vcl_iterate pown old g 1 numThreads 0 0 T false markDeleted (fun _ _ x => d x) st0 schedule threads placed1 B1) as (st & ths & R & Hf & Hr & _ & M & _).
        { reflexivity. }
        { left. unfold vclGather. cbn [firstn]. intros H. apply app_eq_nil in H. destruct H as [_ H]. cbn [st0 buffers] in H.
          apply (f_equal (@length nat)) in H. rewrite seq_length in H. cbn [length] in H.
          rewrite <- (Forall2_len _ _ _ F2) in H. destruct toAdd; [contradiction|]. cbn in H. lia. }
        { now right. }
        exists st, ths. split; [exact R|]. split.
        + intros H. apply Hf. intros t Ht. specialize (H t Ht). lia.
        + intros Fin. specialize (Hr Fin). rewrite W in Hr. split; [|exact M]. rewrite visited_deleted. now apply filter_perm. }
    destruct Main as (st & ths & R & Hf & Hr). exists st, ths. split; [exact R|]. split.
    { intros H. apply Hf. intros t Ht. specialize (H t Ht). lia. }
    intros Fin. destruct (Hr Fin) as (D & marked & M1 & M2).
    assert (Lt : length ths = T) by (apply run_length in R; rewrite R; apply repeat_length).
    rewrite (leavers_deleted bMin bMax T ths Lt). fold d.
    assert (Df : Permutation (filter d (filter (fun p => (pown p =? 1)%Z) (contents st0))) (filter (leavesFrom bMin bMax) all)).
    { rewrite (filter_perm d _ _ C0). apply eq_perm. clear. unfold leavesFrom. fold d. induction all as [|p l IH]; [reflexivity|]. cbn [filter].
      destruct (pown p =? 1)%Z; cbn [filter andb]; [destruct (d p)|]; rewrite ?IH; reflexivity. }
    split; [|now rewrite D, Df].
    (** all that is not marked *)
    apply (filter_perm notDummyP) in M2. rewrite !filter_app in M2.
    replace (filter notDummyP marked) with (@nil Particle) in M2.
    2: { symmetry. apply filter_empty. eapply Forall_impl; [|exact M1]. intros p (y & ->). reflexivity. }
    assert (N0 : filter notDummyP (contents st0) = filter (fun p => (pown p =? 1)%Z) (contents st0)).
    { apply filter_ext_in. intros p I. destruct (C1 p I) as [A N]. destruct (all_valid p A) as [V|[V|V]]; unfold notDummyP, isDummy, isHaloP, stDummy, stHalo in *; rewrite V in *; try discriminate; reflexivity. }
    assert (N1 : filter notDummyP (deletedParticles (fun _ _ x => d x) T ths) = deletedParticles (fun _ _ x => d x) T ths).
    { apply BlockBuild.filter_all. apply Forall_forall. intros p I. apply (Permutation_in _ D) in I. apply filter_In in I. destruct I as [I _].
      apply filter_In in I. destruct I as [_ I]. unfold notDummyP, isDummy, stDummy. lia. }
    cbn [app] in M2. rewrite N0, N1 in M2.
    rewrite (rest_perm d _ _ _ D M2). rewrite (filter_perm _ _ _ C0). apply eq_perm. clear. unfold staysIn. induction all as [|p l IH]; [reflexivity|]. cbn [filter].
    destruct (pown p =? 1)%Z; cbn [filter andb]; [|exact IH]. replace (negb (d p)) with (inBoxb bMin bMax (ppos p)) by (unfold d, leftBox; now rewrite negb_involutive). destruct (inBoxb _ _ _); rewrite ?IH; reflexivity.
  Qed.
End Update.

Lemma vcl_update_props old g bMin bMax numThreads T before towers toAdd valid :
  loopThreads 1 numThreads T -> inTowers pown old g (map collectAllActualParticles towers) -> Forall padded towers ->
  vclBuffers pown 0 0 valid toAdd -> toAdd <> [] ->
  let all := concat (map collectAllActualParticles towers) ++ concat toAdd in
  exists stays leaves live towers1 toAdd1 valid1,
    (forall p, stays p = true <-> pown p = 1%Z /\ inBox bMin bMax (ppos p)) /\
    (forall p, leaves p = true <-> pown p = 1%Z /\ ~ inBox bMin bMax (ppos p)) /\
    (forall p, live p = true <-> pown p <> 0%Z) /\
    vclUpdateStart before towers toAdd valid = Some (towers1, toAdd1, valid1) /\
    forall schedule, exists st ths,
      vclUpdateLoop g bMin bMax numThreads T towers1 toAdd1 valid1 schedule = Some (st, ths) /\
      ((forall t, t < T -> 2 * length all + 1 < count_occ Nat.eq_dec schedule t) -> Forall finished ths) /\
      (Forall finished ths ->
        Permutation (filter live (contents st)) (filter stays all) /\
        Permutation (flat_map (leavers bMin bMax) ths) (filter leaves all)).
Proof.
  intros HL Pl Pd Vb Ne all.
  destruct (vcl_update old g bMin bMax numThreads T before towers toAdd valid HL Pl Pd Vb Ne) as (towers1 & toAdd1 & valid1 & E & H).
  exists (staysIn bMin bMax), (leavesFrom bMin bMax), notDummyP, towers1, toAdd1, valid1.
  split; [|split; [|split; [|split; [exact E|exact H]]]]; intros p.
  - unfold staysIn. rewrite andb_true_iff, Z.eqb_eq, inBoxb_iff. reflexivity.
  - unfold leavesFrom, leftBox. rewrite andb_true_iff, Z.eqb_eq, negb_true_iff. rewrite <- inBoxb_iff. now destruct (inBoxb bMin bMax (ppos p)).
  - unfold notDummyP, isDummy, stDummy. rewrite negb_true_iff, Z.eqb_neq. reflexivity.
Qed.
