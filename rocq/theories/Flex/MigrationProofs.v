(** The exchange of migrating particles. *)
From Coq Require Import Reals Lra Psatz List ZArith Lia Bool Permutation.
From Verif.Base Require Import OptionM ZRange Lists.
From Verif.Grid Require Import IndexModel.
From Verif.Functor Require Import SortModel.
From Verif.Container Require Import ParticleModel.
From Verif.Container Require Import IteratorLemmas.
From Verif.Flex Require Import DomainModel DomainSpec DomainProofs GridProofs ExchangeModel ExchangeSpec HaloProofs.
Import ListNotations.
Local Open Scope R_scope.

Section Migration.
  Variable cfg : Config.
  Let d := decomposition cfg.
  Hypothesis Hd : forall a, (1 <= iat a d)%Z.

  (** Particles with the rank where they are. *)
  Definition bagAt (r : Z) (W : list (Z * Particle)) : list Particle := map snd (filter (fun x => (fst x =? r)%Z) W).
  Lemma bagAt_perm r W W' : Permutation W W' -> Permutation (bagAt r W) (bagAt r W').
  Proof. intros P. apply Permutation_map, filter_perm, P. Qed.
  Lemma bagAt_app r W W' : bagAt r (W ++ W') = bagAt r W ++ bagAt r W'.
  Proof. unfold bagAt. rewrite filter_app, map_app. reflexivity. Qed.
  Lemma bagAt_filter r f W : bagAt r (filter (fun x => f (fst x) (snd x)) W) = filter (f r) (bagAt r W).
  Proof.
    induction W as [|[t p] W IH]; [reflexivity|]. unfold bagAt in *. cbn [filter fst snd]. destruct (f t p) eqn:F; cbn [filter fst].
    - destruct (Z.eqb_spec t r) as [-> |N]; cbn [map snd filter]; [rewrite F, IH; reflexivity|exact IH].
    - destruct (Z.eqb_spec t r) as [-> |N]; cbn [map snd filter]; [rewrite F; exact IH|exact IH].
  Qed.

  Definition leaves (a : Axis) (x : Z * Particle) : bool := leaveLeft cfg a (fst x) (snd x) || leaveRight cfg a (fst x) (snd x).
  Definition hop (a : Axis) (x : Z * Particle) : Z * Particle :=
    if leaveLeft cfg a (fst x) (snd x) then (stepRank d a (-1) (fst x), sentLeft cfg a (fst x) (snd x))
    else if leaveRight cfg a (fst x) (snd x) then (stepRank d a 1 (fst x), sentRight cfg a (fst x) (snd x))
    else x.
  Definition inside (x : Z * Particle) : bool := insideLocal cfg (fst x) (snd x).

  Lemma left_right a r p : leaveLeft cfg a r p = true -> leaveRight cfg a r p = false.
  Proof. intros H. unfold leaveRight. rewrite H. reflexivity. Qed.

  (** What a rank receives. *)
  Lemma received_bag a r W : isRank d r -> Forall (fun x => isRank d (fst x)) W ->
    Permutation (map (sentRight cfg a (stepRank d a (-1) r)) (filter (leaveRight cfg a (stepRank d a (-1) r)) (bagAt (stepRank d a (-1) r) W)) ++
                 map (sentLeft cfg a (stepRank d a 1 r)) (filter (leaveLeft cfg a (stepRank d a 1 r)) (bagAt (stepRank d a 1 r) W)))
      (bagAt r (map (hop a) (filter (leaves a) W))).
  Proof.
    intros Hr. induction W as [|[t p] W IH]; intros Fw; [constructor|]. inversion Fw as [|? ? Ht Fw']; subst. specialize (IH Fw'). cbn [fst] in Ht.
    pose proof (step_inj d Hd a (-1) t r Ht Hr) as I1. pose proof (step_inj d Hd a 1 t r Ht Hr) as I2. replace (- (-1))%Z with 1%Z in I1 by lia. replace (- (1))%Z with (-1)%Z in I2 by lia.
    unfold bagAt in *. cbn [filter fst snd]. unfold leaves at 1. cbn [fst snd].
    destruct (leaveLeft cfg a t p) eqn:Lf; cbn [orb].
    - pose proof (left_right a t p Lf) as Rf. assert (Eh : hop a (t, p) = (stepRank d a (-1) t, sentLeft cfg a t p)) by (unfold hop; cbn [fst snd]; rewrite Lf; reflexivity).
      cbn [map]. rewrite Eh. cbn [filter fst snd].
      assert (X : map (sentRight cfg a (stepRank d a (-1) r)) (filter (leaveRight cfg a (stepRank d a (-1) r)) (map snd (if (t =? stepRank d a (-1) r)%Z then (t, p) :: filter (fun x => (fst x =? stepRank d a (-1) r)%Z) W else filter (fun x => (fst x =? stepRank d a (-1) r)%Z) W))) =
        map (sentRight cfg a (stepRank d a (-1) r)) (filter (leaveRight cfg a (stepRank d a (-1) r)) (map snd (filter (fun x => (fst x =? stepRank d a (-1) r)%Z) W)))).
      { destruct (Z.eqb_spec t (stepRank d a (-1) r)) as [E|N]; [|reflexivity]. cbn [map snd filter]. rewrite <- E, Rf. reflexivity. }
      rewrite X. clear X. destruct (Z.eqb_spec (stepRank d a (-1) t) r) as [E|N].
      + apply I1 in E. rewrite <- E. rewrite Z.eqb_refl. cbn [map snd filter]. rewrite Lf. cbn [map]. rewrite <- E in IH. symmetry. apply Permutation_cons_app. symmetry. exact IH.
      + destruct (Z.eqb_spec t (stepRank d a 1 r)) as [E'|_]; [exfalso; apply N, I1, E'|]. exact IH.
    - destruct (leaveRight cfg a t p) eqn:Rf; cbn [orb].
      + assert (Eh : hop a (t, p) = (stepRank d a 1 t, sentRight cfg a t p)) by (unfold hop; cbn [fst snd]; rewrite Lf, Rf; reflexivity).
        cbn [map]. rewrite Eh. cbn [filter fst snd].
        assert (X : map (sentLeft cfg a (stepRank d a 1 r)) (filter (leaveLeft cfg a (stepRank d a 1 r)) (map snd (if (t =? stepRank d a 1 r)%Z then (t, p) :: filter (fun x => (fst x =? stepRank d a 1 r)%Z) W else filter (fun x => (fst x =? stepRank d a 1 r)%Z) W))) =
          map (sentLeft cfg a (stepRank d a 1 r)) (filter (leaveLeft cfg a (stepRank d a 1 r)) (map snd (filter (fun x => (fst x =? stepRank d a 1 r)%Z) W)))).
        { destruct (Z.eqb_spec t (stepRank d a 1 r)) as [E|N]; [|reflexivity]. cbn [map snd filter]. rewrite <- E, Lf. reflexivity. }
        rewrite X. clear X. destruct (Z.eqb_spec (stepRank d a 1 t) r) as [E|N].
        * apply I2 in E. rewrite <- E. rewrite Z.eqb_refl. cbn [map snd filter]. rewrite Rf. cbn [map app]. rewrite <- E in IH. constructor. exact IH.
        * destruct (Z.eqb_spec t (stepRank d a (-1) r)) as [E'|_]; [exfalso; apply N, I2, E'|]. exact IH.
      + assert (X : forall s (f : Z -> Particle -> bool), f t p = false -> filter (f s) (map snd (if (t =? s)%Z then (t, p) :: filter (fun x => (fst x =? s)%Z) W else filter (fun x => (fst x =? s)%Z) W)) =
          filter (f s) (map snd (filter (fun x => (fst x =? s)%Z) W))).
        { intros s f Ef. destruct (Z.eqb_spec t s) as [-> |N]; [|reflexivity]. cbn [map snd filter]. rewrite Ef. reflexivity. }
        rewrite (X _ (leaveRight cfg a) Rf), (X _ (leaveLeft cfg a) Lf). exact IH.
  Qed.

  Lemma inside_coords r p : insideLocal cfg r p = true <-> forall a, lo cfg a r <= pcoord a p < hi cfg a r.
  Proof.
    unfold insideLocal, insideDomain, axes. cbn [forallb]. rewrite !andb_true_iff. unfold lo, hi, pcoord. split.
    - intros ((X1 & X2) & (Y1 & Y2) & (Z1 & Z2) & _) a. destruct a; repeat destruct Rle_dec; repeat destruct Rlt_dec; try discriminate; lra.
    - intros H. pose proof (H AX). pose proof (H AY). pose proof (H AZ). repeat destruct Rle_dec; repeat destruct Rlt_dec; try lra; repeat split.
  Qed.
  Lemma hop_stay a x : leaves a x = false -> hop a x = x.
  Proof. unfold leaves, hop. intros H. apply orb_false_iff in H. destruct H as [-> ->]. reflexivity. Qed.
  Lemma leaves_slab a x : leaves a x = false <-> lo cfg a (fst x) <= pcoord a (snd x) < hi cfg a (fst x).
  Proof.
    unfold leaves, leaveRight, leaveLeft. destruct (Rlt_dec _ _) as [A|A]; cbn [negb andb orb]; [split; [discriminate|lra]|].
    destruct (Rle_dec _ _) as [C|C]; split; intros H; try discriminate; try reflexivity; lra.
  Qed.
  Lemma hop_inside a x : inside x = true -> hop a x = x.
  Proof. intros H. apply hop_stay, leaves_slab. unfold inside in H. rewrite inside_coords in H. apply H. Qed.

  Lemma filter_split {A} (f : A -> bool) l : Permutation l (filter f l ++ filter (fun x => negb (f x)) l).
  Proof.
    induction l as [|x l IH]; [constructor|]. cbn [filter]. destruct (f x); cbn [negb app]; [constructor; exact IH|]. apply Permutation_cons_app. exact IH.
  Qed.
  Lemma hop_rank a x : isRank d (fst x) -> isRank d (fst (hop a x)).
  Proof. intros H. unfold hop. destruct (leaveLeft _ _ _ _); [now apply step_rank|]. destruct (leaveRight _ _ _ _); [now apply step_rank|exact H]. Qed.

  (** The emigrants are [W], the inserted particles [I], up to the order. *)
  Definition holds (m : Z -> option Migration) (W I : list (Z * Particle)) : Prop :=
    forall r, isRank d r -> exists s, m r = Some s /\ Permutation (emigrants s) (bagAt r W) /\ Permutation (inserted s) (bagAt r I).
  Definition stateOf (V : list (Z * Particle)) (m : Z -> option Migration) : Prop :=
    exists W I, holds m W I /\ Permutation (I ++ W) V /\ Forall (fun x => inside x = true) I /\ Forall (fun x => inside x = false) W.

  Lemma step_exchange a m V : (forall r, isRank d r -> skips cfg a r = false) -> Forall (fun x => isRank d (fst x)) V ->
    stateOf V m -> stateOf (map (hop a) V) (migrationStep cfg m a).
  Proof.
    intros Sk Fv (W & I & H & P & FI & FW).
    assert (FrW : Forall (fun x => isRank d (fst x)) W).
    { apply Forall_forall. intros x Ix. rewrite Forall_forall in Fv. apply Fv. apply (Permutation_in _ P). apply in_or_app. now right. }
    set (M := map (hop a) (filter (leaves a) W)). set (Stay := filter (fun x => negb (leaves a x)) W).
    exists (Stay ++ filter (fun x => negb (inside x)) M), (I ++ filter inside M). split; [|split; [|split]].
    - intros r Hr. destruct (H r Hr) as (s & Es & Pe & Pi). unfold migrationStep. rewrite Es, (Sk r Hr).
      pose (em := fun t => match m t with Some u => emigrants u | None => [] end).
      destruct (receive cfg Hd (migrationSends cfg m a) (fun t => map (sentLeft cfg a t) (filter (leaveLeft cfg a t) (em t)))
        (fun t => map (sentRight cfg a t) (filter (leaveRight cfg a t) (em t))) a r) as (l & El & Pl); [|exact Hr|].
      { intros t Ht. destruct (H t Ht) as (u & Eu & _). unfold migrationSends, em. rewrite Eu, (Sk t Ht). reflexivity. }
      rewrite El. eexists. split; [reflexivity|]. cbn [emigrants inserted].
      assert (Rl := step_rank d Hd a (-1) r Hr). assert (Rn := step_rank d Hd a 1 r Hr).
      assert (Pm : Permutation l (bagAt r M)).
      { etransitivity; [exact Pl|]. unfold M. rewrite <- received_bag by assumption. fold d.
        destruct (H _ Rl) as (u & Eu & Pu & _). destruct (H _ Rn) as (v & Ev & Pv & _). unfold em. rewrite Eu, Ev.
        apply Permutation_app; apply Permutation_map, filter_perm; assumption. }
      split.
      + rewrite bagAt_app. apply Permutation_app.
        * unfold Stay, categorize. cbn [snd]. etransitivity; [apply filter_perm, Pe|].
          assert (X : bagAt r (filter (fun x => negb (leaves a x)) W) = filter (fun p => negb (leaves a (r, p))) (bagAt r W)).
          { rewrite <- (bagAt_filter r (fun t p => negb (leaves a (t, p)))). reflexivity || (f_equal; apply filter_ext; intros [t p]; reflexivity). }
          rewrite X. erewrite filter_ext; [apply Permutation_refl|]. intros p. unfold leaves. cbn [fst snd]. symmetry. apply negb_orb.
        * etransitivity; [apply filter_perm, Pm|].
          rewrite <- (bagAt_filter r (fun t p => negb (insideLocal cfg t p))). reflexivity.
      + rewrite bagAt_app. apply Permutation_app; [exact Pi|]. etransitivity; [apply filter_perm, Pm|].
        rewrite <- (bagAt_filter r (insideLocal cfg)). reflexivity.
    - etransitivity; [|apply Permutation_map, P]. rewrite map_app. rewrite <- app_assoc.
      assert (EI : map (hop a) I = I).
      { rewrite <- map_id. apply map_ext_in. intros x Ix. apply hop_inside. rewrite Forall_forall in FI. now apply FI. }
      rewrite EI. apply Permutation_app_head.
      etransitivity; [|apply Permutation_map; symmetry; apply (filter_split (leaves a))]. rewrite map_app. fold M.
      assert (ES : map (hop a) Stay = Stay).
      { rewrite <- (map_id Stay) at 2. apply map_ext_in. intros x Ix. apply hop_stay. apply filter_In in Ix. destruct Ix as [_ Ix]. now apply negb_true_iff in Ix. }
      fold Stay. rewrite ES. rewrite (Permutation_app_comm Stay), app_assoc. apply Permutation_app_tail. symmetry. apply filter_split.
    - apply Forall_app. split; [exact FI|]. apply Forall_forall. intros x Ix. now apply filter_In in Ix.
    - apply Forall_app. split.
      + apply Forall_forall. intros x Ix. apply filter_In in Ix. rewrite Forall_forall in FW. now apply FW.
      + apply Forall_forall. intros x Ix. apply filter_In in Ix. destruct Ix as [_ Ix]. now apply negb_true_iff in Ix.
  Qed.
  (** A dimension in which nothing is exchanged and nobody leaves. *)
  Lemma step_skip a m V : (forall r, isRank d r -> skips cfg a r = true) -> Forall (fun x => leaves a x = false) V ->
    stateOf V m -> stateOf (map (hop a) V) (migrationStep cfg m a).
  Proof.
    intros Sk Fl (W & I & H & P & FI & FW). exists W, I. split; [|split; [|split; assumption]].
    - intros r Hr. destruct (H r Hr) as (s & Es & Q). exists s. split; [|exact Q]. unfold migrationStep. rewrite Es, (Sk r Hr). reflexivity.
    - replace (map (hop a) V) with V; [exact P|]. rewrite <- map_id at 1. apply map_ext_in. intros x Ix. symmetry. apply hop_stay. rewrite Forall_forall in Fl. now apply Fl.
  Qed.
End Migration.
