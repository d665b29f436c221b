(** The exchange of halo particles along all dimensions. *)
From Coq Require Import Reals Lra Psatz List ZArith Lia Bool Permutation.
From Verif.Base Require Import OptionM ZRange Lists.
From Verif.Grid Require Import IndexModel.
From Verif.Functor Require Import SortModel.
From Verif.Container Require Import ParticleModel.
From Verif.Flex Require Import DomainModel DomainSpec DomainProofs GridProofs ExchangeModel ExchangeSpec HaloProofs.
Import ListNotations.
Local Open Scope R_scope.

Section Halo.
  Variable cfg : Config.
  Let d := decomposition cfg.
  Variable minWidth : R.
  Variable B : Axis -> Z -> R.
  Hypothesis G : gridOf (globalMin cfg) (globalMax cfg) d minWidth (boxes cfg) B.
  Hypothesis Ds : distinguishable (globalMin cfg) (globalMax cfg) minWidth.
  Hypothesis Hc : 0 < cutoffWidth cfg.
  Hypothesis Hs : 0 <= skin cfg.
  Hypothesis Wide : 2 * (cutoffWidth cfg + skin cfg) <= minWidth.
  Hypothesis Ex : forall a, exchangeable cfg a.
  Variable owned : Z -> list Particle.
  Hypothesis Own : forall r p, isRank d r -> In p (owned r) -> inRankBox (boxes cfg) r (ppos p).
  Hypothesis Nd : forall r, isRank d r -> NoDup (owned r).
  Let Hd : forall a, (1 <= iat a d)%Z := grid_count _ _ _ _ _ _ G.
  Let Pw : 0 < minWidth.
  Proof. lra. Qed.
  Let rid a r := iat a (indexToId r d).
  Let L a := gHi cfg a - gLo cfg a.
  Notation plane a m := (plane_ (globalMin cfg) (globalMax cfg) d B a m).

  Let halo0 : Z -> option (list Particle) := fun _ => Some [].
  Let halo1 := haloStep cfg owned halo0 AX.
  Let halo2 := haloStep cfg owned halo1 AY.
  Let halo3 := haloStep cfg owned halo2 AZ.
  Let orNil (o : option (list Particle)) := match o with Some l => l | None => [] end.
  Let h1 r := orNil (halo1 r).
  Let h2 r := orNil (halo2 r).
  Let h3 r := orNil (halo3 r).

  Let step := halo_step cfg minWidth B G Ds Hc Hs Wide.
  Let Own' : forall r p, isRank d r -> In p (owned r) -> forall b, inSlab cfg b r p.
  Proof. intros r p H I b. exact (Own r p H I b). Qed.

  (** Positions along other dimensions. *)
  Lemma rid_cell a b r m : isRank d r -> a <> b -> rid b (cellRank cfg a r m) = rid b r.
  Proof. intros H N. unfold rid, cellRank. rewrite step_id by assumption. rewrite iat_iset_other by congruence. reflexivity. Qed.
  Lemma lo_other a b r m : isRank d r -> a <> b -> lo cfg b (cellRank cfg a r m) = lo cfg b r.
  Proof.
    intros H N. rewrite !(lo_plane cfg minWidth B G) by (try exact H; exact (proj1 (cell_rank cfg minWidth B G a r m H))).
    pose proof (rid_cell a b r m H N) as E. unfold rid in E. fold d. rewrite E. reflexivity.
  Qed.
  Lemma hi_other a b r m : isRank d r -> a <> b -> hi cfg b (cellRank cfg a r m) = hi cfg b r.
  Proof.
    intros H N. rewrite !(hi_plane cfg minWidth B G) by (try exact H; exact (proj1 (cell_rank cfg minWidth B G a r m H))).
    pose proof (rid_cell a b r m H N) as E. unfold rid in E. fold d. rewrite E. reflexivity.
  Qed.
  Lemma image_other a b k p : a <> b -> pcoord b (image cfg a k p) = pcoord b p.
  Proof. intros N. apply pcoord_with_other. congruence. Qed.

  Lemma step1 r : isRank d r -> halo1 r = Some (h1 r) /\
    (forall q, In q (owned r ++ h1 r) <-> newContent cfg AX owned (fun _ => []) r q) /\ NoDup (owned r ++ h1 r).
  Proof.
    intros H. destruct (step AX owned (fun _ => []) halo0 ltac:(reflexivity) Own' ltac:(now intros ? ? ? []) ltac:(right; right; reflexivity) r H) as (l & El & Ml & Nl).
    unfold h1, halo1. rewrite El. cbn [orNil]. split; [reflexivity|]. split; [exact Ml|]. apply Nl. intros s K. rewrite app_nil_r. now apply Nd.
  Qed.
  Lemma slab1 b r p : isRank d r -> b <> AX -> In p (h1 r) -> inSlab cfg b r p.
  Proof.
    intros H N I. destruct (step1 r H) as (_ & M & _). destruct (proj1 (M p) (in_or_app _ _ _ (or_intror I))) as [_ (m & _ & q & Iq & ->)].
    rewrite app_nil_r in Iq. pose proof (proj1 (cell_rank cfg minWidth B G AX r m H)) as K. pose proof (Own' _ _ K Iq b) as [S1 S2].
    unfold inSlab. rewrite lo_other in S1 by congruence. rewrite hi_other in S2 by congruence. rewrite image_other by congruence. split; assumption.
  Qed.
  Lemma exch2 : boundary cfg AY = Periodic \/ iat AY d = 1%Z \/ forall r, isRank d r -> h1 r = [].
  Proof.
    destruct (Ex AY) as [E|[E|E]]; [now left|right; now left|]. right. right. intros s K. destruct (E AX I) as [Pb E1].
    unfold h1, halo1. erewrite (skip_step cfg minWidth B G Ds Hc Hs Wide AX owned (fun _ => []) halo0);
      [reflexivity|reflexivity|exact Own'|now intros ? ? ? []|right; now left|exact K|exact Pb|exact E1].
  Qed.
  Lemma step2 r : isRank d r -> halo2 r = Some (h2 r) /\
    (forall q, In q (owned r ++ h2 r) <-> newContent cfg AY owned h1 r q) /\ NoDup (owned r ++ h2 r).
  Proof.
    intros H.
    destruct (step AY owned h1 halo1 (fun r H => proj1 (step1 r H)) Own' (fun r p H I => slab1 AY r p H ltac:(discriminate) I) exch2 r H) as (l & El & Ml & Nl).
    unfold h2, halo2. rewrite El. cbn [orNil]. split; [reflexivity|]. split; [exact Ml|]. apply Nl. intros s K. apply step1, K.
  Qed.
  Lemma slab2 r p : isRank d r -> In p (h2 r) -> inSlab cfg AZ r p.
  Proof.
    intros H I. destruct (step2 r H) as (_ & M & _). destruct (proj1 (M p) (in_or_app _ _ _ (or_intror I))) as [_ (m & _ & q & Iq & ->)].
    pose proof (proj1 (cell_rank cfg minWidth B G AY r m H)) as K.
    assert (S : inSlab cfg AZ (cellRank cfg AY r m) q) by (apply in_app_or in Iq; destruct Iq as [Iq|Iq]; [exact (Own' _ _ K Iq AZ)|apply slab1; [exact K|discriminate|exact Iq]]).
    destruct S as [S1 S2]. unfold inSlab. rewrite lo_other in S1 by congruence. rewrite hi_other in S2 by congruence. rewrite image_other by congruence. split; assumption.
  Qed.
  Lemma exch3 : boundary cfg AZ = Periodic \/ iat AZ d = 1%Z \/ forall r, isRank d r -> h2 r = [].
  Proof.
    destruct (Ex AZ) as [E|[E|E]]; [now left|right; now left|]. right. right. intros s K. destruct (E AX I) as [Pb E1]. destruct (E AY I) as [Pb2 E2].
    assert (Z1 : forall r, isRank d r -> h1 r = []).
    { intros u V. unfold h1, halo1. erewrite (skip_step cfg minWidth B G Ds Hc Hs Wide AX owned (fun _ => []) halo0);
        [reflexivity|reflexivity|exact Own'|now intros ? ? ? []|right; now left|exact V|exact Pb|exact E1]. }
    unfold h2, halo2. erewrite (skip_step cfg minWidth B G Ds Hc Hs Wide AY owned h1 halo1);
      [cbn [orNil]; now apply Z1|intros r Hr; exact (proj1 (step1 r Hr))|exact Own'|intros r p Hr; apply slab1; [exact Hr|discriminate]|right; now left|exact K|exact Pb2|exact E2].
  Qed.
  Lemma step3 r : isRank d r -> halo3 r = Some (h3 r) /\
    (forall q, In q (owned r ++ h3 r) <-> newContent cfg AZ owned h2 r q) /\ NoDup (owned r ++ h3 r).
  Proof.
    intros H.
    destruct (step AZ owned h2 halo2 (fun r H => proj1 (step2 r H)) Own' slab2 exch3 r H) as (l & El & Ml & Nl).
    unfold h3, halo3. rewrite El. cbn [orNil]. split; [reflexivity|]. split; [exact Ml|]. apply Nl. intros s K. apply step2, K.
  Qed.

  (** [q] is an image, under a periodic shift, of a particle of some rank. *)
  Let visible (r : Z) (q : Particle) : Prop :=
    exists s p k, isRank d s /\ In p (owned s) /\ (forall a, boundary cfg a <> Periodic -> k a = 0%Z) /\
      isImage (globalMin cfg) (globalMax cfg) k p q /\ aroundRankBox (boxes cfg) (cutoffWidth cfg + skin cfg) r (ppos q).

  Lemma allowed_zero a m : allowed cfg a m -> boundary cfg a <> Periodic -> (m / iat a d = 0)%Z.
  Proof. intros [A|A] N; [contradiction|]. now apply Z.div_small. Qed.

  Lemma visible_iff r q : isRank d r -> In q (owned r ++ h3 r) <-> visible r q.
  Proof.
    intros H. destruct (step3 r H) as (_ & M & _). rewrite (M q). clear M. split.
    - intros [R3 (mz & Az & p2 & I2 & ->)]. destruct (cell_rank cfg minWidth B G AZ r mz H) as [H2 _]. set (s2 := cellRank cfg AZ r mz) in *.
      apply (proj1 (proj2 (step2 s2 H2))) in I2. destruct I2 as [R2 (my & Ay & p1 & I1 & ->)].
      destruct (cell_rank cfg minWidth B G AY s2 my H2) as [H1 _]. set (s1 := cellRank cfg AY s2 my) in *.
      apply (proj1 (proj2 (step1 s1 H1))) in I1. destruct I1 as [R1 (mx & Ax & p & I0 & ->)]. rewrite app_nil_r in I0.
      destruct (cell_rank cfg minWidth B G AX s1 mx H1) as [H0 _]. fold d in I0 |- *.
      exists (cellRank cfg AX s1 mx), p, (fun a => match a with AX => mx / ix d | AY => my / iy d | AZ => mz / iz d end)%Z.
      split; [exact H0|]. split; [exact I0|]. split; [|split].
      + intros b Nb. destruct b; [apply (allowed_zero AX mx Ax Nb)|apply (allowed_zero AY my Ay Nb)|apply (allowed_zero AZ mz Az Nb)].
      + repeat (split; [reflexivity|]). intros b. destruct p as [i [x y z] o t]. destruct b; cbn; reflexivity.
      + assert (Q : forall b, reach cfg b r (image cfg AZ (mz / iat AZ d) (image cfg AY (my / iat AY d) (image cfg AX (mx / iat AX d) p)))).
        { intros b. destruct b; [| |exact R3].
          - unfold reach in R1 |- *. rewrite !image_other by discriminate. unfold s1, s2 in R1. rewrite !lo_other, !hi_other in R1 by (try exact H; try exact H2; discriminate). exact R1.
          - unfold reach in R2 |- *. rewrite !(image_other AZ AY) by discriminate. unfold s2 in R2. rewrite lo_other, hi_other in R2 by (try exact H; discriminate). exact R2. }
        intros b. exact (Q b).
    - intros (s & p & k & Hs0 & Ip & Kz & (Ei & Eo & Et & Ec) & Ar).
      pose (m := fun a => (rid a s + k a * iat a d)%Z).
      assert (Rs : forall a, (0 <= rid a s < iat a d)%Z) by (intros a; apply id_of_rank; assumption).
      assert (Dm : forall a, (m a / iat a d = k a)%Z) by (intros a; unfold m; pose proof (Hd a); rewrite Z.div_add by lia; rewrite Z.div_small by apply Rs; lia).
      assert (Mm : forall a, (m a mod iat a d = rid a s)%Z) by (intros a; unfold m; pose proof (Hd a); rewrite Z.mod_add by lia; apply Z.mod_small, Rs).
      assert (Am : forall a, allowed cfg a (m a)).
      { intros a. destruct (boundary cfg a) eqn:E; [now left| |]; right; unfold m; rewrite (Kz a) by (rewrite E; discriminate); fold d; pose proof (Rs a); lia. }
      destruct (cell_rank cfg minWidth B G AZ r (m AZ) H) as [H2 E2]. set (s2 := cellRank cfg AZ r (m AZ)) in *.
      destruct (cell_rank cfg minWidth B G AY s2 (m AY) H2) as [H1 E1]. set (s1 := cellRank cfg AY s2 (m AY)) in *.
      destruct (cell_rank cfg minWidth B G AX s1 (m AX) H1) as [H0 E0]. set (s0 := cellRank cfg AX s1 (m AX)) in *. fold d in E2, E1, E0.
      assert (Es : s0 = s).
      { rewrite <- (index_id d Hd s0 H0), <- (index_id d Hd s Hs0). f_equal. apply i3_ext. intros b. destruct b.
        - rewrite E0. apply Mm.
        - change (rid AY s0 = rid AY s). unfold s0. rewrite rid_cell by (try exact H1; discriminate). unfold rid. rewrite E1. apply Mm.
        - change (rid AZ s0 = rid AZ s). unfold s0. rewrite rid_cell by (try exact H1; discriminate). unfold s1. rewrite rid_cell by (try exact H2; discriminate). unfold rid. rewrite E2. apply Mm. }
      set (p1 := image cfg AX (k AX) p). set (p2 := image cfg AY (k AY) p1).
      assert (Eq : q = image cfg AZ (k AZ) p2).
      { apply particle_ext; [exact Ei| |exact Eo|exact Et]. apply r3_ext. intros b. rewrite Ec. destruct b; reflexivity. }
      assert (Rq : forall b, reach cfg b r q) by (intros b; exact (Ar b)).
      split; [exact (Rq AZ)|]. exists (m AZ). split; [apply Am|]. exists p2. fold d. rewrite Dm. split; [|exact Eq]. fold s2.
      apply (proj1 (proj2 (step2 s2 H2))). split.
      { pose proof (Rq AY) as Q. unfold reach in Q |- *. unfold s2. rewrite lo_other, hi_other by (try exact H; discriminate). rewrite Eq in Q. rewrite image_other in Q by discriminate. exact Q. }
      exists (m AY). split; [apply Am|]. exists p1. fold d. rewrite Dm. split; [|reflexivity]. fold s1.
      apply (proj1 (proj2 (step1 s1 H1))). split.
      { pose proof (Rq AX) as Q. unfold reach in Q |- *. unfold s1. rewrite lo_other, hi_other by (try exact H2; discriminate).
        unfold s2. rewrite lo_other, hi_other by (try exact H; discriminate). rewrite Eq in Q. unfold p2 in Q. rewrite !image_other in Q by discriminate. exact Q. }
      exists (m AX). split; [apply Am|]. exists p. fold d. rewrite Dm. split; [|reflexivity]. fold s0. rewrite Es, app_nil_r. exact Ip.
  Qed.

  Theorem halo_exchange r : isRank d r -> exists halo, exchangeHaloParticles cfg owned r = Some halo /\ NoDup halo /\
    forall q, In q halo <-> haloImage cfg owned r q.
  Proof.
    intros H. destruct (step3 r H) as (E & _ & N). exists (h3 r). split; [exact E|]. apply NoDup_app_inv in N. destruct N as (_ & N & Dj). split; [exact N|].
    assert (In_own : forall q, visible r q -> inRankBox (boxes cfg) r (ppos q) -> In q (owned r)).
    { intros q (s & p & k & Hs0 & Ip & Kz & (Ei & Eo & Et & Ec) & _) Bq.
      assert (Rs : forall a, (0 <= rid a s < iat a d)%Z) by (intros a; apply id_of_rank; assumption).
      assert (Rr : forall a, (0 <= rid a r < iat a d)%Z) by (intros a; apply id_of_rank; assumption).
      assert (C : forall a, (rid a s + k a * iat a d = rid a r)%Z).
      { intros a. apply (cell_unique _ _ _ _ _ _ G Pw a _ _ (pcoord a q)).
        - replace (rid a s + k a * iat a d + 1)%Z with (rid a s + 1 + k a * iat a d)%Z by lia. rewrite !(plane_shift _ _ _ _ _ _ G).
          pose proof (Own' s p Hs0 Ip a) as [S1 S2]. rewrite (lo_plane cfg minWidth B G) in S1 by exact Hs0. rewrite (hi_plane cfg minWidth B G) in S2 by exact Hs0.
          change (pcoord a q) with (at3 a (ppos q)). rewrite Ec. unfold span. fold (pcoord a p). unfold rid, d. lra.
        - destruct (Bq a) as [S1 S2]. fold (lo cfg a r) in S1. fold (hi cfg a r) in S2. rewrite (lo_plane cfg minWidth B G) in S1 by exact H. rewrite (hi_plane cfg minWidth B G) in S2 by exact H.
          split; assumption. }
      assert (K0 : forall a, k a = 0%Z) by (intros a; pose proof (C a); pose proof (Rs a); pose proof (Rr a); nia).
      assert (Es : s = r).
      { rewrite <- (index_id d Hd s Hs0), <- (index_id d Hd r H). f_equal. apply i3_ext. intros b. pose proof (C b) as Cb. rewrite K0 in Cb. unfold rid in Cb. lia. }
      replace q with p; [rewrite <- Es; exact Ip|]. apply particle_ext; try congruence. apply r3_ext. intros b. rewrite Ec, K0. lra. }
    intros q. split.
    - intros Q. pose proof (proj1 (visible_iff r q H) (in_or_app _ _ _ (or_intror Q))) as V.
      assert (Nb : ~ inRankBox (boxes cfg) r (ppos q)) by (intros Bq; exact (Dj q (In_own q V Bq) Q)).
      destruct V as (s & p & k & V1 & V2 & V3 & V4 & V5). exists s, p, k. repeat (split; [assumption|]). assumption.
    - intros (s & p & k & V1 & V2 & V3 & V4 & V5 & Nb). assert (V : visible r q) by (exists s, p, k; repeat (split; [assumption|]); assumption).
      apply (visible_iff r q H) in V. apply in_app_or in V. destruct V as [V|V]; [exfalso; exact (Nb (Own r q H V))|exact V].
  Qed.
End Halo.
