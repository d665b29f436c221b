(** Migration of particles that moved, and of particles after load balancing. *)
From Coq Require Import Reals Lra Psatz List ZArith Lia Bool Permutation.
From Verif.Base Require Import OptionM ZRange Lists.
From Verif.Grid Require Import IndexModel.
From Verif.Functor Require Import SortModel.
From Verif.Container Require Import ParticleModel IteratorLemmas.
From Verif.Flex Require Import DomainModel DomainSpec DomainProofs GridProofs ExchangeModel ExchangeSpec HaloProofs MigrationProofs MigrationTheorem BalanceProofs.
Import ListNotations.
Local Open Scope R_scope.

Lemma migrate cfg w B : gridOf (globalMin cfg) (globalMax cfg) (decomposition cfg) w (boxes cfg) B ->
  distinguishable (globalMin cfg) (globalMax cfg) w -> 0 < w -> justInsideBox cfg ->
  forall leaving, (forall r p, isRank (decomposition cfg) r -> In p (leaving r) -> leavingParticle cfg w r p) ->
  exists arrived, (forall r, isRank (decomposition cfg) r -> exchangeMigratingParticles cfg leaving r = Some (arrived r)) /\
    (forall r q, isRank (decomposition cfg) r -> In q (arrived r) -> inRankBox (boxes cfg) r (ppos q)) /\
    Permutation (flat_map arrived (ranks (decomposition cfg))) (map (wrapParticle cfg) (flat_map leaving (ranks (decomposition cfg)))).
Proof.
  intros G Ds Pw Ji leaving Lv. eapply migration; [exact G|exact Ds|exact Pw| |exact Lv].
  intros a. destruct (Ji a) as [J1 J2]. split; [|exact J1]. pose proof (grid_count _ _ _ _ _ _ G) as Hd.
  destruct (repr_rank _ _ _ _ _ _ G (fun _ => 1) ltac:(intros; lra) a (iat a (decomposition cfg) - 1)) as [Hr Er]. specialize (J2 _ Hr). rewrite (grid_min _ _ _ _ _ _ G) in J2 by exact Hr.
  rewrite Er, Z.mod_small in J2 by (pose proof (Hd a); lia). exact J2.
Qed.

Lemma wrap_inside cfg p : (forall a, at3 a (globalMin cfg) <= at3 a (ppos p) < at3 a (globalMax cfg)) -> wrapParticle cfg p = p.
Proof.
  intros H. apply particle_ext; try reflexivity. unfold wrapParticle. cbn [ppos]. apply r3_ext. intros a.
  assert (W : forall b, wrapCoord cfg b (at3 b (ppos p)) = at3 b (ppos p)).
  { intros b. specialize (H b). unfold wrapCoord. destruct (Rlt_dec _ _); [lra|]. destruct (Rle_dec _ _); [lra|reflexivity]. }
  destruct a; cbn [at3 rx ry rz]; [exact (W AX)|exact (W AY)|exact (W AZ)].
Qed.

Lemma migrate_balanced cfg w bs work : suitable (globalMin cfg) (globalMax cfg) (decomposition cfg) w ->
  reachableBoxes (globalMin cfg) (globalMax cfg) (decomposition cfg) w bs -> (forall r, isRank (decomposition cfg) r -> 0 < work r) ->
  (forall r, isRank (decomposition cfg) r ->
     balancedBox (globalMin cfg) (globalMax cfg) (decomposition cfg) w bs work r = Some (boxMin (boxes cfg) r, boxMax (boxes cfg) r)) ->
  justInsideBox cfg -> (forall a, (1 <= sendSteps cfg a)%nat) ->
  forall owned kept leaving,
    (forall r, isRank (decomposition cfg) r -> Permutation (kept r ++ leaving r) (owned r) /\
       (forall p, In p (owned r) -> inRankBox bs r (ppos p)) /\ (forall p, In p (kept r) -> inRankBox (boxes cfg) r (ppos p)) /\
       (forall p, In p (leaving r) -> ~ inRankBox (boxes cfg) r (ppos p))) ->
  exists arrived, (forall r, isRank (decomposition cfg) r -> exchangeMigratingParticles cfg leaving r = Some (arrived r)) /\
    (forall r q, isRank (decomposition cfg) r -> In q (kept r ++ arrived r) -> inRankBox (boxes cfg) r (ppos q)) /\
    Permutation (flat_map (fun r => kept r ++ arrived r) (ranks (decomposition cfg))) (flat_map owned (ranks (decomposition cfg))).
Proof.
  intros Su Re Hw Hb Ji Ss owned kept leaving Ow. pose proof Su as (Pw & Ds & _).
  destruct (reachable_grid _ _ _ _ _ Su Re) as [B0 G0].
  destruct (reachable_grid _ _ _ _ _ Su (boxes_balanced _ _ _ _ bs work (boxes cfg) Re Hw Hb)) as [B G].
  destruct (balance_grid _ _ _ _ _ _ G0 Ds Pw work Hw) as (bs' & B' & E' & G' & Near).
  assert (Eq : forall r, isRank (decomposition cfg) r -> boxMin bs' r = boxMin (boxes cfg) r /\ boxMax bs' r = boxMax (boxes cfg) r).
  { intros r H. specialize (E' r H). rewrite (Hb r H) in E'. injection E' as -> ->. split; reflexivity. }
  assert (Glob : forall r p a, isRank (decomposition cfg) r -> In p (owned r) -> at3 a (globalMin cfg) <= at3 a (ppos p) < at3 a (globalMax cfg)).
  { intros r p a H I. destruct (Ow r H) as (_ & Io & _). specialize (Io p I a). pose proof (box_inside _ _ _ _ _ _ G0 Pw r a H). lra. }
  destruct (migrate cfg w B G Ds Pw Ji leaving) as (arrived & A1 & A2 & A3).
  { intros r p H I. destruct (Ow r H) as (P & Io & _ & No). assert (Ip : In p (owned r)) by (apply (Permutation_in _ P), in_or_app; now right). split; [now apply No|]. intros a. cbv zeta. split; [right; exact (Glob r p a H Ip)|].
    left. split; [apply Ss|]. right. destruct (Near r (ppos p) a H (Io p Ip)) as (s & Hs & D & C). exists s. split; [exact Hs|]. split; [exact D|]. destruct (Eq s Hs) as [<- <-]. exact C. }
  exists arrived. split; [exact A1|]. split.
  { intros r q H I. apply in_app_or in I. destruct I as [I|I]; [|now apply A2]. destruct (Ow r H) as (_ & _ & K & _). now apply K. }
  assert (Sp : forall (f g : Z -> list Particle) l, Permutation (flat_map (fun r => f r ++ g r) l) (flat_map f l ++ flat_map g l)).
  { intros f g l. induction l as [|r l IH]; [constructor|]. cbn [flat_map]. rewrite <- !app_assoc. apply Permutation_app_head. rewrite IH. rewrite !app_assoc. apply Permutation_app_tail, Permutation_app_comm. }
  assert (Rk : forall r, In r (ranks (decomposition cfg)) -> isRank (decomposition cfg) r) by (intros r; unfold ranks, isRank, rankCount; apply in_zrange).
  rewrite Sp, A3. rewrite (map_ext_in _ (fun p => p)).
  - rewrite map_id, <- Sp. clear -Rk Ow. induction (ranks (decomposition cfg)) as [|r l IH]; [constructor|]. cbn [flat_map]. apply Permutation_app; [apply Ow, Rk; now left|].
    apply IH. intros s I. apply Rk. now right.
  - intros p I. apply wrap_inside. intros a. apply in_flat_map in I. destruct I as (r & Ir & I). apply (Glob r p a (Rk r Ir)). destruct (Ow r (Rk r Ir)) as (P & _). apply (Permutation_in _ P), in_or_app. now right.
Qed.
