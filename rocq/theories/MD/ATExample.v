(** A concrete setup for the Axilrod-Teller functor: two types, two owned particles, a halo
    particle and a dummy. *)
From Coq Require Import Reals List ZArith Bool Arith Lra Lia.
From Verif.Functor Require Import CellFunctor3BModel SortModel.
From Verif.Container Require Import IteratorModel ParticleModel.
From Verif.MD Require Import MixingModel MixingSpec MixingProofs LJModel LJSpec LJProofs LJPhysics ATModel ATSpec ATPhysics ATTheorem.
Import ListNotations.
Local Open Scope R_scope.

Definition tRegs : list Registration := [RSite 0; RAT 0 1; RSite 1; RLJ 1 4 2; RAT 1 7; RAT 1 8].
Definition tPart (a : nat) : Particle :=
  match a with
  | 0%nat => mkParticle 0 (mkR3 0 0 0) stOwned 0
  | 1%nat => mkParticle 1 (mkR3 1 0 0) stOwned 0
  | 2%nat => mkParticle 2 (mkR3 0 1 0) stHalo 0
  | _ => mkParticle 3 (mkR3 1 0 0) stDummy 0
  end.
Definition tType (a : nat) : nat := match a with 1%nat => 1 | _ => 0 end.
Definition tCalls : list (Call3 nat) := [mkCall3 0 1 2 true; mkCall3 1 0 2 false; mkCall3 3 1 0 true]%nat.

Lemma t_distances : distance (mkR3 0 0 0) (mkR3 1 0 0) <= 2 /\ distance (mkR3 1 0 0) (mkR3 0 1 0) <= 2 /\ distance (mkR3 0 0 0) (mkR3 0 1 0) <= 2.
Proof. repeat split; apply distance_le; try lra; unfold dot; cbn; lra. Qed.

Lemma t_interacting nu : interacting3 tPart (mkATField 2 nu) 0%nat 1%nat 2%nat = true.
Proof.
  destruct t_distances as (D1 & D2 & D3). unfold interacting3, inReach. cbn [tPart ppos atCutoff].
  destruct (Rle_dec _ _) as [_|N]; [|contradiction]. destruct (Rle_dec _ _) as [_|N]; [|contradiction]. destruct (Rle_dec _ _) as [_|N]; [|contradiction]. reflexivity.
Qed.

Lemma t_force nu : nu 0%nat 1%nat 0%nat * nu 0%nat 1%nat 0%nat * nu 0%nat 1%nat 0%nat = 8 -> forceOf3 tPart tType (mkATField 2 nu) 0%nat 1%nat 2%nat <> rzero.
Proof.
  intros H. unfold forceOf3. rewrite t_interacting. cbn [nuOf tType tPart ppos]. set (v := nu 0%nat 1%nat 0%nat) in *.
  rewrite force_first by (intros [=]; lra). intros Z. apply (f_equal rx) in Z. revert Z. unfold first, atKernel, dot, rscale, radd, rsub, rzero. cbn [rx ry rz forceI].
  match goal with |- context [sqrt ?x] => replace x with 2 by ring; set (q := sqrt 2) end.
  assert (Q : 0 < q) by (apply sqrt_lt_R0; lra). 
  intros Z. assert (Z' : v / q = 0).
  { match type of Z with ?l = 0 => replace (v / q) with (- (4 / 3) * l) by (field; lra) end. rewrite Z. ring. }
  apply (f_equal (fun x => x * q)) in Z'. replace (v / q * q) with v in Z' by (field; lra). rewrite Rmult_0_l in Z'. rewrite Z' in H. lra.
Qed.

Lemma t_setup : exists l l' nu, registerAll tRegs (newLibrary 2) = Some l /\ calculateMixing l = Some l' /\
  (forall i j k, nu i j k * nu i j k * nu i j k = nuOfType tRegs i * nuOfType tRegs j * nuOfType tRegs k) /\
  setUp3 (mkATC true true true (2 * 2) 0 l') (mkATField 2 nu) (fun i => (i < numSites tRegs)%nat) /\
  (forall c, In c tCalls -> usable tPart tType (mkATField 2 nu) (fun i => (i < numSites tRegs)%nat) c) /\
  forceOf3 tPart tType (mkATField 2 nu) 0%nat 1%nat 2%nat <> rzero.
Proof.
  destruct (registerAll tRegs (newLibrary 2)) as [l|] eqn:E; [|discriminate].
  destruct (mixing_defined _ _ _ E) as (l' & M).
  destruct (setUp3_mixing tRegs 2 l l' true true 0) as (nu & N & S); try assumption; [lra|exists 0%nat, 1; cbn; auto|].
  exists l, l', nu. split; [reflexivity|]. split; [exact M|]. split; [exact N|]. split; [exact S|]. split.
  - intros c [<-|[<-|[<-|[]]]] D1 D2 D3; try discriminate; (split; [cbn; repeat split; lia|]); intros _; cbn; repeat split; intros [=]; lra.
  - apply t_force. rewrite N. cbn. ring.
Qed.
