(** A concrete setup: two types, two owned particles, a halo particle and a dummy. *)
From Coq Require Import Reals List ZArith Bool Arith Lra Lia.
From Verif.Functor Require Import CellFunctorModel SortModel.
From Verif.Container Require Import IteratorModel ParticleModel.
From Verif.MD Require Import MixingModel MixingSpec MixingProofs LJModel LJSpec LJProofs LJPhysics.
Import ListNotations.
Local Open Scope R_scope.

Definition mRegs : list Registration := [RSite 0; RLJ 0 1 1; RSite 1; RLJ 1 4 2; RLJ 0 1 2].
Definition mPart (a : nat) : Particle :=
  match a with
  | 0%nat => mkParticle 0 (mkR3 0 0 0) stOwned 0
  | 1%nat => mkParticle 1 (mkR3 1 0 0) stOwned 0
  | 2%nat => mkParticle 2 (mkR3 3 0 0) stDummy 0
  | _ => mkParticle 3 (mkR3 0 1 0) stHalo 0
  end.
Definition mType (a : nat) : nat := match a with 1%nat => 1 | _ => 0 end.
Definition mField : Field :=
  mkField 2 (fun i j => mixedEpsilon (parametersOf mRegs i) (parametersOf mRegs j))
    (fun i j => mixedSigma (parametersOf mRegs i) (parametersOf mRegs j))
    (fun i j => - ljPotential (mixedEpsilon (parametersOf mRegs i) (parametersOf mRegs j))
                    (mixedSigma (parametersOf mRegs i) (parametersOf mRegs j)) 2).

Lemma m_setup : exists l l', registerAll mRegs (newLibrary 2) = Some l /\ calculateMixing l = Some l' /\
  setUp (mkLJC true true true true (2 * 2) (mkLJ 0 0 0) l') mField (fun i => (i < 2)%nat).
Proof.
  destruct (registerAll mRegs (newLibrary 2)) as [l|] eqn:E; [|discriminate].
  destruct (mixing_defined _ _ _ E) as (l' & M). exists l, l'. split; [reflexivity|]. split; [exact M|].
  apply (setUp_mixing mRegs 2 l l' true true true (mkLJ 0 0 0)); try assumption; [lra| |reflexivity].
  exists 0%nat, 1, 1. cbn. auto.
Qed.

Lemma m_separate : ForallOrdPairs (separate mPart) [0; 1; 2; 3]%nat.
Proof.
  repeat constructor; unfold separate; cbn; intros D [=]; try discriminate; lra.
Qed.

Lemma m_force : forceOf mPart mType mField 0%nat 1%nat <> rzero.
Proof.
  assert (D : distance (mkR3 0 0 0) (mkR3 1 0 0) = 1).
  { unfold distance. cbn. replace ((0 - 1) * (0 - 1) + (0 - 0) * (0 - 0) + (0 - 0) * (0 - 0)) with (1 * 1) by ring. apply sqrt_square. lra. }
  assert (I : interacting mPart mField 0%nat 1%nat = true).
  { unfold interacting. cbn [mPart ppos]. rewrite D. cbn [cutoffOf mField]. destruct (Rle_dec 1 2) as [_|N]; [reflexivity|lra]. }
  unfold forceOf. rewrite I. cbn [mPart ppos]. unfold ljForce. rewrite D.
  intros Z. apply (f_equal rx) in Z. revert Z. cbn [rx rscale rsub rzero].
  cbn [epsilonOf sigmaOf mField mType]. unfold mixedEpsilon, mixedSigma, parametersOf, mRegs. cbn [fold_left Nat.eqb fst snd].
  replace (1 * 4) with (2 * 2) by ring. rewrite sqrt_square by lra. lra.
Qed.
