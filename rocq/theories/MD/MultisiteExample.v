(** Concrete molecules for C77 and C78. *)
From Coq Require Import Reals List ZArith Bool Arith Lra Lia.
From Verif.Functor Require Import SortModel.
From Verif.Container Require Import IteratorModel ParticleModel.
From Verif.MD Require Import MixingModel LJModel LJSpec LJPhysics MultisiteModel MultisiteSpec.
From Verif.Flex Require Import QuatModel QuatSpec.
Import ListNotations.
Local Open Scope R_scope.

(** Two owned molecules at distance 2, the second turned by 180 degrees about z, a halo molecule, and a dummy. *)
Definition uPart (a : nat) : Particle :=
  match a with
  | 0%nat => mkParticle 0 (mkR3 0 0 0) stOwned 0
  | 1%nat => mkParticle 1 (mkR3 2 0 0) stOwned 0
  | 2%nat => mkParticle 2 (mkR3 9 0 0) stHalo 0
  | _ => mkParticle 3 (mkR3 1 0 0) stDummy 0
  end.
Definition uQuat (a : nat) : quat := match a with 1%nat => mkQ 0 0 0 1 | _ => mkQ 1 0 0 0 end.
Definition uType (a : nat) : nat := match a with 1%nat => 1%nat | _ => 0%nat end.
Definition uSites (t : nat) : list (R3 * nat) :=
  match t with 0%nat => [(mkR3 0 0 0, 0%nat); (mkR3 0 1 0, 1%nat)] | _ => [(mkR3 1 0 0, 0%nat)] end.
Definition uEps (i j : nat) : R := match (i + j)%nat with 0%nat => 1 | _ => 2 end.
Definition uProps (i j : nat) : LJProps := mkLJ (24 * uEps i j) (1 * 1) (6 * 3).
Definition uField : Field := mkField 3 uEps (fun _ _ => 1) (fun _ _ => 3).

Lemma u_setup : setUpSites (fun a => uSites (uType a)) uField uType true true 9 uSites uProps [] (mkLJ 0 0 0).
Proof.
  split.
  - cbn. split; lra.
  - reflexivity.
  - discriminate.
  - intros a b i j _ _. cbn. repeat split.
  - intros i j. cbn. unfold uEps. rewrite Nat.add_comm. repeat split.
Qed.

Lemma u_interacting : interacting uPart uField 0%nat 1%nat = true.
Proof.
  unfold interacting. cbn [uPart isDummy pown ppos cutoffOf uField]. cbn.
  destruct (Rle_dec (distance (mkR3 0 0 0) (mkR3 2 0 0)) 3) as [_|N]; [reflexivity|].
  exfalso. apply N. apply distance_le; [lra|]. unfold dot, rsub; cbn. lra.
Qed.

Lemma u_apart : sitesApart uPart uQuat (fun a => uSites (uType a)) uField 0%nat 1%nat.
Proof.
  intros [p q] H. unfold sitePairs in H. rewrite u_interacting in H. apply in_prod_iff in H as [Hp Hq]. cbn [fst snd].
  assert (X : rx (fst p) = 0) by (destruct Hp as [<-|[<-|[]]]; cbn; ring).
  assert (Y : rx (fst q) = 1) by (destruct Hq as [<-|[]]; cbn; ring).
  intros E. rewrite E in X. lra.
Qed.

Lemma u_distance : distance (mkR3 0 1 0) (mkR3 1 0 0) * distance (mkR3 0 1 0) (mkR3 1 0 0) = 2.
Proof. rewrite distance_sq. unfold dot, rsub; cbn. ring. Qed.

(** The torque on the first molecule about z: the forces attract. *)
Lemma u_torque : rz (molTorque uPart uQuat (fun a => uSites (uType a)) uField 0%nat 1%nat) = - (9 / 4).
Proof.
  unfold molTorque, sitePairs. rewrite u_interacting.
  unfold placed, uType, uSites. cbn [map list_prod app].
  unfold siteForce. cbn [fst snd uQuat uPart ppos].
  replace (radd (mkR3 0 0 0) (rotatePosition (mkQ 1 0 0 0) (mkR3 0 0 0))) with (mkR3 0 0 0) by (unfold radd, rotatePosition; cbn; f_equal; ring).
  replace (radd (mkR3 0 0 0) (rotatePosition (mkQ 1 0 0 0) (mkR3 0 1 0))) with (mkR3 0 1 0) by (unfold radd, rotatePosition; cbn; f_equal; ring).
  replace (radd (mkR3 2 0 0) (rotatePosition (mkQ 0 0 0 1) (mkR3 1 0 0))) with (mkR3 1 0 0) by (unfold radd, rotatePosition; cbn; f_equal; ring).
  unfold ljForce. pose proof u_distance as D. set (r := distance (mkR3 0 1 0) (mkR3 1 0 0)) in *.
  assert (N : r <> 0) by (intros Z; rewrite Z in D; lra).
  set (c := 24 * epsilonOf uField 0 0 * _ / _).
  assert (P6 : (1 / r) ^ 6 = 1 / 8).
  { replace ((1 / r) ^ 6) with (1 / ((r * r) * (r * r) * (r * r))) by (field; exact N). rewrite D. field. }
  assert (P12 : (1 / r) ^ 12 = 1 / 64).
  { replace ((1 / r) ^ 12) with ((1 / r) ^ 6 * (1 / r) ^ 6) by ring. rewrite P6. field. }
  cbn [vsum fold_right sigmaOf uField epsilonOf]. rewrite P6, P12, D.
  clearbody c. unfold vectorProduct, radd, rsub, rscale, rzero, uEps; cbn. field.
Qed.
