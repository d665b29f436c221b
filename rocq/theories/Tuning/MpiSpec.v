(** What exchanging configurations and grouping ranks is to do. *)
From Coq Require Import ZArith List Bool Reals Lra.
From Verif.Tuning Require Import MpiModel.
Import ListNotations.
Local Open Scope Z_scope.

(** Configurations as they exist in the program: the enum values (ContainerOption.h and the
    other options) fit in a byte, the cell size factor is any double. *)
Definition isByte (z : Z) : Prop := 0 <= z < 256.
Definition programConf (c : Conf) : Prop :=
  isByte (container c) /\ isByte (traversal c) /\ isByte (loadEstimator c) /\ isByte (dataLayout c) /\ isByte (newton3 c) /\ isByte (interactionType c) /\
  0 <= csfBits c < 2 ^ 64.

(** The relative gap between two metrics is larger than the threshold. *)
Definition gap (rnd : R -> R) (t x y : R) : Prop := (t < rnd (rnd (y - x) / y))%R.
(** Two metrics of which no other one lies between. *)
Definition consecutive (ms : list R) (x y : R) : Prop :=
  In x ms /\ In y ms /\ (x < y)%R /\ forall z, In z ms -> ~ (x < z < y)%R.
(** A gap separates two metrics. *)
Definition separated (rnd : R -> R) (t : R) (ms : list R) (a b : R) : Prop :=
  exists x y, consecutive ms x y /\ (Rmin a b <= x)%R /\ (y <= Rmax a b)%R /\ gap rnd t x y.
