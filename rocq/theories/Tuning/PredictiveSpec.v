(** What the prediction strategy should do with the configurations of a tuning phase. *)
From Coq Require Import Reals List ZArith Bool Arith Sorted.
From Verif.Tuning Require Import PredictiveModel.
Import ListNotations.

Section Spec.
  Context {Conf Params : Type}.
  Variable extrapolate : nat -> nat -> list Evid -> option Params -> Extrapolated * option Params.
  Variables (iteration phase : nat) (evidence : Conf -> list Evid) (queue : list Conf) (stored : Conf -> option Params).

  (** A configuration of the queue has the prediction z: it was measured before, the extrapolation of its measurements
      gives a proper value, z is this value or zero if it is negative. *)
  Definition hasPrediction (c : Conf) (z : Z) : Prop :=
    In c queue /\ evidence c <> [] /\
    exists v, fst (extrapolate iteration phase (evidence c) (stored c)) = Predicted v /\ v <> predictionErrorValue /\ z = Z.max 0 v.

  (** A measured configuration of the queue that has to be measured again: the last measurement is too many phases old, or
      there are not enough for a prediction. *)
  Definition due (maxPhases : nat) (c : Conf) : Prop :=
    In c queue /\ exists e es, evidence c = es ++ [e] /\
    ((maxPhases <= phase - ePhase e)%nat \/ fst (extrapolate iteration phase (evidence c) (stored c)) = NotEnough).
End Spec.
