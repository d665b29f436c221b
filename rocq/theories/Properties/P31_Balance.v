(** C31: balancing the thread buffers. *)
From Coq Require Import List Arith Permutation.
From Verif.Logic Require Import BalanceModel BalanceProofs.
Import ListNotations.

(** The loop ends after at most two passes ([fuel] counts the passes after the
    first), the elements are the same ones, the number of buffers is the same, and
    buffer [i] has total / number elements, one more if [i] < total mod number. *)
Theorem C31_balanced : forall (A : Type) (buffers : list (list A)) fuel, 1 <= fuel ->
  exists buffers', balanceVectors fuel buffers = Some buffers' /\
    Permutation (concat buffers) (concat buffers') /\ length buffers' = length buffers /\
    forall i, i < length buffers ->
      length (nth i buffers' []) = length (concat buffers) / length buffers
                                   + (if i <? length (concat buffers) mod length buffers then 1 else 0).
Proof. exact @balance_correct. Qed.
Print Assumptions C31_balanced.

(** In particular no two buffers differ by more than one element. *)
Theorem C31_sizes : forall (A : Type) (buffers : list (list A)) fuel, 1 <= fuel ->
  exists buffers', balanceVectors fuel buffers = Some buffers' /\ Permutation (concat buffers) (concat buffers') /\
    forall b c, In b buffers' -> In c buffers' -> length b <= length c + 1.
Proof. exact @balance_sizes. Qed.
Print Assumptions C31_sizes.

Example C31_nonvacuous : balanceVectors 1 [[1; 2; 3; 4; 5]; []; [6]] = Some [[1; 2]; [4; 5]; [6; 3]].
Proof. reflexivity. Qed.
