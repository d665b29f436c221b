(** Lists of computations that may fail. *)
From Verif.Base Require Import ZRange.

Fixpoint mapM {A B} (f : A -> option B) (l : list A) : option (list B) :=
  match l with
  | [] => Some []
  | a :: l' => match f a, mapM f l' with
               | Some b, Some bs => Some (b :: bs)
               | _, _ => None
               end
  end.

Lemma mapM_some {A B} (f : A -> option B) (g : A -> B) (l : list A) :
  (forall a, In a l -> f a = Some (g a)) -> mapM f l = Some (map g l).
Proof.
  induction l as [|a l IH]; intros H; [reflexivity|].
  simpl. rewrite H by now left. rewrite IH; auto with datatypes.
Qed.
