(** * C83 - the fuzzy controller computes the centre or the mean of the maximum of the strongest suggestions

    Model: Fuzzy/FuzzyModel.v (FuzzySet.cpp, FuzzySetFactory.cpp, FuzzyRule.cpp, FuzzyControlSystem.cpp).
    Specification: Fuzzy/FuzzySpec.v. *)

From Coq Require Import Reals List Arith Lia Lra.
From Verif.Fuzzy Require Import FuzzyModel FuzzySpec FuzzyProofs.
Import ListNotations.
Open Scope R_scope.

(** The membership functions of the factory have values between 0 and 1, for all parameters. *)
Theorem C83_membership : (forall a b c x, unitInterval (triangle a b c x)) /\ (forall a b c e x, unitInterval (trapezoid a b c e x)) /\
  (forall m s x, s <> 0 -> unitInterval (gaussian m s x)) /\ (forall c s x, unitInterval (sigmoid c s x)) /\
  (forall l c u x, unitInterval (sigmoidFinite l c u x)).
Proof.
  split; [exact triangle_unit|]. split; [exact trapezoid_unit|]. split; [intros m s x _; exact (gaussian_unit m s x)|]. split; [exact sigmoid_unit|exact sigmoidFinite_unit].
Qed.
Print Assumptions C83_membership.

(** They have the shapes their names say. *)
Theorem C83_shapes : (forall a b c, a < b < c -> triangle a b c b = 1) /\ (forall a b c x, x <= a \/ c <= x -> triangle a b c x = 0) /\
  (forall a b c e x, a < b -> b <= x <= c -> c < e -> trapezoid a b c e x = 1) /\ (forall a b c e x, x <= a \/ e <= x -> trapezoid a b c e x = 0) /\
  (forall m s, gaussian m s m = 1) /\ (forall c s, sigmoid c s c = 1 / 2) /\
  (forall l c u, l < c < u -> sigmoidFinite l c u c = 1 / 2 /\ (forall x, x <= l -> sigmoidFinite l c u x = 0) /\ (forall x, u <= x -> sigmoidFinite l c u x = 1)) /\
  (forall l c u, u < c < l -> sigmoidFinite l c u c = 1 / 2 /\ (forall x, x <= u -> sigmoidFinite l c u x = 1) /\ (forall x, l <= x -> sigmoidFinite l c u x = 0)).
Proof. exact shapes. Qed.
Print Assumptions C83_shapes.

(** Sets composed in any way have memberships between 0 and 1; negation is an involution and De Morgan's laws hold. *)
Theorem C83_operators : (forall data s, proper s -> forall m, evaluate data s = Some m -> unitInterval m) /\
  (forall data a b, evaluate data (Not (Or a b)) = evaluate data (And (Not a) (Not b))) /\
  (forall data a b, evaluate data (Not (And a b)) = evaluate data (Or (Not a) (Not b))) /\
  (forall data a, evaluate data (Not (Not a)) = evaluate data a).
Proof. split; [exact evaluate_unit|]. split; [exact de_morgan_or|]. split; [exact de_morgan_and|exact double_not]. Qed.
Print Assumptions C83_operators.

(** Centre of gravity: the mean of the samples weighted by the strongest suggestions, within the range of the output; 0 if nothing
    is suggested for any sample. *)
Theorem C83_gravity : forall fuel n rules data d lo hi, usable data d lo hi rules -> lo < hi -> (2 <= n < fuel)%nat ->
  exists mu v, (forall x, strongest data d rules x (mu x)) /\ predict fuel CoG n rules data = Some v /\
    (((forall k, (k < n)%nat -> mu (grid lo hi n k) = 0) /\ v = 0) \/
     (0 < total n (fun k => mu (grid lo hi n k)) /\
      v * total n (fun k => mu (grid lo hi n k)) = total n (fun k => grid lo hi n k * mu (grid lo hi n k)) /\ lo <= v <= hi)).
Proof. exact predict_gravity. Qed.
Print Assumptions C83_gravity.

(** Mean of the maximum: the mean of samples whose suggestions are the strongest of all up to the relative tolerance 1e-5, among them
    all whose suggestions are the strongest; always within the range. *)
Theorem C83_maximum : forall fuel n rules data d lo hi, usable data d lo hi rules -> lo < hi -> (2 <= n < fuel)%nat ->
  exists mu v M xs, (forall x, strongest data d rules x (mu x)) /\ predict fuel MoM n rules data = Some v /\
    (exists k, (k < n)%nat /\ mu (grid lo hi n k) = M) /\ (forall k, (k < n)%nat -> mu (grid lo hi n k) <= M) /\
    (forall x, In x xs -> (exists k, (k < n)%nat /\ x = grid lo hi n k) /\ Rabs (mu x - M) <= / 100000 * Rmax (Rabs (mu x)) (Rabs M)) /\
    (forall k, (k < n)%nat -> mu (grid lo hi n k) = M -> In (grid lo hi n k) xs) /\
    xs <> [] /\ v = fold_right Rplus 0 xs / INR (length xs) /\ lo <= v <= hi.
Proof. exact predict_maximum. Qed.
Print Assumptions C83_maximum.

(** The data a consequent is evaluated with hold the sample as value of the output and nothing else. *)
Theorem C83_samples : forall d x, single d x d = Some x /\ forall k, k <> d -> single d x k = None.
Proof. intros d x. unfold single. rewrite Nat.eqb_refl. split; [reflexivity|]. intros k N. apply Nat.eqb_neq in N. rewrite N. reflexivity. Qed.
Print Assumptions C83_samples.

(** If no antecedent is fulfilled the centre of gravity is 0, whatever the range of the output. *)
Theorem C83_silent_refuted : forall fuel n rules data d lo hi, usable data d lo hi rules -> lo < hi -> (2 <= n < fuel)%nat ->
  (forall r, In r rules -> evaluate data (fst r) = Some 0) -> predict fuel CoG n rules data = Some 0.
Proof. exact silent_zero. Qed.
Print Assumptions C83_silent_refuted.

(** If the range of the output is one point the prediction never ends. *)
Theorem C83_point_refuted : forall method n rules data d lo, usable data d lo lo rules -> forall fuel, predict fuel method n rules data = None.
Proof. exact point_endless. Qed.
Print Assumptions C83_point_refuted.

(** A rule "if the input is around 5 or not around 7, the output is around 3/2", range of the output from lo to hi. *)
Definition exRules (lo hi : R) : list Rule :=
  [(Or (Base [(0%nat, (0, 10))] (triangle 0 5 10)) (Not (Base [(0%nat, (0, 10))] (trapezoid 4 6 8 10))), Base [(1%nat, (lo, hi))] (triangle 1 (3 / 2) 2));
   (Base [(0%nat, (0, 10))] (triangle 0 5 10), Not (Base [(1%nat, (lo, hi))] (gaussian 1 2)))].
Example C83_ex : forall x lo hi, usable (single 0 x) 1 lo hi (exRules lo hi).
Proof.
  intros x lo hi. split; [discriminate|]. intros r [<-|[<-|[]]]; cbn [fst snd proper]; repeat split; try discriminate; try apply triangle_unit; try apply trapezoid_unit; apply gaussian_unit.
Qed.
Example C83_ex_silent : forall r, In r [(Base [(0%nat, (0, 10))] (triangle 0 5 10), Base [(1%nat, (1, 2))] (triangle 1 (3 / 2) 2))] ->
  evaluate (single 0 20) (fst r) = Some 0.
Proof.
  intros r [<-|[]]. cbn. f_equal. unfold triangle. destruct (Rle_dec 20 0); [reflexivity|]. destruct (Rle_dec 10 20); [reflexivity|lra].
Qed.
