(** What a fuzzy controller should compute. *)
From Coq Require Import Reals List Arith.
From Verif.Fuzzy Require Import FuzzyModel.
Import ListNotations.
Open Scope R_scope.

Definition unitInterval (x : R) : Prop := 0 <= x <= 1.

(** All membership functions a set is made of have values between 0 and 1. *)
Fixpoint proper (s : FuzzySet) : Prop :=
  match s with
  | Base _ f => forall x, unitInterval (f x)
  | Or a b | And a b => proper a /\ proper b
  | Not a => proper a
  | Cut c a => unitInterval c /\ proper a
  end.

(** Degree to which a rule suggests the output x in dimension d: fulfilment of the antecedent by the data, but not more than the
    membership of x in the consequent. *)
Definition suggests (data : Data) (d : nat) (r : Rule) (x m : R) : Prop :=
  exists cut y, evaluate data (fst r) = Some cut /\ evaluate (single d x) (snd r) = Some y /\ m = Rmin cut y.
(** The strongest suggestion for x. *)
Definition strongest (data : Data) (d : nat) (rules : list Rule) (x m : R) : Prop :=
  (exists r, In r rules /\ suggests data d r x m) /\ forall r m', In r rules -> suggests data d r x m' -> m' <= m.

(** Rules with proper sets that can be evaluated, whose consequents are about dimension d with the range from lo to hi. *)
Definition usable (data : Data) (d : nat) (lo hi : R) (rules : list Rule) : Prop :=
  rules <> [] /\ forall r, In r rules -> proper (fst r) /\ proper (snd r) /\ evaluate data (fst r) <> None /\
    crispSet (snd r) = [(d, (lo, hi))] /\ forall x, evaluate (single d x) (snd r) <> None.

(** Equidistant samples from lo to hi. *)
Definition grid (lo hi : R) (n k : nat) : R := lo + INR k * ((hi - lo) / (INR n - 1)).
Definition total (n : nat) (f : nat -> R) : R := fold_right Rplus 0 (map f (seq 0 n)).
