(** What distributing configurations over ranks is to do. *)
From Coq Require Import ZArith List Reals.
From Verif.Tuning Require Import DistributeModel.
Import ListNotations.

(** All valid combinations of options. *)
Definition allConfigs (o : Options) : list Config :=
  flat_map (fun c => flat_map (fun f => flat_map (fun t => flat_map (fun l => flat_map (fun d => map (fun n =>
    mkConfig c f t l d n) (newton3s o)) (layouts o)) (estimators o c t)) (traversals o c)) (csfs o)) (containers o).

(** Every container has a traversal, and no set of options is empty. *)
Definition usableOptions (o : Options) : Prop :=
  containers o <> [] /\ csfs o <> [] /\ layouts o <> [] /\ newton3s o <> [] /\
  (forall c, In c (containers o) -> traversals o c <> []) /\
  (forall c t, In c (containers o) -> In t (traversals o c) -> estimators o c t <> []).

(** Lists of sizes that differ by at most one. *)
Definition balanced (sizes : list nat) : Prop := forall a b, In a sizes -> In b sizes -> (a <= b + 1)%nat.

(** The cell size factors of a rank: AutoPasConfigurationCommunicator.cpp:116-122. *)
Definition interval (lo hi : R) (off blk : nat) : R * R :=
  let delta := ((hi - lo) / INR blk)%R in (lo + delta * INR off, lo + delta * INR (off + 1))%R.

(** The configurations a rank gets. *)
Definition assigned (o : Options) (commSize rank : nat) : list Config :=
  match distribute o commSize rank with Some (l, _, _) => l | None => [] end.

(** Every element of [l] as often as [counts] says. *)
Definition expand (l : list Config) (counts : list nat) : list Config :=
  flat_map (fun p => repeat (fst p) (snd p)) (combine l counts).

(** An example with two containers, one of them with two traversals. *)
Definition xOptions : Options :=
  mkOptions [1; 2]%Z [10; 20]%Z (fun c => if Z.eqb c 1 then [1; 2]%Z else [3]%Z) (fun c t => if Z.eqb t 2 then [0; 1]%Z else [0]%Z) [0; 1]%Z [0]%Z.
(** A container for which no allowed traversal is applicable. *)
Definition xUseless : Options := mkOptions [1; 2]%Z [10]%Z (fun c => if Z.eqb c 1 then [1]%Z else []) (fun _ _ => [0]%Z) [0]%Z [0]%Z.
(** [n] configurations. *)
Definition xPlain (n : nat) : Options := mkOptions [1]%Z [(-1)%Z] (fun _ => [1]%Z) (fun _ _ => [0]%Z) [0]%Z (map Z.of_nat (seq 0 n)).
