(** Basic facts about trees, paths and boxes. *)
From Coq Require Import Reals Lra.
From Verif.Base Require Import ZRange.
From Verif.Functor Require Import SortModel.
From Verif.Grid Require Import CellBlockModel CellBlockSpec.
From Verif.Container Require Import IteratorContainers.
From Verif.Octree Require Import DirectionModel OctreeModel.
Local Open Scope Z_scope.

(** The bits of an octant: true is the upper half. *)
Definition vx (v : Vertex) : bool := match v with RDB | RDF | RUB | RUF => true | _ => false end.
Definition vy (v : Vertex) : bool := match v with LUB | LUF | RUB | RUF => true | _ => false end.
Definition vz (v : Vertex) : bool := match v with LDF | LUF | RDF | RUF => true | _ => false end.

Lemma vertex_bits v w : vx v = vx w -> vy v = vy w -> vz v = vz w -> v = w.
Proof. destruct v, w; cbn; congruence. Qed.

Lemma index_bits v : Nat.testbit (vertexToIndex v) 2 = vx v /\ Nat.testbit (vertexToIndex v) 1 = vy v /\ Nat.testbit (vertexToIndex v) 0 = vz v.
Proof. destruct v; repeat split. Qed.

Lemma index_lt v : (vertexToIndex v < 8)%nat.
Proof. destruct v; cbn; lia. Qed.

Lemma index_inj v w : vertexToIndex v = vertexToIndex w -> v = w.
Proof. destruct v, w; cbn; congruence. Qed.

Lemma index_surj i : (i < 8)%nat -> exists v, vertexToIndex v = i.
Proof.
  intros H. exists (nth i vertices LDB). do 8 (destruct i as [|i]; [reflexivity|]). lia.
Qed.

Lemma in_vertices v : In v vertices.
Proof. destruct v; cbn; tauto. Qed.

Lemma length8 {A} (l : list A) : length l = 8%nat ->
  exists a0 a1 a2 a3 a4 a5 a6 a7, l = [a0; a1; a2; a3; a4; a5; a6; a7].
Proof.
  intros H. do 8 (destruct l as [|? l]; [discriminate H|]). destruct l; [|discriminate H]. now repeat eexists.
Qed.

Section Base.
  Context {P : Type}.
  Variable pos : P -> R3.
  Variable rnd : R -> R.
  Variable il : R.
  Notation Tree := (Tree P).

  (** Trees with the boxes the code computes. *)
  Inductive wf : Tree -> Prop :=
  | wfLeaf lo hi ps : wf (Leaf lo hi ps)
  | wfInner lo hi cs : length cs = 8%nat ->
      (forall i c, nth_error cs i = Some c -> boxMin c = childMin rnd lo hi i /\ boxMax c = childMax rnd lo hi i) ->
      (forall i c, nth_error cs i = Some c -> wf c) ->
      tooSmall rnd il lo hi = false -> wf (Inner lo hi cs).

  (** All particles are in the box of their leaf. *)
  Inductive placed : Tree -> Prop :=
  | placedLeaf lo hi ps : Forall (fun p => inBox lo hi (pos p)) ps -> placed (Leaf lo hi ps)
  | placedInner lo hi cs : Forall placed cs -> placed (Inner lo hi cs).

  Definition isLeafAt (t : Tree) (q : Path) : Prop := exists lo hi ps, nodeAt t q = Some (Leaf lo hi ps).

  Lemma nodeAt_app (t : Tree) (m r : Path) : nodeAt t (m ++ r) = match nodeAt t r with Some n => nodeAt n m | None => None end.
  Proof.
    induction m as [|v m IH]; cbn; [now destruct (nodeAt t r)|]. rewrite IH. destruct (nodeAt t r); reflexivity.
  Qed.

  Lemma nodeAt_last (t : Tree) (m : Path) v : nodeAt t (m ++ [v]) = match SON t v with Some n => nodeAt n m | None => None end.
  Proof. rewrite nodeAt_app. reflexivity. Qed.

  Lemma wf_son t v c : wf t -> SON t v = Some c -> wf c.
  Proof. intros H E. destruct H; [discriminate|]. eauto. Qed.

  Lemma wf_node (t : Tree) (q : Path) n : wf t -> nodeAt t q = Some n -> wf n.
  Proof.
    revert n. induction q as [|v q IH]; cbn; intros n H E; [now injection E as <-|].
    destruct (nodeAt t q) as [m|]; [|discriminate]. apply (wf_son m v n); auto.
  Qed.

  Lemma son_exists lo hi cs v : wf (Inner lo hi cs) -> exists c, SON (Inner lo hi cs) v = Some c.
  Proof.
    intros H. inversion H as [|? ? ? L _ _ _]; subst. cbn. destruct (nth_error cs (vertexToIndex v)) eqn:E; [eauto|].
    apply nth_error_None in E. pose proof (index_lt v). lia.
  Qed.

  Lemma leaf_no_below (t : Tree) (q m : Path) lo hi ps : nodeAt t q = Some (Leaf lo hi ps) -> m <> [] -> nodeAt t (m ++ q) = None.
  Proof.
    intros E Hm. rewrite nodeAt_app, E. destruct (exists_last Hm) as (m' & v & ->). rewrite nodeAt_last. reflexivity.
  Qed.

  (** Listing of the children. *)
  Lemma in_sons (cs : list Tree) v c : length cs = 8%nat ->
    In (v, c) (combine vertices cs) <-> nth_error cs (vertexToIndex v) = Some c.
  Proof.
    intros H. destruct (length8 cs H) as (a0 & a1 & a2 & a3 & a4 & a5 & a6 & a7 & ->). cbn [combine vertices In].
    split.
    - intros I. repeat (destruct I as [I|I]; [injection I as <- <-; reflexivity|]). destruct I.
    - destruct v; cbn; intros E; injection E as <-; tauto.
  Qed.

  Lemma appendAllLeaves_inner lo hi (cs : list Tree) path :
    appendAllLeaves (Inner lo hi cs) path = flat_map (fun vc => appendAllLeaves (snd vc) (fst vc :: path)) (combine vertices cs).
  Proof.
    cbn [appendAllLeaves]. revert cs. generalize vertices as vs.
    induction vs as [|v vs IH]; intros [|c cs]; cbn; try reflexivity. now rewrite IH.
  Qed.

  Lemma getLeavesInRange_inner a b (cs : list Tree) path lo hi :
    getLeavesInRange rnd (Inner a b cs) path lo hi =
    flat_map (fun vc => if enclosesVolume rnd (boxMin (snd vc)) (boxMax (snd vc)) lo hi
                        then getLeavesInRange rnd (snd vc) (fst vc :: path) lo hi else []) (combine vertices cs).
  Proof.
    cbn [getLeavesInRange]. revert cs. generalize vertices as vs.
    induction vs as [|v vs IH]; intros [|c cs]; cbn; try reflexivity. now rewrite IH.
  Qed.

  Lemma getLeavesFromDirections_inner lo hi (cs : list Tree) path ds : length cs = 8%nat ->
    getLeavesFromDirections (Inner lo hi cs) path ds =
    flat_map (fun d => match SON (Inner lo hi cs) d with
                       | Some c => getLeavesFromDirections c (d :: path) ds | None => [] end) ds.
  Proof.
    intros H. destruct (length8 cs H) as (a0 & a1 & a2 & a3 & a4 & a5 & a6 & a7 & ->).
    cbn [getLeavesFromDirections]. apply flat_map_ext. intros d. destruct d; reflexivity.
  Qed.

  (** The leaves are exactly the nodes without children. *)
  Lemma in_appendAllLeaves t path q : wf t ->
    In q (appendAllLeaves t path) <-> exists m, q = m ++ path /\ isLeafAt t m.
  Proof.
    intros H. revert path q. induction H as [lo hi ps|lo hi cs L _ _ IH _]; intros path q.
    - cbn. split.
      + intros [<-|[]]. exists []. split; [reflexivity|]. now exists lo, hi, ps.
      + intros (m & -> & (a & b & l & E)). left. destruct (list_eq_dec vertex_dec m []) as [->|N]; [reflexivity|].
        exfalso. destruct (exists_last N) as (m' & v & ->). rewrite nodeAt_last in E. discriminate.
    - rewrite appendAllLeaves_inner, in_flat_map. split.
      + intros ((v & c) & I & J). cbn [fst snd] in J. apply in_sons in I; [|exact L].
        apply (IH _ _ I) in J as (m & -> & (a & b & l & E)). exists (m ++ [v]). split; [now rewrite <- app_assoc|].
        exists a, b, l. rewrite nodeAt_last. cbn [SON]. now rewrite I.
      + intros (m & -> & (a & b & l & E)). destruct (list_eq_dec vertex_dec m []) as [->|N]; [discriminate|].
        destruct (exists_last N) as (m' & v & ->). rewrite nodeAt_last in E. cbn [SON] in E.
        destruct (nth_error cs (vertexToIndex v)) as [c|] eqn:C; [|discriminate].
        exists (v, c). split; [now apply in_sons|]. cbn [fst snd]. apply (IH _ _ C). exists m'.
        split; [now rewrite <- app_assoc|]. now exists a, b, l.
  Qed.

  Lemma NoDup_app' {A} (l1 l2 : list A) : NoDup l1 -> NoDup l2 -> (forall x, In x l1 -> ~ In x l2) -> NoDup (l1 ++ l2).
  Proof.
    intros H1 H2 D. induction H1 as [|x l1 N _ IH]; cbn; [exact H2|]. constructor.
    - rewrite in_app_iff. intros [I|I]; [now apply N|]. apply (D x); [now left|exact I].
    - apply IH. intros y I. apply D. now right.
  Qed.

  Lemma NoDup_flat_map' {A B} (f : A -> list B) (l : list A) : NoDup l -> (forall x, In x l -> NoDup (f x)) ->
    (forall x y z, In x l -> In y l -> In z (f x) -> In z (f y) -> x = y) -> NoDup (flat_map f l).
  Proof.
    intros H. induction H as [|x l N _ IH]; intros F D; cbn; [constructor|]. apply NoDup_app'.
    - apply F. now left.
    - apply IH; [intros y I; apply F; now right|]. intros y y' z I J. apply D; now right.
    - intros z I J. apply in_flat_map in J as (y & Y & Z). apply N. rewrite (D x y z); auto; [now left|now right].
  Qed.

  Lemma NoDup_sons (cs : list Tree) : NoDup (combine vertices cs).
  Proof.
    assert (N : NoDup vertices) by (repeat constructor; cbn; intros H; repeat (destruct H as [H|H]; [discriminate|]); destruct H).
    revert cs N. generalize vertices as vs. induction vs as [|v vs IH]; intros [|c cs] N; cbn; try constructor.
    - intros I. apply in_combine_l in I. inversion N. contradiction.
    - apply IH. now inversion N.
  Qed.

  Lemma app_eq_tail {A} (a b : list A) x y r : a ++ x :: r = b ++ y :: r -> x = y.
  Proof.
    intros E. apply (f_equal (@rev A)) in E. rewrite !rev_app_distr in E. cbn in E. rewrite <- !app_assoc in E.
    apply app_inv_head in E. now injection E.
  Qed.

  Lemma NoDup_appendAllLeaves t path : wf t -> NoDup (appendAllLeaves t path).
  Proof.
    intros H. revert path. induction H as [lo hi ps|lo hi cs L _ W IH _]; intros path.
    - cbn. repeat constructor. tauto.
    - rewrite appendAllLeaves_inner. apply NoDup_flat_map'.
      + apply NoDup_sons.
      + intros (v & c) I. cbn. apply in_sons in I; eauto.
      + intros (v & c) (v' & c') q I J K M. cbn [fst snd] in K, M. apply in_sons in I; [|exact L]. apply in_sons in J; [|exact L].
        apply in_appendAllLeaves in K as (m & -> & _); [|eauto]. apply in_appendAllLeaves in M as (m' & E & _); [|eauto].
        apply app_eq_tail in E. subst v'. congruence.
  Qed.
End Base.
