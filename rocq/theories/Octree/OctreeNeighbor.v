(** The neighbour search of the octree. *)
From Coq Require Import Reals Lra.
From Verif.Base Require Import ZRange.
From Verif.Functor Require Import SortModel SortSpec.
From Verif.Grid Require Import CellBlockModel CellBlockSpec.
From Verif.Octree Require Import DirectionModel OctreeModel OctreeSpec OctreeBase OctreeAxis.
Local Open Scope Z_scope.

Record Sides := mkSides { sx : Side; sy : Side; sz : Side }.
Definition noSide : Sides := mkSides Same Same Same.
Definition isSame (e : Side) : bool := match e with Same => true | _ => false end.
Definition isNoSide (d : Sides) : bool := isSame (sx d) && isSame (sy d) && isSame (sz d).

Definition mkV (x y z : bool) : Vertex :=
  match x, y, z with
  | false, false, false => LDB | false, false, true => LDF | false, true, false => LUB | false, true, true => LUF
  | true, false, false => RDB | true, false, true => RDF | true, true, false => RUB | true, true, true => RUF
  end.
Lemma mkV_bits x y z : vx (mkV x y z) = x /\ vy (mkV x y z) = y /\ vz (mkV x y z) = z.
Proof. destruct x, y, z; repeat split. Qed.

Definition flipV (d : Sides) (v : Vertex) : Vertex := mkV (flip (sx d) (vx v)) (flip (sy d) (vy v)) (flip (sz d) (vz v)).
Definition carryV (d : Sides) (v : Vertex) : Sides := mkSides (carry (sx d) (vx v)) (carry (sy d) (vy v)) (carry (sz d) (vz v)).

(** The node of equal size in a direction. *)
Fixpoint step3 (d : Sides) (path : Path) : option Path :=
  match path with
  | [] => if isNoSide d then Some [] else None
  | v :: r => match step3 (carryV d v) r with Some r' => Some (flipV d v :: r') | None => None end
  end.

Lemma step3_axes d p p' : step3 d p = Some p' <->
  step1 (sx d) (map vx p) = Some (map vx p') /\ step1 (sy d) (map vy p) = Some (map vy p') /\ step1 (sz d) (map vz p) = Some (map vz p').
Proof.
  revert d p'. induction p as [|v p IH]; intros d p'; cbn [step3 map step1].
  - destruct d as [[] [] []]; cbn; split; try discriminate; try (intros (A & B & C); discriminate).
    + intros E. injection E as <-. repeat split.
    + intros (E & _ & _). destruct p'; [reflexivity|discriminate].
  - destruct (step3 (carryV d v) p) as [r|] eqn:E.
    + apply IH in E as (A & B & C). cbn in A, B, C. rewrite A, B, C. split.
      * intros H. injection H as <-. cbn [map]. unfold flipV. destruct (mkV_bits (flip (sx d) (vx v)) (flip (sy d) (vy v)) (flip (sz d) (vz v))) as (-> & -> & ->). repeat split.
      * intros (X & Y & Z). destruct p' as [|v' r']; [discriminate|]. cbn [map] in *. injection X as X X'. injection Y as Y Y'. injection Z as Z Z'.
        f_equal. f_equal.
        -- apply vertex_bits; destruct (mkV_bits (flip (sx d) (vx v)) (flip (sy d) (vy v)) (flip (sz d) (vz v))) as (a & b & c); unfold flipV; congruence.
        -- clear - X' Y' Z'. revert r' X' Y' Z'. induction r as [|a r IH]; intros [|a' r'] X Y Z; try discriminate; [reflexivity|].
           cbn in X, Y, Z. injection X as X X'. injection Y as Y Y'. injection Z as Z Z'. f_equal; [now apply vertex_bits|now apply IH].
    + split; [discriminate|]. intros (X & Y & Z). exfalso.
      destruct (step1 (carry (sx d) (vx v)) (map vx p)) as [lx|] eqn:EX; [|discriminate].
      destruct (step1 (carry (sy d) (vy v)) (map vy p)) as [ly|] eqn:EY; [|discriminate].
      destruct (step1 (carry (sz d) (vz v)) (map vz p)) as [lz|] eqn:EZ; [|discriminate].
      destruct p' as [|v' r']; [discriminate|]. cbn [map] in *. injection X as _ X. injection Y as _ Y. injection Z as _ Z. subst.
      assert (S : step3 (carryV d v) p = Some r') by (apply IH; cbn; auto). congruence.
Qed.

Lemma step3_length d p p' : step3 d p = Some p' -> length p' = length p.
Proof. intros H. apply step3_axes in H as (H & _ & _). apply step1_val in H as [H _]. now rewrite !map_length in H. Qed.

Lemma step3_none p : step3 noSide p = Some p.
Proof. apply step3_axes. cbn. now rewrite !step1_same. Qed.

Lemma step3_moves d p : isNoSide d = false -> step3 d p <> Some p.
Proof.
  intros N H. apply step3_axes in H as (X & Y & Z). apply step1_val in X as [_ X]. apply step1_val in Y as [_ Y]. apply step1_val in Z as [_ Z].
  destruct d as [[] [] []]; cbn in *; (lia || discriminate).
Qed.

(** The tables of OctreeDirection.h. *)
Definition faceSides (f : Face) : Sides :=
  match f with
  | fL => mkSides Below Same Same | fR => mkSides Above Same Same
  | fD => mkSides Same Below Same | fU => mkSides Same Above Same
  | fB => mkSides Same Same Below | fF => mkSides Same Same Above
  end.
Definition edgeSides (e : Edge) : Sides :=
  match e with
  | LD => mkSides Below Below Same | LU => mkSides Below Above Same
  | LB => mkSides Below Same Below | LF => mkSides Below Same Above
  | RD => mkSides Above Below Same | RU => mkSides Above Above Same
  | RB => mkSides Above Same Below | RF => mkSides Above Same Above
  | DB => mkSides Same Below Below | DF => mkSides Same Below Above
  | UB => mkSides Same Above Below | UF => mkSides Same Above Above
  end.
Definition bitSide (b : bool) : Side := if b then Above else Below.
Definition vertexSides (v : Vertex) : Sides := mkSides (bitSide (vx v)) (bitSide (vy v)) (bitSide (vz v)).
Definition dirSides (d : Dir) : Sides :=
  match d with Dface f => faceSides f | Dedge e => edgeSides e | Dvertex v => vertexSides v end.

Lemma reflect_flip d o : REFLECT d o = flipV (dirSides d) o.
Proof. destruct d as [[]|[]|[]], o; reflexivity. Qed.

Lemma sides_dir d : isNoSide d = false -> exists dir, dirSides dir = d.
Proof.
  destruct d as [[] [] []]; intros N; try discriminate N;
  first [ exists (Dface fL); reflexivity | exists (Dface fR); reflexivity | exists (Dface fD); reflexivity
        | exists (Dface fU); reflexivity | exists (Dface fB); reflexivity | exists (Dface fF); reflexivity
        | exists (Dedge LD); reflexivity | exists (Dedge LU); reflexivity | exists (Dedge LB); reflexivity
        | exists (Dedge LF); reflexivity | exists (Dedge RD); reflexivity | exists (Dedge RU); reflexivity
        | exists (Dedge RB); reflexivity | exists (Dedge RF); reflexivity | exists (Dedge DB); reflexivity
        | exists (Dedge DF); reflexivity | exists (Dedge UB); reflexivity | exists (Dedge UF); reflexivity
        | exists (Dvertex LDB); reflexivity | exists (Dvertex LDF); reflexivity | exists (Dvertex LUB); reflexivity
        | exists (Dvertex LUF); reflexivity | exists (Dvertex RDB); reflexivity | exists (Dvertex RDF); reflexivity
        | exists (Dvertex RUB); reflexivity | exists (Dvertex RUF); reflexivity ].
Qed.

Lemma dir_some d : isNoSide (dirSides d) = false.
Proof. destruct d as [[]|[]|[]]; reflexivity. Qed.

(** Octants at the side of the original node. *)
Definition sideOk (e : Side) (b : bool) : Prop := match e with Same => True | Above => b = false | Below => b = true end.
Lemma allowed_iff d v : In v (getAllowedDirections (getOppositeDirection d)) <->
  sideOk (sx (dirSides d)) (vx v) /\ sideOk (sy (dirSides d)) (vy v) /\ sideOk (sz (dirSides d)) (vz v).
Proof.
  destruct d as [[]|[]|[]], v; cbn; split; intros H;
    try (repeat split; fail);
    try (exfalso; repeat (destruct H as [H|H]; try discriminate H); destruct H; discriminate);
    try (exfalso; destruct H as (H1 & H2 & H3); discriminate);
    tauto.
Qed.

Section Search.
  Context {P : Type}.
  Variable rnd : R -> R.
  Variable il : R.
  Variable t : Tree P.
  Hypothesis Hwf : wf rnd il t.

  (** The three functions are one. *)
  Fixpoint gteq (path : Path) (d : Sides) : option Path :=
    match path with
    | [] => if isNoSide d then Some [] else None
    | o :: r =>
        match gteq r (carryV d o) with
        | Some q => if GRAY t q then Some (flipV d o :: q) else Some q
        | None => None
        end
    end.

  Definition isNode (path : Path) : Prop := nodeAt t path <> None.

  Lemma isNode_tail o r : isNode (o :: r) -> isNode r /\ GRAY t r = true.
  Proof.
    unfold isNode, GRAY. cbn. destruct (nodeAt t r) as [n|]; [|congruence]. intros H. split; [discriminate|].
    destruct n; [|reflexivity]. cbn in H. congruence.
  Qed.

  Lemma flip_none o : flipV noSide o = o.
  Proof. destruct o; reflexivity. Qed.

  Lemma gteq_none path : isNode path -> gteq path noSide = Some path.
  Proof.
    induction path as [|o r IH]; intros H; [reflexivity|]. apply isNode_tail in H as [H G]. cbn [gteq].
    assert (C : carryV noSide o = noSide) by (destruct o; reflexivity). rewrite C, (IH H), G, flip_none. reflexivity.
  Qed.

  Lemma reflected_gteq d o r : gteq (o :: r) (dirSides d) = reflected t d o (gteq r (carryV (dirSides d) o)).
  Proof. cbn [gteq]. unfold reflected. now rewrite reflect_flip. Qed.

  Lemma face_gteq path f : isNode path -> GTEQ_FACE_NEIGHBOR t path f = gteq path (faceSides f).
  Proof.
    revert f. induction path as [|o r IH]; intros f H; [now destruct f|].
    apply isNode_tail in H as [H G]. change (faceSides f) with (dirSides (Dface f)). rewrite reflected_gteq.
    cbn [GTEQ_FACE_NEIGHBOR]. f_equal. destruct (ADJ (Dface f) o) eqn:A.
    - rewrite (IH f H). f_equal. destruct f, o; (discriminate A || reflexivity).
    - transitivity (gteq r noSide); [symmetry; now apply gteq_none|]. f_equal. destruct f, o; (discriminate A || reflexivity).
  Qed.

  Lemma edge_gteq path e : isNode path -> GTEQ_EDGE_NEIGHBOR t path e = gteq path (edgeSides e).
  Proof.
    revert e. induction path as [|o r IH]; intros e H; [now destruct e|].
    apply isNode_tail in H as [H G]. change (edgeSides e) with (dirSides (Dedge e)). rewrite reflected_gteq.
    cbn [GTEQ_EDGE_NEIGHBOR]. f_equal. destruct (ADJ (Dedge e) o) eqn:A.
    - rewrite (IH e H). f_equal. destruct e, o; (discriminate A || reflexivity).
    - destruct (COMMON_FACE (Dedge e) o) as [f|] eqn:C.
      + rewrite (face_gteq r f H). f_equal. destruct e, o; try discriminate A; try discriminate C; injection C as <-; reflexivity.
      + transitivity (gteq r noSide); [symmetry; now apply gteq_none|]. f_equal. destruct e, o; (discriminate A || discriminate C || reflexivity).
  Qed.

  Lemma vertex_gteq path v : isNode path -> GTEQ_VERTEX_NEIGHBOR t path v = gteq path (vertexSides v).
  Proof.
    revert v. induction path as [|o r IH]; intros v H; [now destruct v|].
    apply isNode_tail in H as [H G]. change (vertexSides v) with (dirSides (Dvertex v)). rewrite reflected_gteq.
    cbn [GTEQ_VERTEX_NEIGHBOR]. f_equal. destruct (ADJ (Dvertex v) o) eqn:A.
    - rewrite (IH v H). f_equal. destruct v, o; (discriminate A || reflexivity).
    - destruct (COMMON_EDGE v o) as [e|] eqn:E.
      + rewrite (edge_gteq r e H). f_equal. destruct v, o; try discriminate A; try discriminate E; injection E as <-; reflexivity.
      + destruct (COMMON_FACE (Dvertex v) o) as [f|] eqn:C.
        * rewrite (face_gteq r f H). f_equal. destruct v, o; try discriminate A; try discriminate E; try discriminate C; injection C as <-; reflexivity.
        * transitivity (gteq r noSide); [symmetry; now apply gteq_none|]. f_equal. destruct v, o; (discriminate A || discriminate E || discriminate C || reflexivity).
  Qed.

  (** It finds the deepest node that contains the node of equal size. *)
  Lemma gteq_spec path d :
    match step3 d path with
    | None => gteq path d = None
    | Some p' => exists m q, gteq path d = Some q /\ p' = m ++ q /\ isNode q /\ (m = [] \/ GRAY t q = false)
    end.
  Proof.
    revert d. induction path as [|o r IH]; intros d; cbn [step3 gteq].
    - destruct (isNoSide d); [|reflexivity]. exists [], []. repeat split; auto. discriminate.
    - specialize (IH (carryV d o)). destruct (step3 (carryV d o) r) as [r'|].
      + destruct IH as (m & q & -> & -> & N & C). destruct (GRAY t q) eqn:G.
        * destruct C as [->|C]; [|congruence]. exists [], (flipV d o :: q). cbn [app]. repeat split; auto.
          unfold isNode. cbn [nodeAt]. unfold GRAY in G. destruct (nodeAt t q) as [[|lo hi cs]|] eqn:E; try discriminate.
          destruct (son_exists rnd il lo hi cs (flipV d o)) as (c & S); [now apply (wf_node rnd il t q)|]. rewrite S. discriminate.
        * exists (flipV d o :: m), q. repeat split; auto.
      + now rewrite IH.
  Qed.

  (** Descending. *)
  Lemma in_leavesFrom ds (n : Tree P) (path q : Path) : wf rnd il n ->
    In q (getLeavesFromDirections n path ds) <-> exists m, q = m ++ path /\ isLeafAt n m /\ Forall (fun v => In v ds) m.
  Proof.
    intros W. clear Hwf t. revert path q. induction W as [lo hi ps|lo hi cs L _ W IH _]; intros path q.
    - cbn. split.
      + intros [<-|[]]. exists []. repeat split; [now exists lo, hi, ps|constructor].
      + intros (m & -> & (a & b & l & E) & _). left. destruct (list_eq_dec vertex_dec m []) as [->|N]; [reflexivity|].
        exfalso. destruct (exists_last N) as (m' & v & ->). rewrite nodeAt_last in E. discriminate.
    - rewrite getLeavesFromDirections_inner by exact L. rewrite in_flat_map. split.
      + intros (v & I & J). destruct (SON (Inner lo hi cs) v) as [c|] eqn:S; [|destruct J].
        cbn [SON] in S. apply (IH _ _ S) in J as (m & -> & (a & b & l & E) & F). exists (m ++ [v]).
        split; [now rewrite <- app_assoc|]. split.
        * exists a, b, l. rewrite nodeAt_last. cbn [SON]. now rewrite S.
        * apply Forall_app. now repeat constructor.
      + intros (m & -> & (a & b & l & E) & F). destruct (list_eq_dec vertex_dec m []) as [->|N]; [discriminate|].
        destruct (exists_last N) as (m' & v & ->). rewrite nodeAt_last in E. cbn [SON] in E.
        destruct (nth_error cs (vertexToIndex v)) as [c|] eqn:C; [|discriminate].
        apply Forall_app in F as [F F']. inversion F' as [|? ? Fv _]; subst.
        exists v. split; [exact Fv|]. cbn [SON]. rewrite C. apply (IH _ _ C). exists m'. split; [now rewrite <- app_assoc|].
        split; [now exists a, b, l|exact F].
  Qed.

  Lemma in_neighborLeaves (path q : Path) : isNode path -> In q (getNeighborLeaves t path) <->
    exists d n, gteq path (dirSides d) = Some n /\ In q (leavesTowards t (Some n) d).
  Proof.
    intros H. unfold getNeighborLeaves. rewrite nodup_In, !in_app_iff, !in_flat_map. split.
    - intros [(f & _ & I)|[(e & _ & I)|(v & _ & I)]].
      + rewrite (face_gteq path f H) in I. destruct (gteq path (faceSides f)) as [n|] eqn:E; [|destruct I]. exists (Dface f), n. auto.
      + rewrite (edge_gteq path e H) in I. destruct (gteq path (edgeSides e)) as [n|] eqn:E; [|destruct I]. exists (Dedge e), n. auto.
      + rewrite (vertex_gteq path v H) in I. destruct (gteq path (vertexSides v)) as [n|] eqn:E; [|destruct I]. exists (Dvertex v), n. auto.
    - intros (d & n & E & I). destruct d as [f|e|v].
      + left. exists f. split; [destruct f; cbn; tauto|]. rewrite (face_gteq path f H). cbn in E. now rewrite E.
      + right. left. exists e. split; [destruct e; cbn; tauto|]. rewrite (edge_gteq path e H). cbn in E. now rewrite E.
      + right. right. exists v. split; [destruct v; cbn; tauto|]. rewrite (vertex_gteq path v H). cbn in E. now rewrite E.
  Qed.
End Search.
