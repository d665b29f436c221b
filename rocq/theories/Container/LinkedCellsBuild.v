(** Sorting particles into the cells of an empty linked cells container. *)
From Coq Require Import Reals.
From Verif.Base Require Import ZRange.
From Verif.Grid Require Import IndexModel IndexSpec IndexProofs CellBlockModel.
From Verif.Functor Require Import CellFunctorModel SortModel.
From Verif.Container Require Import LinkedCellsModel.
Open Scope Z_scope.

Section Build.
  Context {P : Type}.
  Variable isHalo : P -> bool.
  Variable rnd : R -> R.
  Variable b : Block.
  Variable old : P -> R3.
  Hypothesis Hpos : positive (blockDims b).

  Definition inCell (i : Z) (p : P) : bool :=
    match get1DIndexOfPosition rnd b (old p) with Some j => j =? i | None => false end.

  (** The cell [i] after the particles [ps] have been added. *)
  Definition cellWith (ps : list P) (i : Z) : Cell P :=
    mkCell (filter (inCell i) ps) (cellCanContainOwnedParticles b i).

  Definition built (ps : list P) (cells : list (Cell P)) : Prop :=
    cells = map (cellWith ps) (zrange 0 (numCells (blockDims b))).

  Lemma numCells_nonneg : 0 <= numCells (blockDims b).
  Proof. unfold positive, numCells in *. nia. Qed.

  Lemma nth_error_zrange n k : (k < n)%nat -> nth_error (zrange 0 (Z.of_nat n)) k = Some (Z.of_nat k).
  Proof.
    unfold zrange. intros H. rewrite Z.sub_0_r, Nat2Z.id.
    rewrite nth_error_map. rewrite (nth_error_nth' (seq 0 n) 0%nat) by (rewrite seq_length; lia).
    rewrite seq_nth by lia. reflexivity.
  Qed.

  Lemma built_nth ps cells i : built ps cells -> 0 <= i < numCells (blockDims b) ->
    nth_error cells (Z.to_nat i) = Some (cellWith ps i).
  Proof.
    intros -> Hi. rewrite nth_error_map. rewrite <- (Z2Nat.id (numCells (blockDims b))) by lia.
    rewrite nth_error_zrange by lia. cbn [option_map]. now rewrite Z2Nat.id by lia.
  Qed.

  Lemma updateAt_map (f : Cell P -> option (Cell P)) (g g' : Z -> Cell P) (l : list Z) k i :
    NoDup l -> nth_error l k = Some i -> f (g i) = Some (g' i) ->
    (forall j, In j l -> j <> i -> g' j = g j) ->
    updateAt f (map g l) k = Some (map g' l).
  Proof.
    revert k. induction l as [|j l IH]; intros k Hnd Hk Hf Ho; [destruct k; discriminate|].
    inversion Hnd as [|? ? Hni Hnd']; subst. destruct k as [|k]; cbn [map updateAt nth_error] in *.
    - injection Hk as ->. rewrite Hf. f_equal. f_equal. apply map_ext_in. intros x Hx. symmetry. apply Ho; [now right|].
      intros ->. contradiction.
    - rewrite (IH k Hnd' Hk Hf) by (intros; apply Ho; [now right|assumption]). f_equal. f_equal. symmetry. apply Ho; [now left|].
      intros ->. apply Hni. eapply nth_error_In; eauto.
  Qed.

  (** What the ownership of a particle must be for its position. *)
  Definition placed (p : P) : Prop :=
    exists i, get1DIndexOfPosition rnd b (old p) = Some i /\ 0 <= i < numCells (blockDims b) /\
      cellCanContainOwnedParticles b i = negb (isHalo p).

  Lemma lcAdd_built ps cells p : built ps cells -> placed p ->
    exists cells', lcAdd isHalo rnd b old cells p = Some cells' /\ built (ps ++ [p]) cells'.
  Proof.
    intros -> (i & Hi & Hr & Ho). unfold lcAdd. rewrite Hi. destruct (Z.ltb_spec i 0); [lia|].
    eexists. split; [|reflexivity].
    apply updateAt_map with (i := i).
    - apply NoDup_zrange.
    - rewrite <- (Z2Nat.id (numCells (blockDims b))) by lia. rewrite nth_error_zrange by lia. now rewrite Z2Nat.id by lia.
    - unfold cellAdd, cellWith. cbn [mayOwn parts]. rewrite Ho, Bool.eqb_reflx. f_equal. f_equal.
      rewrite filter_app. cbn [filter]. unfold inCell at 3. rewrite Hi, Z.eqb_refl. reflexivity.
    - intros j _ Hj. unfold cellWith. f_equal. rewrite filter_app. cbn [filter]. unfold inCell at 2. rewrite Hi.
      destruct (Z.eqb_spec i j); [congruence|]. now rewrite app_nil_r.
  Qed.

  Lemma lcAddAll_built more : forall ps cells, built ps cells -> Forall placed more ->
    exists cells', lcAddAll isHalo rnd b old cells more = Some cells' /\ built (ps ++ more) cells'.
  Proof.
    induction more as [|p more IH]; intros ps cells Hb Hp; cbn [lcAddAll].
    - exists cells. split; [reflexivity|]. now rewrite app_nil_r.
    - inversion Hp as [|? ? H1 H2]; subst. destruct (lcAdd_built ps cells p Hb H1) as (c' & -> & Hb').
      destruct (IH _ _ Hb' H2) as (c'' & E & Hb''). exists c''. split; [exact E|]. now rewrite <- app_assoc in Hb''.
  Qed.

  Lemma lcEmpty_built : built [] (lcEmpty b).
  Proof. reflexivity. Qed.

  Lemma lcBuild ps : Forall placed ps ->
    exists cells, lcAddAll isHalo rnd b old (lcEmpty b) ps = Some cells /\ built ps cells.
  Proof. intros H. exact (lcAddAll_built ps [] _ lcEmpty_built H). Qed.
End Build.
