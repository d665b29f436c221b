(** lc_c04_combined_SoA on the grid: all lines together perform the calls of c08. *)
From Coq Require Import Permutation.
From Verif.Base Require Import ZRange Occ.
From Verif.Grid Require Import IndexModel IndexSpec IndexProofs.
From Verif.Traversal Require Import CellSpec C08Model C08Proofs C08Bases C04Model.
From Verif.Container Require Import CombinedC04Model CombinedC04Offsets CombinedC04Sim CombinedC04Handler CombinedC04Spec CombinedC04Count.
Local Open Scope Z_scope.

Lemma sortInsert_perm e l : Permutation (sortInsert e l) (e :: l).
Proof.
  induction l as [|d r IH]; [reflexivity|]. cbn [sortInsert]. destruct (fst e <=? fst d); [reflexivity|].
  rewrite IH. apply perm_swap.
Qed.
Lemma stableSort_perm l : Permutation (stableSort l) l.
Proof. induction l as [|e l IH]; [reflexivity|]. cbn [stableSort fold_right]. rewrite sortInsert_perm. now constructor. Qed.

Section Lines.
  Variable dims : I3.
  Notation one := (mkI3 1 1 1).

  (** The lines of all colours. *)
  Lemma in_color col sy sz y z : oneToThreeD col (mkI3 1 (iy one + 1) (iz one + 1)) = mkI3 0 sy sz ->
    (In (y, z) (c04cColor one dims col) <-> (sy <= y < iy dims - 1 /\ (y - sy) mod 2 = 0) /\ (sz <= z < iz dims - 1 /\ (z - sz) mod 2 = 0)).
  Proof.
    intros E. unfold c04cColor. rewrite E. cbn [iy iz]. rewrite in_flat_map. change (1 + 1) with 2. split.
    - intros (z0 & Hz & H). apply in_map_iff in H as (y0 & E0 & Hy). injection E0 as -> ->.
      apply in_zsteps in Hz; [|lia]. apply in_zsteps in Hy; [|lia]. tauto.
    - intros [Hy Hz]. exists z. split; [apply in_zsteps; [lia|tauto]|]. apply in_map_iff. exists y. split; [reflexivity|]. apply in_zsteps; [lia|tauto].
  Qed.

  Lemma in_lines yz : In yz (concat (c04cColors one dims)) <-> 0 <= fst yz < iy dims - 1 /\ 0 <= snd yz < iz dims - 1.
  Proof.
    unfold c04cColors. change (zrange 0 (1 * (iy one + 1) * (iz one + 1))) with [0; 1; 2; 3].
    cbn [map concat]. rewrite !in_app_iff. destruct yz as [y z]. cbn [fst snd].
    assert (G : forall col sy sz, oneToThreeD col (mkI3 1 (iy one + 1) (iz one + 1)) = mkI3 0 sy sz ->
      (In (y, z) (c04cColor one dims col) <-> (sy <= y < iy dims - 1 /\ (y - sy) mod 2 = 0) /\ (sz <= z < iz dims - 1 /\ (z - sz) mod 2 = 0))).
    { intros col sy sz E. exact (in_color col sy sz y z E). }
    rewrite (G 0 0 0 eq_refl), (G 1 1 0 eq_refl), (G 2 0 1 eq_refl), (G 3 1 1 eq_refl). cbn [In].
    pose proof (Z.mod_pos_bound y 2 ltac:(lia)). pose proof (Z.mod_pos_bound z 2 ltac:(lia)).
    pose proof (Z.div_mod y 2 ltac:(lia)). pose proof (Z.div_mod z 2 ltac:(lia)).
    rewrite !Z.sub_0_r.
    assert (Ey : (y - 1) mod 2 = 1 - y mod 2) by (symmetry; apply (Zmod_unique _ _ (if y mod 2 =? 0 then y / 2 - 1 else y / 2)); [lia|destruct (Z.eqb_spec (y mod 2) 0); lia]).
    assert (Ez : (z - 1) mod 2 = 1 - z mod 2) by (symmetry; apply (Zmod_unique _ _ (if z mod 2 =? 0 then z / 2 - 1 else z / 2)); [lia|destruct (Z.eqb_spec (z mod 2) 0); lia]).
    rewrite Ey, Ez. lia.
  Qed.

  Lemma color_start col : 0 <= col < 4 -> oneToThreeD col (mkI3 1 (iy one + 1) (iz one + 1)) = mkI3 0 (col mod 2) (col / 2).
  Proof. intros H. assert (C : col = 0 \/ col = 1 \/ col = 2 \/ col = 3) by lia. destruct C as [ -> | [ -> | [ -> | -> ] ] ]; reflexivity. Qed.

  (** Two lines of a colour are the same or at least two apart. *)
  Lemma color_parity col y z : 0 <= col < 4 -> In (y, z) (c04cColor one dims col) -> y mod 2 = col mod 2 /\ z mod 2 = col / 2.
  Proof.
    intros H Hin. apply (in_color col _ _ y z (color_start col H)) in Hin as [[_ Hy] [_ Hz]].
    assert (C : col = 0 \/ col = 1 \/ col = 2 \/ col = 3) by lia.
    assert (G : forall v s, 0 <= s < 2 -> (v - s) mod 2 = 0 -> v mod 2 = s).
    { intros v s Hs Hv. replace v with ((v - s) + s) by ring. rewrite <- Zplus_mod_idemp_l, Hv. apply Z.mod_small. lia. }
    split; apply G; auto; destruct C as [ -> | [ -> | [ -> | -> ] ] ]; cbn; lia.
  Qed.

  Lemma NoDup_lines : NoDup (concat (c04cColors one dims)).
  Proof.
    unfold c04cColors. rewrite <- flat_map_concat_map. change (1 * (iy one + 1) * (iz one + 1)) with 4. apply NoDup_flat_map.
    - apply NoDup_zrange.
    - intros col Hcol. unfold c04cColor. apply NoDup_flat_map.
      + apply NoDup_zsteps. reflexivity.
      + intros z Hz. apply FinFun.Injective_map_NoDup; [intros y y' E; congruence|]. apply NoDup_zsteps. reflexivity.
      + intros z z' yz _ _ H1 H2. apply in_map_iff in H1 as (? & E1 & _). apply in_map_iff in H2 as (? & E2 & _). cbv beta in *. congruence.
    - intros c1 c2 [y z] H1 H2 I1 I2. apply in_zrange in H1, H2.
      destruct (color_parity c1 y z H1 I1) as [Y1 Z1]. destruct (color_parity c2 y z H2 I2) as [Y2 Z2].
      assert (C1 : c1 = 0 \/ c1 = 1 \/ c1 = 2 \/ c1 = 3) by lia. assert (C2 : c2 = 0 \/ c2 = 1 \/ c2 = 2 \/ c2 = 3) by lia.
      rewrite Y1 in Y2. rewrite Z1 in Z2. clear - C1 C2 Y2 Z2.
      destruct C1 as [ -> | [ -> | [ -> | -> ] ] ]; destruct C2 as [ -> | [ -> | [ -> | -> ] ] ]; vm_compute in Y2, Z2; first [reflexivity|discriminate].
  Qed.

End Lines.

Section Grid.
  Context {P : Type}.
  Variable zeroRow : Row P.
  Variable useN3 : bool.
  Variable near : Z -> Z -> Z -> bool.
  Variable dims : I3.
  Notation one := (mkI3 1 1 1).
  Notation dx := (ix dims).
  Notation dxy := (iy dims * ix dims).
  Hypothesis Hdx : 2 <= ix dims.
  Hypothesis Hdy : 2 <= iy dims.
  Hypothesis Hnear : forall x y z, 0 <= x <= 1 -> 0 <= y <= 1 -> 0 <= z <= 1 -> near x y z = true.

  Lemma pairs_split : computePairwiseCellOffsetsC08 near one dims = c04CellPairs near one dims 0 ++ c04CellPairs near one dims 1.
  Proof.
    unfold computePairwiseCellOffsetsC08, c04CellPairs. rewrite <- map_app. f_equal.
    change (c08Loop one) with
      (flat_map (fun y => flat_map (fun z => map (fun d => (0, y, z, d)) allDirections) (zrange 0 2)) (zrange 0 2) ++
       flat_map (fun y => flat_map (fun z => map (fun d => (1, y, z, d)) allDirections) (zrange 0 2)) (zrange 0 2)).
    rewrite !filter_app.
    assert (G : forall x x', filter (fun t => let '(x0, _, _, _) := t in (x0 =? x') && c08Include near one t)
        (flat_map (fun y => flat_map (fun z => map (fun d => (x, y, z, d)) allDirections) (zrange 0 2)) (zrange 0 2)) =
      if x =? x' then filter (c08Include near one) (flat_map (fun y => flat_map (fun z => map (fun d => (x, y, z, d)) allDirections) (zrange 0 2)) (zrange 0 2)) else []).
    { intros x x'. destruct (Z.eqb_spec x x') as [->|Hne].
      - apply filter_ext_in. intros [[[x0 y] z] d] H. apply in_flat_map in H as (? & _ & H). apply in_flat_map in H as (? & _ & H).
        apply in_map_iff in H as (? & E & _). injection E as <- _ _ _. now rewrite Z.eqb_refl.
      - match goal with |- filter ?f ?l = [] => assert (forall t, In t l -> f t = false) end.
        { intros [[[x0 y] z] d] H. apply in_flat_map in H as (? & _ & H). apply in_flat_map in H as (? & _ & H).
          apply in_map_iff in H as (? & E & _). injection E as <- _ _ _. now rewrite (proj2 (Z.eqb_neq x x') Hne). }
        revert H. generalize (flat_map (fun y => flat_map (fun z => map (fun d => (x, y, z, d)) allDirections) (zrange 0 2)) (zrange 0 2)).
        induction l as [|t l IH]; intros H; [reflexivity|]. cbn [filter]. rewrite (H t (or_introl eq_refl)). apply IH. intros t' Ht'. apply H. now right. }
    rewrite !G. cbn [Z.eqb]. now rewrite app_nil_r.
  Qed.

  Lemma opsBase_perm cur base : Permutation (opsBase dims cur base) (c08ProcessBaseCell (computePairwiseCellOffsetsC08 near one dims) base).
  Proof.
    unfold c08ProcessBaseCell. rewrite pairs_split, map_app.
    assert (E0 : Permutation (ops0 dims base) (map (fun '(o1, o2) => (base + o1, base + o2)) (c04CellPairs near one dims 0))).
    { rewrite <- (stableSort_perm (c04CellPairs near one dims 0)), (sort0 near dims Hdx Hdy Hnear). unfold ops0. cbn [map].
      rewrite !Z.add_0_r. reflexivity. }
    assert (E1 : Permutation (ops1 dims base) (map (fun '(o1, o2) => (base + o1, base + o2)) (c04CellPairs near one dims 1))).
    { rewrite <- (stableSort_perm (c04CellPairs near one dims 1)), (sort1 near dims Hdx Hdy Hnear). unfold ops1. cbn [map].
      rewrite !Z.add_0_r, !Z.add_assoc. reflexivity. }
    unfold opsBase. destruct (cur =? 0).
    - now rewrite E0, E1.
    - rewrite E0, E1. apply Permutation_app_comm.
  Qed.

  Definition lineBases (yz : Z * Z) : list I3 := map (fun x => mkI3 x (fst yz) (snd yz)) (zrange 0 (dx - 1)).

  Lemma flat_map_perm_pt {A B} (f g : A -> list B) l : (forall x, Permutation (f x) (g x)) -> Permutation (flat_map f l) (flat_map g l).
  Proof. intros H. induction l as [|x l IH]; [reflexivity|]. cbn [flat_map]. now rewrite (H x), IH. Qed.

  Lemma lineOps_perm lines : Permutation (flat_map (lineOps dims) lines) (c08BaseSteps near dims one (flat_map lineBases lines)).
  Proof.
    unfold c08BaseSteps. induction lines as [|yz l IH]; [reflexivity|]. cbn [flat_map]. rewrite flat_map_app, IH.
    apply Permutation_app_tail. unfold lineOps, lineBases. clear IH. induction (zrange 0 (dx - 1)) as [|x xs IHx]; [reflexivity|].
    cbn [map flat_map]. now rewrite opsBase_perm, IHx.
  Qed.

  Lemma lines_calls lines : gridFits dims one -> Permutation lines (concat (c04cColors one dims)) ->
    Permutation (flat_map (lineOps dims) lines) (c08Calls near dims one).
  Proof.
    intros Hfit Hp. rewrite (lineOps_perm lines). apply c08_calls_perm; [exact Hfit| |].
    - apply NoDup_flat_map.
      + apply (Permutation_NoDup (Permutation_sym Hp)). apply NoDup_lines.
      + intros yz _. apply FinFun.Injective_map_NoDup; [intros x x' E; congruence|]. apply NoDup_zrange.
      + intros [y z] [y' z'] b _ _ H1 H2. unfold lineBases in *. apply in_map_iff in H1 as (? & <- & _). apply in_map_iff in H2 as (? & E & _).
        cbn [fst snd] in E. congruence.
    - intros b. rewrite in_flat_map. unfold c08Box. cbn [ix iy iz]. split.
      + intros (yz & Hyz & Hb). apply in_map_iff in Hb as (x & <- & Hx). apply in_zrange in Hx.
        apply (Permutation_in yz Hp), in_lines in Hyz. cbn [ix iy iz]. lia.
      + intros (Hx & Hy & Hz). exists (iy b, iz b). split.
        * apply (Permutation_in _ (Permutation_sym Hp)), in_lines. cbn [fst snd]. lia.
        * apply in_map_iff. exists (ix b). cbn [fst snd]. split; [now destruct b|]. apply in_zrange. lia.
  Qed.

  (** * The rows after the lines *)
  Variable cells : Z -> list (Row P).
  Notation size := (fun k => length (cells k)).

  Lemma lines_sim work : forall c (L : Z -> list (Row P)), (forall k, c k = L k) -> (forall k, length (L k) = size k) ->
    forall k, c04cLines zeroRow useN3 near one dims size c work k = fold_left stepE (flat_map (lineOps dims) (map snd work)) L k.
  Proof.
    unfold c04cLines. induction work as [|[t yz] work IH]; intros c L Hc HL k; [apply Hc|].
    cbn [fold_left map flat_map]. rewrite fold_left_app. apply IH.
    - intros k'. now apply line_sim.
    - intros k'. now rewrite length_steps.
  Qed.
End Grid.
