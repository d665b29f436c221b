(** The order of the cells within the slices of the c01 offsets: the cells of a
    slice are a prefix of those of the next slice towards the base cell, and the
    cell on the axis through the base cell comes first. *)
From Verif.Base Require Import ZRange Occ.
From Verif.Grid Require Import IndexModel IndexSpec IndexProofs.
From Verif.Traversal Require Import CellSpec C01Model C01Spec C01Proofs.

Section Rows.
  Variable near : Z -> Z -> Z -> bool.
  Variables ov dims : I3.
  Hypothesis Hfit : gridFits2x dims ov.
  Hypothesis Haxis : near (ix ov) 0 0 = true.

  Definition flatYZ (i : Z) (yz : Z * Z) : Z := threeToOneD (mkI3 i (fst yz) (snd yz)) dims.
  Definition rowsOf := Z -> list (Z * Z).
  Definition addYZ (yz : Z * Z) (l : list (Z * Z)) : list (Z * Z) :=
    if (fst yz =? 0) && (snd yz =? 0) then yz :: l else l ++ [yz].
  Definition rowsStep (Y : rowsOf) (t : Z * Z * Z) : rowsOf :=
    let '(x, y, z) := t in
    if near (Z.abs x) (Z.abs y) (Z.abs z) then
      if existsb (fun e => flatYZ x e =? flatYZ x (y, z)) (Y (Z.abs x)) then Y
      else fun a => if a <=? Z.abs x then addYZ (y, z) (Y a) else Y a
    else Y.
  Definition rowsAll : rowsOf := fold_left rowsStep (c01Loop ov) (fun _ => []).

  Definition same (s : slices) (Y : rowsOf) : Prop :=
    forall i, - ix ov <= i <= ix ov -> s (i + ix ov) = map (flatYZ i) (Y (Z.abs i)).

  Lemma step_same s Y t : inHalfBox ov t -> same s Y -> same (c01Step near ov dims s t) (rowsStep Y t).
  Proof.
    intros Ht H i Hi. destruct t as [[x y] z]. unfold inHalfBox in Ht. unfold c01Step, rowsStep.
    destruct (near (Z.abs x) (Z.abs y) (Z.abs z)); [|now apply H].
    assert (E : existsb (fun e => e =? threeToOneD (mkI3 x y z) dims) (s (x + ix ov)) =
                existsb (fun e => flatYZ x e =? flatYZ x (y, z)) (Y (Z.abs x))).
    { rewrite (H x) by lia. generalize (Y (Z.abs x)). induction l as [|e l IH]; [reflexivity|]. cbn [map existsb]. now rewrite IH. }
    rewrite E. clear E. destruct (existsb _ _); [now apply H|].
    rewrite (c01AddRow_at near). replace (i + ix ov - ix ov) with i by ring. rewrite !(H i Hi).
    destruct (Z.leb_spec (Z.abs i) (Z.abs x)) as [C|C].
    - replace (x <=? i) with true by (symmetry; apply Z.leb_le; lia).
      replace (i <=? Z.abs x) with true by (symmetry; apply Z.leb_le; lia). cbn [andb].
      unfold addYZ. cbn [fst snd]. destruct ((y =? 0) && (z =? 0)); [reflexivity|]. rewrite map_app. reflexivity.
    - destruct (Z.leb_spec x i), (Z.leb_spec i (Z.abs x)); cbn [andb]; try (apply (H i Hi)); try reflexivity. lia.
  Qed.

  Lemma all_same : same (c01PairwiseOffsets near ov dims) rowsAll.
  Proof.
    unfold c01PairwiseOffsets, rowsAll.
    assert (HF : Forall (inHalfBox ov) (c01Loop ov)) by (apply Forall_forall; intros [[? ?] ?]; apply c01Loop_in).
    assert (G : forall L s Y, Forall (inHalfBox ov) L -> same s Y ->
      same (fold_left (c01Step near ov dims) L s) (fold_left rowsStep L Y)).
    { induction L as [|t L IH]; intros s Y F H; [exact H|]. inversion F; subst. cbn [fold_left].
      apply IH; [assumption|]. now apply step_same. }
    apply G; [exact HF|]. intros i _. reflexivity.
  Qed.

  Definition rowsInv (L : list (Z * Z * Z)) (Y : rowsOf) : Prop :=
    (forall a yz, 0 <= a <= ix ov -> In yz (Y a) -> - iy ov <= fst yz <= iy ov /\ - iz ov <= snd yz <= iz ov) /\
    (forall m, 0 <= m <= ix ov -> (forall x y z, In (x, y, z) L -> x <= - m) -> forall a, 0 <= a <= m -> Y a = Y m) /\
    (forall a b, 0 <= a <= b -> b <= ix ov -> exists e, Y a = Y b ++ e) /\
    (forall a, 0 <= a <= ix ov -> In (0, 0) (Y a) -> exists t, Y a = (0, 0) :: t) /\
    (In (- ix ov, 0, 0) L -> In (0, 0) (Y (ix ov))).

  Lemma rows_inv L : forall L2, c01Loop ov = L ++ L2 -> rowsInv L (fold_left rowsStep L (fun _ => [])).
  Proof.
    pose proof Hfit as (Hp & _). unfold positive in Hp.
    induction L as [|t L IH] using rev_ind; intros L2 EL.
    - repeat split; try (intros; contradiction); try reflexivity. intros. now exists [].
    - rewrite fold_left_app. cbn [fold_left]. rewrite <- app_assoc in EL. cbn [app] in EL.
      specialize (IH _ EL). set (Y := fold_left rowsStep L (fun _ => [])) in *.
      destruct IH as (Ibox & Ieq & Ipre & Ihead & Iin).
      assert (HF : forall x y z, In (x, y, z) (L ++ [t]) -> inHalfBox ov (x, y, z)).
      { intros x y z H. apply c01Loop_in. rewrite EL. apply in_app_or in H as [H|[H|[]]]; apply in_or_app; [now left|right; left; exact H]. }
      destruct t as [[x y] z].
      assert (Ht : inHalfBox ov (x, y, z)) by (apply HF; apply in_or_app; right; left; reflexivity).
      unfold inHalfBox in Ht.
      assert (Hord : forall x' y' z', In (x', y', z') L -> x' <= x).
      { intros x' y' z' H. exact (c01Loop_xSorted ov L (x, y, z) L2 EL x' y' z' H). }
      assert (Hlow : forall a, 0 <= a <= Z.abs x -> Y a = Y (Z.abs x)).
      { intros a Ha. apply Ieq; [lia| |exact Ha]. intros x' y' z' H. specialize (Hord _ _ _ H). lia. }
      unfold rowsStep. destruct (near (Z.abs x) (Z.abs y) (Z.abs z)) eqn:Hn.
      2:{ repeat split.
          - intros; apply (Ibox a yz); auto.
          - intros; apply (Ibox a yz); auto.
          - intros; apply (Ibox a yz); auto.
          - intros; apply (Ibox a yz); auto.
          - intros m Hm HL a Ha. apply Ieq; auto. intros x' y' z' H'. apply (HL x' y' z'). apply in_or_app. now left.
          - exact Ipre.
          - exact Ihead.
          - intros H. apply in_app_or in H as [H|[H|[]]]; [now apply Iin|]. injection H as -> -> ->.
            replace (Z.abs (- ix ov)) with (ix ov) in Hn by lia. change (Z.abs 0) with 0 in Hn. congruence. }
      destruct (existsb _ _) eqn:Hex.
      { repeat split.
          - intros; apply (Ibox a yz); auto.
          - intros; apply (Ibox a yz); auto.
          - intros; apply (Ibox a yz); auto.
          - intros; apply (Ibox a yz); auto.
          - intros m Hm HL a Ha. apply Ieq; auto. intros x' y' z' H'. apply (HL x' y' z'). apply in_or_app. now left.
          - exact Ipre.
          - exact Ihead.
          - intros H. apply in_app_or in H as [H|[H|[]]]; [now apply Iin|]. injection H as -> -> ->.
            apply existsb_exists in Hex as ([y' z'] & He & E). apply Z.eqb_eq in E.
            replace (Z.abs (- ix ov)) with (ix ov) in He by lia.
            destruct (Ibox (ix ov) _ ltac:(lia) He) as [B1 B2]. cbn [fst snd] in B1, B2.
            unfold flatYZ in E. cbn [fst snd] in E.
            apply (row_inj near ov dims Hfit) in E as [-> ->]; [exact He|lia..]. }
      assert (Hnot0 : y = 0 -> z = 0 -> x = - ix ov).
      { intros -> ->. destruct (Z.eq_dec x (- ix ov)) as [|Hx]; [assumption|exfalso].
        assert (H0 : In (- ix ov, 0, 0) L).
        { assert (H : In (- ix ov, 0, 0) (c01Loop ov)) by (apply c01Loop_in; unfold inHalfBox; lia).
          rewrite EL in H. apply in_app_or in H as [H|[H|H]]; [exact H|injection H; lia|].
          apply in_split in H as (l1 & l2 & ->).
          assert (x <= - ix ov); [|lia].
          apply (c01Loop_xSorted ov (L ++ (x, 0, 0) :: l1) (- ix ov, 0, 0) l2) with 0 0.
          - rewrite <- app_assoc. exact EL.
          - apply in_or_app. right. left. reflexivity. }
        apply Iin in H0. destruct (Ipre (Z.abs x) (ix ov) ltac:(lia) ltac:(lia)) as (e & Ee).
        apply not_true_iff_false in Hex. apply Hex. apply existsb_exists. exists (0, 0). split; [|apply Z.eqb_refl].
        rewrite Ee. apply in_or_app. now left. }
      assert (Hbox' : forall a yz, 0 <= a <= ix ov -> In yz (if a <=? Z.abs x then addYZ (y, z) (Y a) else Y a) ->
        - iy ov <= fst yz <= iy ov /\ - iz ov <= snd yz <= iz ov).
      { intros a yz Ha H. destruct (a <=? Z.abs x); [|now apply (Ibox a)].
        assert (H' : yz = (y, z) \/ In yz (Y a)).
        { unfold addYZ in H. cbn [fst snd] in H. destruct ((y =? 0) && (z =? 0)).
          - destruct H as [H|H]; auto.
          - apply in_app_or in H as [H|[H|[]]]; auto. }
        destruct H' as [->|H']; [cbn [fst snd]; lia|now apply (Ibox a)]. }
      assert (Hpre' : forall a b, 0 <= a <= b -> b <= ix ov -> exists e,
        (if a <=? Z.abs x then addYZ (y, z) (Y a) else Y a) = (if b <=? Z.abs x then addYZ (y, z) (Y b) else Y b) ++ e).
      { intros a b Hab Hb. destruct (Z.leb_spec a (Z.abs x)) as [C1|C1], (Z.leb_spec b (Z.abs x)) as [C2|C2].
        - exists []. rewrite app_nil_r, (Hlow a), (Hlow b); auto; lia.
        - unfold addYZ. cbn [fst snd]. destruct ((y =? 0) && (z =? 0)) eqn:E0.
          + exfalso. apply andb_true_iff in E0 as [E1 E2]. apply Z.eqb_eq in E1, E2.
            specialize (Hnot0 E1 E2). lia.
          + destruct (Ipre a b Hab Hb) as (e & ->). exists (e ++ [(y, z)]). now rewrite app_assoc.
        - lia.
        - now apply Ipre. }
      assert (Hhead' : forall a, 0 <= a <= ix ov -> In (0, 0) (if a <=? Z.abs x then addYZ (y, z) (Y a) else Y a) ->
        exists t, (if a <=? Z.abs x then addYZ (y, z) (Y a) else Y a) = (0, 0) :: t).
      { intros a Ha H. destruct (a <=? Z.abs x); [|now apply Ihead].
        unfold addYZ in *. cbn [fst snd] in *. destruct ((y =? 0) && (z =? 0)) eqn:E0.
        - apply andb_true_iff in E0 as [E1 E2]. apply Z.eqb_eq in E1, E2. subst. now eexists.
        - apply in_app_or in H as [H|[H|[]]].
          + destruct (Ihead a Ha H) as (u & ->). now exists (u ++ [(y, z)]).
          + injection H as -> ->. discriminate. }
      split; [exact Hbox'|]. split; [|split; [exact Hpre'|split; [exact Hhead'|]]].
      + intros m Hm HL a Ha. assert (x <= - m) by (apply (HL x y z); apply in_or_app; right; left; reflexivity).
        replace (a <=? Z.abs x) with true by (symmetry; apply Z.leb_le; lia).
        replace (m <=? Z.abs x) with true by (symmetry; apply Z.leb_le; lia).
        rewrite (Hlow a), (Hlow m); auto; lia.
      + intros H. apply in_app_or in H as [H|[H|[]]].
        * specialize (Iin H). destruct (ix ov <=? Z.abs x); [|exact Iin].
          unfold addYZ. destruct (_ && _); [now right|]. apply in_or_app. now left.
        * injection H as -> -> ->. replace (ix ov <=? Z.abs (- ix ov)) with true by (symmetry; apply Z.leb_le; lia).
          left. reflexivity.
  Qed.

  (** The result. *)
  Lemma rows_spec :
    (forall a, 0 <= a <= ix ov -> exists t, rowsAll a = (0, 0) :: t) /\
    (forall a b, 0 <= a <= b -> b <= ix ov -> exists e, rowsAll a = rowsAll b ++ e) /\
    same (c01PairwiseOffsets near ov dims) rowsAll.
  Proof.
    pose proof Hfit as (Hp & _). unfold positive in Hp.
    destruct (rows_inv (c01Loop ov) [] (eq_sym (app_nil_r _))) as (_ & _ & Ipre & Ihead & Iin).
    fold rowsAll in Ipre, Ihead, Iin. split; [|split; [exact Ipre|exact all_same]].
    intros a Ha. apply Ihead; [exact Ha|]. destruct (Ipre a (ix ov) ltac:(lia) ltac:(lia)) as (e & ->).
    apply in_or_app. left. apply Iin. apply c01Loop_in. unfold inHalfBox. lia.
  Qed.
End Rows.
