(** What a call does to the bookkeeping. *)
From Coq Require Import Reals.
From Verif.Base Require Import ZRange.
From Verif.Grid Require Import CellBlockSpec.
From Verif.Functor Require Import SortModel SortSpec.
From Verif.Container Require Import LinkedCellsSpec IteratorModel IteratorContainers ParticleModel CollectModel CollectSpec UpdateModel.
From Verif.Logic Require Import BalanceModel HandlerModel HandlerSpec.
Import ListNotations.
Local Open Scope Z_scope.

Section Fields.
  Variables (cutoff spt : R) (freq : Z).
  Notation step := (step cutoff spt freq).

  Lemma select_fields : forall ks s s', select cutoff spt freq s ks = Some s' -> valid s' = valid s /\ steps s' = steps s /\ calls s' = calls s.
  Proof.
    induction ks as [|k r IH]; intros s s' E; cbn [select] in E; [injection E as <-; auto|].
    destruct (sameKind _ _); [auto|]. destruct (generate _ _ _ _ _ _ _); [|discriminate].
    apply IH in E. exact E.
  Qed.

  (** What a call does to the bookkeeping. *)
  Lemma step_fields s e s' out : step s e (Some (s', out)) ->
    match e with
    | Update b => valid s' = listsValid freq s b /\ steps s' = newSteps s (listsValid freq s b) /\ calls s' = calls s
    | Compute _ _ => valid s' = true /\ steps s' = steps s /\ calls s' = (calls s + 1) mod 2 ^ 32
    | DeleteAll => valid s' = false /\ steps s' = steps s /\ calls s' = calls s
    | Resize _ _ => (valid s' = false \/ s' = s) /\ steps s' = steps s /\ calls s' = calls s
    | _ => valid s' = valid s /\ steps s' = steps s /\ calls s' = calls s
    end.
  Proof.
    destruct e; cbn [HandlerModel.step]; intros E.
    - unfold quiet, doAdd in E. destruct (negb _); [discriminate|].
      destruct (valid s) eqn:V.
      + destruct (pushAt _ _ _); cbn in E; [|discriminate]. injection E as -> _. cbn. auto.
      + destruct (addOwned _ _ _ _ _ _ _); cbn in E; [|discriminate]. injection E as -> _. cbn. auto.
    - unfold quiet, doAddHalo in E. destruct (inBoxb _ _ _); [discriminate|].
      destruct (valid s) eqn:V.
      + destruct (updateHaloC _ _ _ _ _ _ _) as [[c [|]]|]; [| |discriminate].
        * cbn in E. injection E as -> _. cbn. auto.
        * destruct (pushAt _ _ _); cbn in E; [|discriminate]. injection E as -> _. cbn. auto.
      + destruct (addHaloC _ _ _ _ _ _ _); cbn in E; [|discriminate]. injection E as -> _. cbn. auto.
    - destruct E as (_ & _ & E). injection E as -> _. unfold doDelete. destruct (isOwned p); destruct at_; cbn; auto.
    - injection E as -> _. cbn. auto.
    - injection E as -> _. cbn. auto.
    - unfold doUpdate in E. cbv zeta in E. destruct (collectBuffers _ _ _ _ _ _ _ _) as [[[c1 bs] out1]|]; [|discriminate].
      destruct E as (r & _ & E). destruct r as [[c2 out2]|]; [|discriminate]. injection E as -> _. cbn. auto.
    - unfold quiet, doCompute in E. destruct (select _ _ _ _ _) as [s1|] eqn:S; [|discriminate].
      apply select_fields in S. destruct S as (A & B & C).
      destruct pairwise.
      + destruct (balanceVectors 1 (bufs s1)); [|discriminate]. destruct (balanceVectors 1 (halos s1)); [|discriminate].
        injection E as -> _. cbn [valid steps calls]. rewrite B, C. auto.
      + injection E as -> _. cbn [valid steps calls]. rewrite B, C. auto.
    - unfold doResize in E. destruct (_ && _); [injection E as <- _; auto|]. destruct (negb _); [discriminate|]. cbv zeta in E.
      destruct (existsb _ _); [discriminate|]. destruct (generate _ _ _ _ _ _ _); [|discriminate]. injection E as -> _. cbn. auto.
  Qed.

  (** The neighbour lists are never older than the rebuild frequency. *)
  Lemma step_age s e s' out : 1 <= freq -> step s e (Some (s', out)) -> steps s <= freq -> steps s' <= freq.
  Proof.
    intros F H A. assert (Q := step_fields s e s' out H). destruct e; destruct Q as (Q1 & Q2 & Q3); rewrite Q2; try exact A.
    unfold newSteps, listsValid. destruct (Z.leb_spec freq (steps s)); destruct (0 <? calls s); cbn [orb]; try lia; destruct tunerRebuilds, (valid s); lia.
  Qed.

  (** The container is one of those that were selected. *)
  Lemma select_kind : forall ks s s', select cutoff spt freq s ks = Some s' -> kind (cont s') = kind (cont s) \/ In (kind (cont s')) ks.
  Proof.
    induction ks as [|k r IH]; intros s s' E; cbn [select] in E; [injection E as <-; auto|]. cbn [In].
    destruct (sameKind _ _); [destruct (IH _ _ E); auto|]. destruct (generate _ _ _ _ _ _ _) as [c|] eqn:G; [|discriminate].
    assert (K : kind c = k).
    { unfold generate in G. clear E IH. set (c0 := mkCont k (emptyCells cutoff spt freq k (boxLo s) (boxHi s))) in G. change k with (kind c0). clearbody c0. revert c0 G.
      generalize (filter (fun p => negb (isDummy p)) (concat (ccells (cont s)))). induction l as [|p l IH]; intros c0 G; cbn [copyInto] in G; [injection G as <-; reflexivity|].
      assert (M : forall o c1 c2, option_map (mkCont (kind c1)) o = Some c2 -> kind c2 = kind c1) by (intros [x|] c1 c2 X; [injection X as <-; reflexivity|discriminate]).
      destruct (isOwned p), (inBoxb _ _ _); try discriminate.
      - destruct (addOwned _ _ _ _ _ _ _) as [c1|] eqn:A; [|discriminate]. rewrite (IH _ G). unfold addOwned in A. destruct (kind c0) eqn:K in A; rewrite <- K in A; apply (M _ _ _ A).
      - destruct (addHaloC _ _ _ _ _ _ _) as [c1|] eqn:A; [|discriminate]. rewrite (IH _ G). unfold addHaloC in A. destruct (kind c0) eqn:K in A.
        + destruct (dsHaloCell _ _ _); [|injection A as <-; reflexivity]. rewrite <- K in A. apply (M _ _ _ A).
        + rewrite <- K in A. apply (M _ _ _ A). }
    destruct (IH _ _ E) as [Q|Q]; [cbn [cont] in Q; right; left; congruence|auto].
  Qed.
End Fields.
