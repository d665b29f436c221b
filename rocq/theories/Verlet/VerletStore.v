(** The lists after a sequence of push_backs. *)
From Coq Require Import Reals.
From Verif.Base Require Import ZRange Occ OptionM Lists.
From Verif.Grid Require Import IndexModel.
From Verif.Functor Require Import CellFunctorModel FunctorSpec SortModel.
From Verif.Container Require Import LinkedCellsCount.
From Verif.Verlet Require Import VerletModel VerletSpec VerletGen.
Open Scope nat_scope.

(** The pairs (owner, neighbour) of some lists. *)
Definition pairsOf {P} (lists : list (NList P)) : list (P * P) :=
  flat_map (fun l => map (pair (fst l)) (snd l)) lists.

Lemma pairsOf_app {P} (l1 l2 : list (NList P)) : pairsOf (l1 ++ l2) = pairsOf l1 ++ pairsOf l2.
Proof. apply flat_map_app. Qed.

Lemma listCalls_pairs {P} n3 (lists : list (NList P)) : flat_map (listCalls n3) lists = pushCalls n3 (pairsOf lists).
Proof.
  unfold pushCalls, pairsOf, listCalls. induction lists as [|[p ns] l IH]; [reflexivity|]. cbn [flat_map fst snd].
  rewrite map_app, map_map. now rewrite IH.
Qed.

Lemma pairsOf_in {P} (lists : list (NList P)) p q : In (p, q) (pairsOf lists) -> In p (map fst lists).
Proof.
  intros H. apply in_flat_map in H as ([x ns] & Hx & H). cbn [fst snd] in H. apply in_map_iff in H as (y & E & _).
  injection E as <- <-. apply in_map_iff. exists (x, ns). auto.
Qed.

Lemma pairsOf_perm {P} (l1 l2 : list (NList P)) : Permutation l1 l2 -> Permutation (pairsOf l1) (pairsOf l2).
Proof. intros H. unfold pairsOf. now apply Permutation_flat_map. Qed.

Lemma pairsOf_empty {P} (l : list P) : pairsOf (map (fun p => (p, [])) l) = [].
Proof. induction l; [reflexivity|]. exact IHl. Qed.

Lemma modifyAt_app {A} (f : A -> option A) l1 x l2 y i : length l1 = i -> f x = Some y ->
  modifyAt f (l1 ++ x :: l2) i = Some (l1 ++ y :: l2).
Proof.
  intros <- Hf. induction l1 as [|z l1 IH]; cbn [app length modifyAt]; [now rewrite Hf|]. now rewrite IH.
Qed.

Lemma perm_middle {A} (a : A) l1 l2 l3 : Permutation l2 (a :: l3) -> Permutation (l1 ++ l2) (a :: l1 ++ l3).
Proof. intros H. rewrite H. symmetry. apply Permutation_middle. Qed.

Section PushAll.
  Context {P St : Type}.
  Variables (push : St -> P -> P -> option St) (Inv : St -> Prop) (ok : P -> P -> Prop) (flat : St -> list (P * P)).
  Hypothesis Hpush : forall st i j, Inv st -> ok i j ->
    exists st', push st i j = Some st' /\ Inv st' /\ Permutation (flat st') ((i, j) :: flat st).

  Lemma pushAll_perm l : forall st, Inv st -> (forall i j, In (i, j) l -> ok i j) ->
    exists st', pushAll push st l = Some st' /\ Inv st' /\ Permutation (flat st') (l ++ flat st).
  Proof.
    induction l as [|[i j] l IH]; intros st Hi Hl; cbn [pushAll].
    - exists st. auto.
    - destruct (Hpush st i j Hi) as (st' & -> & Hi' & Hp); [apply Hl; now left|].
      destruct (IH st' Hi') as (st'' & E & Hi'' & Hp'); [intros; apply Hl; now right|]. exists st''. split; [exact E|]. split; [exact Hi''|].
      rewrite Hp', Hp. cbn [app]. symmetry. apply Permutation_middle.
  Qed.
End PushAll.

Section Lists.
  Context {P : Type}.
  Variables (pid : P -> Z) (cells : list (Cell P)).
  Let all := allParticles cells.
  Hypothesis Hids : distinctIds pid all.

  Lemma pushTo_pairs (j : P) (l : NList P) l1 l2 : forall l', pushTo j l = Some l' ->
    Permutation (pairsOf (l1 ++ l' :: l2)) ((fst l, j) :: pairsOf (l1 ++ l :: l2)).
  Proof.
    intros l' E. injection E as <-. rewrite !pairsOf_app. apply perm_middle. cbn [pairsOf flat_map fst snd].
    rewrite map_app. cbn [map]. rewrite <- app_assoc. cbn [app]. symmetry. apply Permutation_middle.
  Qed.

  (** ** VerletLists *)
  Lemma vlPush_spec lists i j : distinctIds pid (map fst lists) -> In i (map fst lists) ->
    exists lists', vlPush pid lists i j = Some lists' /\ map fst lists' = map fst lists /\
      Permutation (pairsOf lists') ((i, j) :: pairsOf lists).
  Proof.
    induction lists as [|[p ns] r IH]; intros Hd Hi; [destruct Hi|]. cbn [vlPush].
    destruct (Z.eqb_spec (pid p) (pid i)) as [E|N].
    - assert (p = i) as ->. { apply (ids_inj pid (map fst ((p, ns) :: r))); auto. now left. }
      eexists. split; [reflexivity|]. split; [reflexivity|]. cbn [pairsOf flat_map fst snd]. rewrite map_app. cbn [map].
      rewrite <- app_assoc. cbn [app]. symmetry. apply Permutation_middle.
    - destruct Hi as [<-|Hi]; [now elim N|]. destruct IH as (r' & -> & E & Hp); [|exact Hi|].
      { unfold distinctIds in *. cbn [map] in Hd. now inversion Hd. }
      eexists. split; [reflexivity|]. split; [cbn [map fst]; now rewrite E|].
      change (Permutation (map (pair p) ns ++ pairsOf r') ((i, j) :: map (pair p) ns ++ pairsOf r)). now apply perm_middle.
  Qed.

  Lemma vlInit_keys : map fst (vlInit cells) = all.
  Proof. unfold vlInit. rewrite map_map. apply map_id. Qed.

  Lemma vlBuild_spec pushes : (forall i j, In (i, j) pushes -> In i all) ->
    exists lists, pushAll (vlPush pid) (vlInit cells) pushes = Some lists /\ map fst lists = all /\
      Permutation (pairsOf lists) pushes.
  Proof.
    intros Hl.
    destruct (pushAll_perm (vlPush pid) (fun lists => map fst lists = all) (fun i j => In i all) pairsOf) with (l := pushes) (st := vlInit cells)
      as (lists & E & Hk & Hp); auto using vlInit_keys.
    - intros st i j Hi Hok. destruct (vlPush_spec st i j) as (st' & E & Hk & Hp).
      + now rewrite Hi.
      + now rewrite Hi.
      + exists st'. split; [exact E|]. split; [congruence|exact Hp].
    - exists lists. split; [exact E|]. split; [exact Hk|]. rewrite Hp. unfold vlInit. rewrite pairsOf_empty, app_nil_r. apply Permutation_refl.
  Qed.

  (** ** Index in the SoA *)
  Lemma indexOf_gen l p : distinctIds pid l -> In p l -> exists k, indexOf pid l p = Some k /\ nth_error l k = Some p.
  Proof.
    induction l as [|q r IH]; intros Hd Hi; [destruct Hi|]. cbn [indexOf]. destruct (Z.eqb_spec (pid q) (pid p)) as [E|N].
    - exists 0. split; [reflexivity|]. cbn [nth_error]. f_equal. apply (ids_inj pid (q :: r)); auto. now left.
    - destruct Hi as [<-|Hi]; [now elim N|]. destruct IH as (k & E & Hk); [|exact Hi|].
      { unfold distinctIds in *. cbn [map] in Hd. now inversion Hd. }
      exists (S k). rewrite E. split; [reflexivity|exact Hk].
  Qed.

  Lemma indexOf_nth l k p : distinctIds pid l -> nth_error l k = Some p -> indexOf pid l p = Some k.
  Proof.
    intros Hd Hk. destruct (indexOf_gen l p Hd) as (k' & E & Hk'); [eapply nth_error_In; eauto|]. rewrite E. f_equal.
    unfold distinctIds in Hd. apply (NoDup_nth_error (map pid l)); [exact Hd| |].
    - rewrite map_length. apply nth_error_Some. congruence.
    - rewrite !nth_error_map, Hk, Hk'. reflexivity.
  Qed.

  Lemma soaVerlet_ok n3 p i ns js : nth_error all i = Some p -> Forall2 (fun q k => nth_error all k = Some q) ns js ->
    soaVerlet n3 all i js = Some (map (fun q => mkCall p q n3) ns).
  Proof.
    intros Hi Hns. unfold soaVerlet. rewrite Hi.
    assert (E : mapM (nth_error all) js = Some ns).
    { clear Hi. induction Hns as [|q k ns js Hq _ IH]; [reflexivity|]. cbn [mapM]. now rewrite Hq, IH. }
    now rewrite E.
  Qed.

  Lemma mapM_index ns : (forall q, In q ns -> In q all) ->
    exists js, mapM (indexOf pid all) ns = Some js /\ Forall2 (fun q k => nth_error all k = Some q) ns js.
  Proof.
    induction ns as [|q ns IH]; intros H; [exists []; split; [reflexivity|constructor]|].
    destruct (indexOf_gen all q Hids) as (k & E & Hk); [apply H; now left|].
    destruct IH as (js & E' & Hjs); [intros; apply H; now right|]. exists (k :: js). cbn [mapM]. rewrite E, E'. split; [reflexivity|].
    constructor; assumption.
  Qed.

  Lemma soaCellCalls_ok n3 lists : (forall p, In p (map fst lists) -> In p all) ->
    (forall p q, In (p, q) (pairsOf lists) -> In q all) ->
    soaCellCalls pid n3 cells lists = Some (flat_map (listCalls n3) lists).
  Proof.
    intros Hk Hq.
    assert (E : exists soa, mapM (soaList pid cells) lists = Some soa /\
      mapM (fun '(i, ns) => match ns with [] => Some [] | _ :: _ => soaVerlet n3 all i ns end) soa = Some (map (listCalls n3) lists)).
    { induction lists as [|[p ns] r IH]; [exists []; split; reflexivity|].
      destruct IH as (soa & E1 & E2).
      { intros; apply Hk; now right. }
      { intros x y H. apply (Hq x y). apply in_app_iff. now right. }
      destruct (indexOf_gen all p Hids) as (i & Ei & Hi); [apply Hk; now left|].
      destruct (mapM_index ns) as (js & Ej & Hj).
      { intros q H. apply (Hq p q). apply in_app_iff. left. now apply in_map. }
      exists ((i, js) :: soa). cbn [mapM]. unfold soaList at 1. cbn [fst snd]. fold all. rewrite Ei, Ej, E1. split; [reflexivity|].
      rewrite E2. inversion Hj; subst; [reflexivity|]. erewrite soaVerlet_ok by (eauto; constructor; eauto). reflexivity. }
    destruct E as (soa & E1 & E2). unfold soaCellCalls. rewrite E1. fold all. rewrite E2. now rewrite flat_map_concat_map.
  Qed.

  Lemma cellListCalls_ok lay n3 lists : (forall p, In p (map fst lists) -> In p all) ->
    (forall p q, In (p, q) (pairsOf lists) -> In q all) ->
    cellListCalls pid lay n3 cells lists = Some (pushCalls n3 (pairsOf lists)).
  Proof.
    intros Hk Hq. rewrite <- listCalls_pairs. destruct lay; [reflexivity|]. now apply soaCellCalls_ok.
  Qed.

  (** ** SoA lists of VerletLists *)
  Lemma soaIndex_nth k p : nth_error all k = Some p -> soaIndex pid cells p = k.
  Proof. intros H. unfold soaIndex. fold all. now rewrite (indexOf_nth all k p Hids H). Qed.

  Lemma resizeTo_length {A} (d : A) n l : length (resizeTo d n l) = n.
  Proof. unfold resizeTo. rewrite app_length, firstn_length, repeat_length. lia. Qed.

  Lemma vlFillSoA_spec todo : forall done table, map fst (done ++ todo) = all ->
    length table = length all ->
    (forall k l, nth_error done k = Some l -> nth_error table k = Some (map (soaIndex pid cells) (snd l))) ->
    exists table', vlFillSoA pid cells todo table = Some table' /\ length table' = length all /\
      forall k l, nth_error (done ++ todo) k = Some l -> nth_error table' k = Some (map (soaIndex pid cells) (snd l)).
  Proof.
    induction todo as [|[p ns] r IH]; intros done table Hk Hlen Hd.
    - exists table. rewrite app_nil_r. auto.
    - cbn [vlFillSoA]. assert (Hp : nth_error all (length done) = Some p).
      { rewrite <- Hk, nth_error_map, nth_error_app2, Nat.sub_diag by lia. reflexivity. }
      rewrite (soaIndex_nth _ _ Hp).
      assert (Hlt : length done < length table) by (rewrite Hlen; apply nth_error_Some; congruence).
      destruct (nth_error table (length done)) as [old|] eqn:Eo; [|apply nth_error_None in Eo; lia].
      apply nth_error_split in Eo as (t1 & t2 & -> & Hl). rewrite (modifyAt_app (fun _ => Some (map (soaIndex pid cells) ns)) t1 old t2 _ _ Hl eq_refl).
      destruct (IH (done ++ [(p, ns)]) (t1 ++ map (soaIndex pid cells) ns :: t2)) as (t' & E & Hlen' & Ht').
      + now rewrite <- app_assoc.
      + rewrite <- Hlen, !app_length. reflexivity.
      + intros k l Hkl. destruct (Nat.lt_ge_cases k (length done)) as [L|L].
        * rewrite nth_error_app1 in Hkl by exact L. specialize (Hd k l Hkl). rewrite nth_error_app1 in * by lia. exact Hd.
        * rewrite nth_error_app2 in Hkl by exact L. destruct (k - length done) as [|m] eqn:Em; [|destruct m; discriminate].
          cbn in Hkl. injection Hkl as <-. rewrite nth_error_app2 by lia. replace (k - length t1) with 0 by lia. reflexivity.
      + exists t'. split; [exact E|]. split; [exact Hlen'|]. intros k l H. apply Ht'. now rewrite <- app_assoc.
  Qed.

  Lemma vl_soa lists table n3 order : map fst lists = all -> (forall p q, In (p, q) (pairsOf lists) -> In q all) ->
    Permutation order (seq 0 (length lists)) ->
    exists soa, vlSoALists pid cells lists table = Some soa /\
      vlTraverseSoA n3 cells soa order =
        Some (map (fun i => match nth_error lists i with Some l => listCalls n3 l | None => [] end) order).
  Proof.
    intros Hk Hq Ho. assert (Hn : length lists = length all) by (rewrite <- Hk; symmetry; apply map_length).
    destruct (vlFillSoA_spec lists [] (resizeTo [] (length lists) table)) as (soa & E & Hlen & Hs).
    - exact Hk.
    - now rewrite resizeTo_length.
    - intros [|k] l H; discriminate.
    - exists soa. split; [exact E|]. unfold vlTraverseSoA. apply mapM_some. intros i Hi.
      assert (Hi' : i < length lists). { eapply Permutation_in in Hi; [|exact Ho]. apply in_seq in Hi. lia. }
      destruct (nth_error lists i) as [l|] eqn:El; [|apply nth_error_None in El; lia].
      rewrite (Hs i l El). unfold listCalls. fold all.
      apply soaVerlet_ok.
      + rewrite <- Hk, nth_error_map, El. reflexivity.
      + assert (Hsub : forall q, In q (snd l) -> In q all).
        { intros q H. apply (Hq (fst l) q). apply in_flat_map. exists l. split; [eapply nth_error_In; eauto|]. now apply in_map. }
        clear -Hsub Hids. induction (snd l) as [|q ns IH]; constructor.
        * destruct (indexOf_gen all q Hids) as (k & E & H); [apply Hsub; now left|]. unfold soaIndex. fold all. now rewrite E.
        * apply IH. intros; apply Hsub; now right.
  Qed.
End Lists.

Lemma seq_nth_map {A B} (f : A -> list B) (l : list A) :
  flat_map (fun i => match nth_error l i with Some x => f x | None => [] end) (seq 0 (length l)) = flat_map f l.
Proof.
  enough (H : forall l1, flat_map (fun i => match nth_error (l1 ++ l) i with Some x => f x | None => [] end) (seq (length l1) (length l)) = flat_map f l)
    by exact (H []).
  induction l as [|x l IH]; intros l1; [reflexivity|]. cbn [length seq flat_map].
  rewrite nth_error_app2, Nat.sub_diag by lia. cbn [nth_error]. f_equal.
  specialize (IH (l1 ++ [x])). rewrite <- app_assoc in IH. cbn [app] in IH. rewrite app_length in IH. cbn [length] in IH.
  rewrite Nat.add_1_r in IH. exact IH.
Qed.
