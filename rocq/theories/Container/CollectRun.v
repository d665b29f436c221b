(** Every interleaving of the threads collects the same particles. *)
From Coq Require Import Reals Lra.
From Verif.Base Require Import ZRange Lists Occ.
From Verif.Grid Require Import IndexModel CellBlockSpec.
From Verif.Functor Require Import SortModel.
From Verif.Container Require Import IteratorModel IteratorContainers IteratorSpec IteratorLemmas IteratorInstances IteratorRegion
  ParticleModel CollectModel CollectSpec.
Import ListNotations.
Open Scope nat_scope.

Section Run.
  Variables bMin bMax : R3.
  Definition at2 (cells : list (list Particle)) (a : nat * nat) : option Particle := nth_error (nth (fst a) cells []) (snd a).

  (** What happens to one particle if the volumes [w] come to it in this order. *)
  Fixpoint visitAll (w : list (R3 * R3)) (p : Particle) : Particle * list Particle :=
    match w with
    | [] => (p, [])
    | v :: r => let '(p1, o1) := collectVisit bMin bMax v p in let '(p2, o2) := visitAll r p1 in (p2, o1 ++ o2)
    end.

  Definition eqPos (a b : nat * nat) : bool := (fst a =? fst b) && (snd a =? snd b).
  Lemma eqPos_spec a b : eqPos a b = true <-> a = b.
  Proof. destruct a, b. unfold eqPos. cbn. rewrite andb_true_iff, !Nat.eqb_eq. split; [intros [-> ->]; reflexivity|intros H; injection H; auto]. Qed.
  Definition visitsAt (a : nat * nat) (vs : list Visit) : list (R3 * R3) := map fst (filter (fun v => eqPos (snd v) a) vs).

  Lemma setAt_out {A} (l : list A) i x : length l <= i -> setAt l i x = l.
  Proof. revert i. induction l as [|y l IH]; intros [|i] H; cbn in *; try reflexivity; try lia. f_equal. apply IH. lia. Qed.

  Lemma nth_setAt {A} (l : list (list A)) i j x : nth j (setAt l i x) [] = if (i =? j) && (i <? length l) then x else nth j l [].
  Proof.
    revert i j. induction l as [|y l IH]; intros [|i] [|j]; cbn [setAt nth length]; try reflexivity.
    - destruct (Nat.eqb_spec (S i) (S j)); reflexivity.
    - rewrite IH. change (S i =? S j) with (i =? j). destruct (i =? j); [|reflexivity]. cbn [andb].
      destruct (Nat.ltb_spec i (length l)), (Nat.ltb_spec (S i) (S (length l))); try reflexivity; lia.
  Qed.

  Lemma at2_inside cells c j p : at2 cells (c, j) = Some p -> c < length cells /\ j < length (nth c cells []).
  Proof.
    unfold at2. cbn [fst snd]. intros H. assert (L : j < length (nth c cells [])) by (apply nth_error_Some; congruence).
    split; [|exact L]. destruct (Nat.lt_ge_cases c (length cells)) as [K|K]; [exact K|]. rewrite nth_overflow in L by lia. cbn in L. lia.
  Qed.

  Lemma at2_set cells c j p q a : at2 cells (c, j) = Some p ->
    at2 (setAt cells c (setAt (nth c cells []) j q)) a = if eqPos (c, j) a then Some q else at2 cells a.
  Proof.
    intros H. destruct (at2_inside _ _ _ _ H) as (C & J). destruct a as (c', j'). unfold at2, eqPos. cbn [fst snd].
    rewrite nth_setAt. rewrite (proj2 (Nat.ltb_lt c (length cells)) C), andb_true_r.
    destruct (Nat.eqb_spec c c') as [<-|N]; cbn [andb]; [|reflexivity].
    destruct (Nat.eqb_spec j j') as [<-|N]; [apply setAt_same; exact J|apply setAt_other; exact N].
  Qed.

  Lemma step_shape st v : length (fst (collectStep bMin bMax st v)) = length (fst st) /\
    forall c, length (nth c (fst (collectStep bMin bMax st v)) []) = length (nth c (fst st) []).
  Proof.
    destruct v as (vol, (c, j)), st as (cells, out). unfold collectStep. cbn [fst snd].
    destruct (nth_error (nth c cells []) j) as [p|] eqn:E; [|split; reflexivity].
    destruct (collectVisit bMin bMax vol p) as (p', o). cbn [fst]. split; [apply setAt_length|].
    intros c'. rewrite nth_setAt. destruct (Nat.eqb_spec c c') as [<-|]; cbn [andb]; [|reflexivity].
    destruct (c <? length cells); [apply setAt_length|reflexivity].
  Qed.

  Lemma run_cells vs : forall st a,
    length (fst (fold_left (collectStep bMin bMax) vs st)) = length (fst st) /\
    (forall c, length (nth c (fst (fold_left (collectStep bMin bMax) vs st)) []) = length (nth c (fst st) [])) /\
    at2 (fst (fold_left (collectStep bMin bMax) vs st)) a = option_map (fun p => fst (visitAll (visitsAt a vs) p)) (at2 (fst st) a).
  Proof.
    induction vs as [|v vs IH]; intros st a; cbn [fold_left].
    { split; [reflexivity|]. split; [reflexivity|]. cbn. destruct (at2 (fst st) a); reflexivity. }
    destruct (IH (collectStep bMin bMax st v) a) as (L1 & L2 & A). destruct (step_shape st v) as (S1 & S2).
    split; [congruence|]. split; [intros c; rewrite L2; apply S2|]. rewrite A. clear - A.
    destruct v as (vol, (c, j)), st as (cells, out). unfold visitsAt. cbn [filter map snd fst]. unfold collectStep. cbn [fst snd].
    destruct (nth_error (nth c cells []) j) as [p|] eqn:E.
    - destruct (collectVisit bMin bMax vol p) as (p', o) eqn:V. cbn [fst]. change (at2 cells (c, j) = Some p) in E.
      rewrite (at2_set _ _ _ _ p' a E). destruct (eqPos (c, j) a) eqn:Q.
      + apply eqPos_spec in Q. subst a. rewrite E. cbn [option_map map fst visitAll]. rewrite V.
        destruct (visitAll (map fst (filter (fun v => eqPos (snd v) (c, j)) vs)) p') eqn:W. reflexivity.
      + reflexivity.
    - cbn [fst]. destruct (eqPos (c, j) a) eqn:Q; [|reflexivity]. apply eqPos_spec in Q. subst a.
      change (at2 cells (c, j) = None) in E. rewrite E. reflexivity.
  Qed.

  Lemma flat_map_ext_in {A B} (f g : A -> list B) l : (forall x, In x l -> f x = g x) -> flat_map f l = flat_map g l.
  Proof. induction l as [|a l IH]; intros H; [reflexivity|]. cbn. rewrite (H a (or_introl eq_refl)), IH; [reflexivity|]. intros; apply H; right; assumption. Qed.

  Lemma flat_map_change {A B} (f f' : A -> list B) (l : list A) a x : NoDup l -> In a l ->
    (forall b, b <> a -> f' b = f b) -> f' a = x ++ f a -> Permutation (flat_map f' l) (x ++ flat_map f l).
  Proof.
    induction l as [|b l IH]; intros N I E X; [destruct I|]. inversion N as [|? ? N1 N2]; subst. cbn [flat_map].
    destruct I as [->|I].
    - rewrite X. rewrite (flat_map_ext_in f' f l); [rewrite <- app_assoc; reflexivity|]. intros y Hy. apply E. intros ->. contradiction.
    - rewrite (E b) by (intros ->; contradiction). rewrite (IH N2 I E X). rewrite !app_assoc. apply Permutation_app_tail, Permutation_app_comm.
  Qed.

  Definition positions (cells : list (list Particle)) : list (nat * nat) :=
    flat_map (fun c => map (pair c) (seq 0 (length (nth c cells [])))) (seq 0 (length cells)).

  Lemma in_positions cells c j : In (c, j) (positions cells) <-> c < length cells /\ j < length (nth c cells []).
  Proof.
    unfold positions. rewrite in_flat_map. split.
    - intros (c' & H & K). apply in_seq in H. apply in_map_iff in K as (j' & E & K). injection E as -> ->. apply in_seq in K. lia.
    - intros (H & K). exists c. split; [apply in_seq; lia|]. apply in_map_iff. exists j. split; [reflexivity|apply in_seq; lia].
  Qed.

  Lemma positions_NoDup cells : NoDup (positions cells).
  Proof.
    apply NoDup_flat_map; [apply seq_NoDup| |].
    - intros c _. apply NoDup_map_inj; [|apply seq_NoDup]. intros x y _ _ E. injection E. auto.
    - intros c c' (a, b) _ _ H1 H2. apply in_map_iff in H1 as (? & E1 & _), H2 as (? & E2 & _). injection E1 as -> _. injection E2 as -> _. reflexivity.
  Qed.

  Lemma positions_shape cells cells' : length cells' = length cells -> (forall c, length (nth c cells' []) = length (nth c cells [])) ->
    positions cells' = positions cells.
  Proof. intros L H. unfold positions. rewrite L. apply flat_map_ext_in. intros c _. rewrite H. reflexivity. Qed.

  Definition outAt (cells : list (list Particle)) (vs : list Visit) (a : nat * nat) : list Particle :=
    match at2 cells a with Some p => snd (visitAll (visitsAt a vs) p) | None => [] end.

  Lemma run_out vs : forall st,
    Permutation (snd (fold_left (collectStep bMin bMax) vs st)) (snd st ++ flat_map (outAt (fst st) vs) (positions (fst st))).
  Proof.
    induction vs as [|v vs IH]; intros st; cbn [fold_left].
    { rewrite (flat_map_ext_in _ (fun _ => [])).
      - clear. induction (positions (fst st)) as [|a l IH]; cbn; [rewrite app_nil_r; reflexivity|exact IH].
      - intros a _. unfold outAt. destruct (at2 _ _); reflexivity. }
    rewrite IH. clear IH. destruct (step_shape st v) as (S1 & S2). rewrite (positions_shape _ _ S1 S2).
    destruct v as (vol, (c, j)), st as (cells, out). unfold collectStep. cbn [fst snd].
    destruct (nth_error (nth c cells []) j) as [p|] eqn:E.
    - destruct (collectVisit bMin bMax vol p) as (p', o) eqn:V. cbn [fst snd]. change (at2 cells (c, j) = Some p) in E.
      rewrite <- app_assoc. apply Permutation_app_head. symmetry.
      apply flat_map_change with (a := (c, j)).
      + apply positions_NoDup.
      + apply in_positions. apply (at2_inside _ _ _ _ E).
      + intros b N. unfold outAt. rewrite (at2_set _ _ _ _ p' b E). unfold visitsAt. cbn [filter snd].
        destruct (eqPos (c, j) b) eqn:Q; [apply eqPos_spec in Q; congruence|]. reflexivity.
      + unfold outAt. rewrite (at2_set _ _ _ _ p' (c, j) E), E. assert (Q : eqPos (c, j) (c, j) = true) by (apply eqPos_spec; reflexivity).
        rewrite Q. unfold visitsAt. cbn [filter snd]. rewrite Q. cbn [map fst visitAll]. rewrite V.
        destruct (visitAll (map fst (filter (fun v => eqPos (snd v) (c, j)) vs)) p'). reflexivity.
    - cbn [fst snd]. apply Permutation_app_head. rewrite (flat_map_ext_in (outAt cells vs) (outAt cells ((vol, (c, j)) :: vs))); [reflexivity|].
      intros a Ha. unfold outAt, visitsAt. cbn [filter snd]. destruct (eqPos (c, j) a) eqn:Q; [|reflexivity].
      apply eqPos_spec in Q. subst a. change (at2 cells (c, j) = None) in E. rewrite E. reflexivity.
  Qed.

  (** Visiting again changes nothing. *)
  Definition touches (w : list (R3 * R3)) (p : Particle) : bool := existsb (fun v => inBoxb (fst v) (snd v) (ppos p)) w.
  Definition alive (p : Particle) : bool := fulfills bhOwnedOrHalo true (pown p).

  Lemma visitAll_once w : forall p, visitAll w p = if touches w p && alive p then collectBody bMin bMax p else (p, []).
  Proof.
    induction w as [|v w IH]; intros p; cbn [visitAll]; [reflexivity|].
    unfold collectVisit at 1. unfold touches. cbn [existsb]. fold (touches w p).
    assert (F : fulfills bhOwnedOrHalo (inBoxb (fst v) (snd v) (ppos p)) (pown p) = inBoxb (fst v) (snd v) (ppos p) && alive p).
    { unfold alive. destruct (inBoxb _ _ _); reflexivity. }
    rewrite F. destruct (inBoxb (fst v) (snd v) (ppos p)) eqn:I; cbn [andb orb].
    - destruct (alive p) eqn:A; [|rewrite IH, A, andb_false_r; reflexivity].
      unfold collectBody. destruct (isHaloP p) eqn:H.
      + rewrite IH. unfold touches. cbn [ppos withOwn]. fold (touches w p). change (alive (withOwn stDummy p)) with false. rewrite andb_false_r. reflexivity.
      + destruct (inBoxb bMin bMax (ppos p)) eqn:B; cbn [negb].
        * rewrite IH, A, andb_true_r. unfold collectBody. rewrite H, B. cbn [negb]. destruct (touches w p); reflexivity.
        * rewrite IH. change (alive (withOwn stDummy p)) with false. rewrite andb_false_r. reflexivity.
    - rewrite IH. destruct (touches w p && alive p); [destruct (collectBody bMin bMax p)|]; reflexivity.
  Qed.

  Variable vols : list (R3 * R3).
  Variable cellsOf : R3 * R3 -> list nat.

  (** Whether some region iterator comes to a particle of cell [c]. *)
  Definition reached (c : nat) (p : Particle) : bool :=
    existsb (fun v => existsb (Nat.eqb c) (cellsOf v) && inBoxb (fst v) (snd v) (ppos p)) vols.
  Definition collected (c : nat) (p : Particle) : Particle * list Particle :=
    if reached c p && alive p then collectBody bMin bMax p else (p, []).

  Lemma list_eq_nth_error {A} (l l' : list A) : (forall i, nth_error l i = nth_error l' i) -> l = l'.
  Proof.
    revert l'. induction l as [|a l IH]; intros [|b l'] H; try reflexivity; try (specialize (H 0); discriminate H).
    f_equal; [specialize (H 0); cbn in H; congruence|]. apply IH. intros i. apply (H (S i)).
  Qed.

  Lemma flat_map_nth_error {A B} (f : A -> list B) l :
    flat_map (fun j => match nth_error l j with Some p => f p | None => [] end) (seq 0 (length l)) = flat_map f l.
  Proof.
    induction l as [|a l IH]; [reflexivity|]. cbn [length seq flat_map nth_error]. f_equal. rewrite <- IH, <- seq_shift.
    rewrite (flat_map_concat_map _ (map S _)), map_map, <- flat_map_concat_map. reflexivity.
  Qed.

  Theorem collect_any_order cells visits : Permutation visits (regionVisits vols cellsOf cells) ->
    exists out, collectRun bMin bMax visits cells =
      (map (fun c => map (fun p => fst (collected c p)) (nth c cells [])) (seq 0 (length cells)), out) /\
    Permutation out (flat_map (fun c => flat_map (fun p => snd (collected c p)) (nth c cells [])) (seq 0 (length cells))).
  Proof.
    intros HP. unfold collectRun. set (st := (cells, [] : list Particle)).
    assert (V : forall c j p, at2 cells (c, j) = Some p -> visitAll (visitsAt (c, j) visits) p = collected c p).
    { intros c j p E. rewrite visitAll_once. unfold collected. cut (touches (visitsAt (c, j) visits) p = reached c p); [intros ->; reflexivity|]. apply Bool.eq_true_iff_eq. destruct (at2_inside _ _ _ _ E) as (C & J).
      unfold touches, reached. rewrite !existsb_exists. split.
      - intros (v & Hv & B). unfold visitsAt in Hv. apply in_map_iff in Hv as ((v', a) & Ev & Hf). cbn in Ev. subst v'.
        apply filter_In in Hf as (Hf & Q). apply eqPos_spec in Q. cbn in Q. subst a.
        apply (Permutation_in _ HP) in Hf. unfold regionVisits in Hf. apply in_flat_map in Hf as (v' & K1 & K2).
        apply in_flat_map in K2 as (c' & K2 & K3). apply in_map_iff in K3 as (j' & K3 & _). injection K3 as -> -> ->.
        exists v. split; [exact K1|]. rewrite andb_true_iff. split; [|exact B]. apply existsb_exists. exists c. split; [exact K2|apply Nat.eqb_refl].
      - intros (v & Hv & B). apply andb_prop in B as (B1 & B2). apply existsb_exists in B1 as (c' & K & Q). apply Nat.eqb_eq in Q. subst c'.
        exists v. split; [|exact B2]. unfold visitsAt. apply in_map_iff. exists (v, (c, j)). split; [reflexivity|]. apply filter_In.
        split; [|apply eqPos_spec; reflexivity]. apply (Permutation_in _ (Permutation_sym HP)). unfold regionVisits.
        apply in_flat_map. exists v. split; [exact Hv|]. apply in_flat_map. exists c. split; [exact K|]. apply in_map_iff. exists j.
        split; [reflexivity|apply in_seq; lia]. }
    destruct (fold_left (collectStep bMin bMax) visits st) as (cells', out) eqn:Ef. exists out.
    assert (A := run_cells visits st). rewrite Ef in A. cbn [fst] in A. destruct (A (0, 0)) as (L1 & L2 & _).
    assert (O := run_out visits st). rewrite Ef in O. cbn [snd fst st app] in O.
    split.
    - f_equal. apply list_eq_nth_error. intros c. unfold st in L1, L2. cbn [fst] in L1, L2.
      destruct (Nat.lt_ge_cases c (length cells)) as [K|K].
      + rewrite (nth_error_nth' cells' []) by lia. rewrite nth_error_map, (nth_error_nth' (seq 0 (length cells)) 0) by (rewrite seq_length; exact K).
        rewrite seq_nth by exact K. cbn [option_map Nat.add]. f_equal. apply list_eq_nth_error. intros j.
        destruct (A (c, j)) as (_ & _ & A2). unfold st in A2. cbn [fst] in A2. unfold at2 in A2 at 1. cbn [fst snd] in A2. rewrite A2.
        rewrite nth_error_map. unfold at2. cbn [fst snd]. destruct (nth_error (nth c cells []) j) as [p|] eqn:E; [|reflexivity].
        cbn [option_map]. rewrite (V c j p E). reflexivity.
      + rewrite (proj2 (nth_error_None cells' c)) by lia. symmetry. apply nth_error_None. rewrite map_length, seq_length. exact K.
    - rewrite O. unfold positions. rewrite flat_map_concat_map at 1.
      assert (G : forall l, flat_map (outAt cells visits) (flat_map (fun c => map (pair c) (seq 0 (length (nth c cells [])))) l) =
                            flat_map (fun c => flat_map (fun p => snd (collected c p)) (nth c cells [])) l).
      { induction l as [|c l IH]; [reflexivity|]. cbn [flat_map]. rewrite flat_map_app, IH. f_equal.
        rewrite <- (flat_map_nth_error _ (nth c cells [])).
        rewrite (flat_map_concat_map _ (map (pair c) _)), map_map, <- flat_map_concat_map. apply flat_map_ext_in. intros j _.
        unfold outAt. change (at2 cells (c, j)) with (nth_error (nth c cells []) j).
        destruct (nth_error (nth c cells []) j) as [p|] eqn:E; [|reflexivity]. rewrite (V c j p E). reflexivity. }
      rewrite <- flat_map_concat_map. rewrite G. reflexivity.
  Qed.
End Run.
