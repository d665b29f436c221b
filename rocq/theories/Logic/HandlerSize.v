(** How many particles, dummies included, are stored after a history: at most one for
    every particle that was added. *)
From Coq Require Import Reals.
From Verif.Base Require Import ZRange Lists OptionM.
From Verif.Grid Require Import IndexModel IndexSpec CellBlockModel CellBlockSpec.
From Verif.Functor Require Import SortModel.
From Verif.Container Require Import IteratorModel IteratorLemmas IteratorContainers ParticleModel CollectModel CollectRun UpdateModel UpdateProofs.
From Verif.Logic Require Import BalanceModel BalanceProofs HandlerModel HandlerSpec HandlerCont.
Import ListNotations.
Local Open Scope nat_scope.

Definition len (vs : list (list Particle)) : nat := length (concat vs).

Lemma len_cons v vs : len (v :: vs) = length v + len vs.
Proof. unfold len. cbn [concat]. apply app_length. Qed.
Lemma len_setAt vs i x : length x <= length (nth i vs []) -> len (setAt vs i x) <= len vs.
Proof.
  revert i. induction vs as [|v r IH]; intros [|i] H; cbn [setAt nth] in *; rewrite ?len_cons; [lia| |lia|].
  - lia.
  - specialize (IH i H). lia.
Qed.
Lemma len_pushAt vs i p vs' : pushAt vs i p = Some vs' -> len vs' = S (len vs).
Proof. intros H. apply pushAt_inv in H as (_ & P & _). unfold len. rewrite (Permutation_length P). reflexivity. Qed.
Lemma len_clear (vs : list (list Particle)) : len (map (fun _ => []) vs) = 0.
Proof. induction vs; [reflexivity|]. cbn [map]. rewrite len_cons. exact IHvs. Qed.
Lemma len_map (f : Particle -> Particle) vs : len (map (map f) vs) = len vs.
Proof. induction vs; [reflexivity|]. cbn [map]. rewrite !len_cons, map_length, IHvs. reflexivity. Qed.
Lemma length_removelast {A} (l : list A) : length (removelast l) <= length l.
Proof. induction l as [|a [|b r] IH]; cbn in *; lia. Qed.
Lemma length_swapDelete (l : list Particle) i : length (swapDelete l i) <= length l.
Proof.
  unfold swapDelete. destruct (rev l) as [|b t]; [lia|].
  eapply Nat.le_trans; [apply length_removelast|]. rewrite setAt_length. lia.
Qed.
Lemma length_filter {A} (f : A -> bool) l : length (filter f l) <= length l.
Proof. induction l as [|a r IH]; cbn; [lia|]. destruct (f a); cbn; lia. Qed.

Lemma len_clearAt (vs : list (list Particle)) i vs' : clearAt vs i = Some vs' -> len vs' <= len vs.
Proof.
  revert i vs'. induction vs as [|v r IH]; intros [|i] vs' H; cbn [clearAt] in H; try discriminate.
  - injection H as <-. rewrite !len_cons. cbn. lia.
  - destruct (clearAt r i) as [r'|] eqn:E; [|discriminate]. injection H as <-. rewrite !len_cons. specialize (IH _ _ E). lia.
Qed.
Lemma len_clearAll is : forall (vs vs' : list (list Particle)), clearAll vs is = Some vs' -> len vs' <= len vs.
Proof.
  induction is as [|i r IH]; intros vs vs' H; cbn [clearAll] in H; [injection H as <-; lia|].
  destruct (Z.ltb i 0); [discriminate|]. destruct (clearAt vs _) as [c|] eqn:E; [|discriminate].
  apply len_clearAt in E. apply IH in H. lia.
Qed.

Lemma len_sweepCell f l l' out : sweepCell f l = Some (l', out) -> length l' + length out = length l.
Proof.
  intros H. destruct (sweepCell_spec f l) as (a & b & E & P & _). rewrite H in E. injection E as <- <-.
  apply Permutation_length in P. rewrite app_length in P. lia.
Qed.
Lemma len_lcSweep rnd b : forall vs i vs' out, lcSweep rnd b i vs = Some (vs', out) -> len vs' + length out <= len vs.
Proof.
  induction vs as [|c r IH]; intros i vs' out H; cbn [lcSweep] in H; [injection H as <- <-; cbn; lia|].
  destruct (getCellBoundingBox _ _ _) as (lo, hi). destruct (sweepCell _ _) as [[c' o]|] eqn:E; [|discriminate].
  destruct (lcSweep rnd b _ r) as [[r' o']|] eqn:E2; [|discriminate]. injection H as <- <-.
  apply len_sweepCell in E. apply IH in E2. rewrite !len_cons, app_length.
  assert (L := length_filter (fun p => negb (isDummy p)) c). unfold deleteDummies in E. lia.
Qed.
Lemma len_lcInsert rnd b vs p vs' : lcInsert rnd b vs p = Some vs' -> len vs' = S (len vs).
Proof.
  unfold lcInsert. intros H. destruct (get1DIndexOfPosition _ _ _) as [i|]; [|discriminate]. destruct (_ || _)%bool; [discriminate|].
  apply len_pushAt in H. exact H.
Qed.
Lemma len_lcReinsert rnd b lo hi : forall inv vs vs' out, lcReinsert rnd b lo hi vs inv = Some (vs', out) -> len vs' <= len vs + length inv.
Proof.
  induction inv as [|p r IH]; intros vs vs' out H; cbn [lcReinsert] in H; [injection H as <- <-; cbn; lia|]. cbn [length].
  destruct (inBoxb _ _ _).
  - destruct (lcInsert _ _ _ _) as [cs|] eqn:E; [|discriminate]. apply len_lcInsert in E. apply IH in H. lia.
  - destruct (lcReinsert _ _ _ _ _ _) as [[cs o]|] eqn:E; [|discriminate]. injection H as <- <-. apply IH in E. lia.
Qed.
Lemma len_dsUpdate lo hi vs vs' out : dsUpdate lo hi vs = Some (vs', out) -> len vs' <= len vs.
Proof.
  unfold dsUpdate. destruct vs as [|c r]; [discriminate|]. destruct (sweepCell _ _) as [[c' o]|] eqn:E; [|discriminate]. intros H. injection H as <- <-.
  apply len_sweepCell in E. rewrite !len_cons, len_clear. assert (L := length_filter (fun p => negb (isDummy p)) c). unfold deleteDummies in E. lia.
Qed.
Lemma len_collectRun lo hi vis vs : len (fst (collectRun lo hi vis vs)) <= len vs.
Proof.
  unfold collectRun. change vs with (fst (vs, @nil Particle)) at 2. generalize (vs, @nil Particle) as st. induction vis as [|v r IH]; intros st; [apply Nat.le_refl|]. cbn [fold_left].
  eapply Nat.le_trans; [apply IH|]. destruct v as (vol, (c, j)), st as (cells, out). unfold collectStep. cbn [fst snd].
  destruct (nth_error _ _) as [p|]; [|apply Nat.le_refl]. destruct (collectVisit _ _ _ _) as (p', o). cbn [fst]. apply len_setAt. rewrite setAt_length. lia.
Qed.
Lemma len_updateCell same p : forall c c', updateCell same p c = Some c' -> length c' = length c.
Proof.
  induction c as [|q r IH]; intros c' H; cbn [updateCell] in H; [discriminate|]. destruct (_ && _)%bool; [injection H as <-; reflexivity|].
  destruct (updateCell same p r) as [r'|]; [|discriminate]. injection H as <-. cbn. f_equal. apply IH. reflexivity.
Qed.
Lemma len_updateCells same p : forall is vs vs' u, updateCells same p is vs = Some (vs', u) -> len vs' <= len vs.
Proof.
  induction is as [|i r IH]; intros vs vs' u H; cbn [updateCells] in H; [injection H as <- _; lia|].
  destruct (at_ vs i) as [c|] eqn:E; [|discriminate]. destruct (updateCell same p c) as [c'|] eqn:U; [|eapply IH; exact H].
  injection H as <- _. apply len_setAt. rewrite (len_updateCell _ _ _ _ U).
  assert (nth (Z.to_nat i) vs [] = c) as ->; [|lia]. unfold at_ in E. destruct (Z.ltb i 0); [discriminate|]. apply nth_error_nth. exact E.
Qed.

Section Size.
  Variables (cutoff spt : R) (freq : Z).
  Notation size_ s := (length (stored s)).
  Lemma size_eq s : size_ s = len (ccells (cont s)) + len (bufs s) + len (halos s).
  Proof. unfold stored, len. rewrite !app_length. lia. Qed.

  Lemma len_addOwned lo hi c p c' : addOwned cutoff spt freq lo hi c p = Some c' -> len (ccells c') = S (len (ccells c)).
  Proof.
    unfold addOwned. intros H. destruct (kind c); [destruct (pushAt _ _ _) eqn:E in H|destruct (lcInsert _ _ _ _) eqn:E in H]; cbn in H; try discriminate; injection H as <-; cbn [ccells];
      [apply len_pushAt in E|apply len_lcInsert in E]; exact E.
  Qed.
  Lemma len_addHaloC lo hi c p c' : addHaloC cutoff spt freq lo hi c p = Some c' -> len (ccells c') <= S (len (ccells c)).
  Proof.
    unfold addHaloC. intros H. destruct (kind c).
    - destruct (dsHaloCell _ _ _); [|injection H as <-; lia]. destruct (pushAt _ _ _) eqn:E in H; cbn in H; try discriminate; injection H as <-; cbn [ccells]. apply len_pushAt in E. lia.
    - destruct (lcInsert _ _ _ _) eqn:E in H; cbn in H; try discriminate; injection H as <-; cbn [ccells]. apply len_lcInsert in E. lia.
  Qed.
  Lemma len_updateHaloC lo hi c p c' u : updateHaloC cutoff spt freq lo hi c p = Some (c', u) -> len (ccells c') <= len (ccells c).
  Proof.
    unfold updateHaloC. intros H. destruct (kind c).
    - destruct (updateCells _ _ _ _) as [[cs v]|] eqn:E; [|discriminate]. injection H as <- _. apply len_updateCells in E. exact E.
    - destruct (nearbyHaloCells _ _ _); [|discriminate]. destruct (updateCells _ _ _ _) as [[cs v]|] eqn:E; [|discriminate]. injection H as <- _. apply len_updateCells in E. exact E.
  Qed.

  Lemma len_bufferInsert lo hi : forall l c c' out, bufferInsert cutoff spt freq lo hi c l = Some (c', out) -> len (ccells c') <= len (ccells c) + length l.
  Proof.
    induction l as [|p r IH]; intros c c' out H; cbn [bufferInsert length] in *; [injection H as <- _; lia|].
    destruct (isDummy p); [apply IH in H; lia|]. destruct (inBoxb _ _ _).
    - destruct (addOwned _ _ _ _ _ _ _) as [c1|] eqn:E; [|discriminate]. apply len_addOwned in E. apply IH in H. lia.
    - destruct (bufferInsert _ _ _ _ _ c r) as [[c1 o]|] eqn:E; [|discriminate]. injection H as <- _. apply IH in E. lia.
  Qed.
  Lemma len_bufferSweep lo hi : forall fuel l i out l' out', bufferSweep fuel lo hi l i out = Some (l', out') -> length l' <= length l.
  Proof.
    induction fuel as [|f IH]; intros l i out l' out' H; cbn [bufferSweep] in H; [discriminate|].
    destruct (i <? length l); [|injection H as <- _; lia]. destruct (nth_error l i) as [p|]; [|discriminate].
    assert (L := length_swapDelete l i). destruct (isDummy p); [apply IH in H; lia|]. destruct (negb _); apply IH in H; lia.
  Qed.
  Lemma len_buffersSweep lo hi : forall bs bs' out, buffersSweep lo hi bs = Some (bs', out) -> len bs' <= len bs.
  Proof.
    induction bs as [|l r IH]; intros bs' out H; cbn [buffersSweep] in H; [injection H as <- _; lia|].
    destruct (bufferSweep _ _ _ _ _ _) as [[l' o]|] eqn:E; [|discriminate]. destruct (buffersSweep lo hi r) as [[r' o']|]; [|discriminate].
    injection H as <- _. apply len_bufferSweep in E. specialize (IH _ _ eq_refl). rewrite !len_cons. lia.
  Qed.
  Lemma len_collectBuffers ins lo hi c bs c' bs' out : collectBuffers cutoff spt freq ins lo hi c bs = Some (c', bs', out) -> len (ccells c') + len bs' <= len (ccells c) + len bs.
  Proof.
    unfold collectBuffers. intros H. destruct ins.
    - destruct (bufferInsert _ _ _ _ _ _ _) as [[c1 o]|] eqn:E; [|discriminate]. injection H as <- <- _. apply len_bufferInsert in E. rewrite len_clear. unfold len at 3. lia.
    - destruct (buffersSweep _ _ _) as [[b o]|] eqn:E; [|discriminate]. injection H as <- <- _. apply len_buffersSweep in E. lia.
  Qed.
  Lemma len_contUpdate keep margin lo hi c c' out : contUpdate cutoff spt freq keep margin lo hi c (Some (c', out)) -> len (ccells c') <= len (ccells c).
  Proof.
    unfold contUpdate. intros H. destruct (kind c).
    - destruct keep.
      + destruct H as (vis & _ & H). assert (L := len_collectRun lo hi vis (ccells c)). destruct (collectRun _ _ _ _) as (cs, o). injection H as -> _. exact L.
      + destruct (dsUpdate _ _ _) as [[cs o]|] eqn:E; [|discriminate]. injection H as -> _. apply len_dsUpdate in E. exact E.
    - destruct keep.
      + destruct H as [(_ & vis & _ & H)|(_ & H)]; [|discriminate]. assert (L := len_collectRun lo hi vis (ccells c)). destruct (collectRun _ _ _ _) as (cs, o). injection H as -> _. exact L.
      + destruct (lcUpdateSweep _ _ _) as [[c1 mv]|] eqn:E; [|discriminate]. destruct H as (order & P & H).
        destruct (lcReinsert _ _ _ _ _ _) as [[cs o]|] eqn:E2; [|discriminate]. injection H as -> _. apply len_lcReinsert in E2. rewrite (Permutation_length P) in E2.
        unfold lcUpdateSweep in E. destruct (clearHaloCells _ _) as [c2|] eqn:E3; [|discriminate]. apply len_clearAll in E3. apply len_lcSweep in E. cbn [ccells]. lia.
  Qed.
  Lemma len_copyInto lo hi : forall l c c', copyInto cutoff spt freq lo hi c l = Some c' -> len (ccells c') <= len (ccells c) + length l.
  Proof.
    induction l as [|p r IH]; intros c c' H; cbn [copyInto length] in *; [injection H as <-; lia|].
    destruct (if isOwned p then _ else _) as [c1|] eqn:N in H; [|discriminate]. apply IH in H.
    enough (len (ccells c1) <= S (len (ccells c))) by lia.
    destruct (isOwned p), (inBoxb _ _ _); try discriminate; [apply len_addOwned in N; lia|apply len_addHaloC in N; exact N].
  Qed.
  Lemma len_empty k lo hi : len (emptyCells cutoff spt freq k lo hi) = 0.
  Proof.
    assert (R : forall j, len (repeat (@nil Particle) j) = 0) by (induction j as [|j IHj]; [reflexivity|exact IHj]).
    unfold emptyCells. destruct k; apply R.
  Qed.
  Lemma len_generate k lo hi old c : generate cutoff spt freq k lo hi old = Some c -> len (ccells c) <= len old.
  Proof.
    unfold generate. intros H. apply len_copyInto in H. cbn [ccells] in H. rewrite len_empty in H.
    assert (L := length_filter (fun p => negb (isDummy p)) (concat old)). unfold len at 2. lia.
  Qed.
  Lemma size_select : forall ks s s', select cutoff spt freq s ks = Some s' -> size_ s' <= size_ s.
  Proof.
    induction ks as [|k r IH]; intros s s' H; cbn [select] in H; [injection H as <-; lia|].
    destruct (sameKind _ _); [apply IH, H|]. destruct (generate _ _ _ _ _ _ _) as [c|] eqn:G; [|discriminate].
    apply IH in H. apply len_generate in G. rewrite (size_eq s). rewrite size_eq in H at 1. cbn [cont bufs halos] in H. rewrite size_eq in H. cbn [cont bufs halos] in H. rewrite size_eq. lia.
  Qed.
  Lemma len_balance vs vs' : balanceVectors 1 vs = Some vs' -> len vs' = len vs.
  Proof. intros H. destruct (balance_correct vs 1 (le_n 1)) as (r & E & P & _). rewrite H in E. injection E as <-. apply Permutation_length in P. unfold len. congruence. Qed.

  Definition added1 (e : Event) : nat := match e with AddParticle _ _ | AddHalo _ _ => 1 | _ => 0 end.
  Lemma size_step s e s' out : step cutoff spt freq s e (Some (s', out)) -> size_ s' <= size_ s + added1 e.
  Proof.
    rewrite !size_eq. destruct e as [p t|p t|p l| |f|tr|pw ks|lo hi]; cbn [step added1]; intros H.
    - unfold doAdd in H. destruct (negb _); [discriminate|]. destruct (valid s).
      + destruct (pushAt _ _ _) as [b|] eqn:E; [|discriminate]. injection H as -> _. apply len_pushAt in E. unfold withCont, withBufs, withCounts. cbn [cont bufs halos ccells]. lia.
      + destruct (addOwned _ _ _ _ _ _ _) as [c|] eqn:E; [|discriminate]. injection H as -> _. apply len_addOwned in E. unfold withCont, withBufs, withCounts. cbn [cont bufs halos ccells]. lia.
    - unfold doAddHalo in H. destruct (inBoxb _ _ _); [discriminate|]. destruct (valid s).
      + destruct (updateHaloC _ _ _ _ _ _ _) as [[c [|]]|] eqn:E; [| |discriminate].
        * injection H as -> _. apply len_updateHaloC in E. unfold withCont, withBufs, withCounts. cbn [cont bufs halos ccells]. lia.
        * destruct (pushAt _ _ _) as [b|] eqn:E2; [|discriminate]. injection H as -> _. apply len_pushAt in E2. unfold withCont, withBufs, withCounts. cbn [cont bufs halos ccells]. lia.
      + destruct (addHaloC _ _ _ _ _ _ _) as [c|] eqn:E; [|discriminate]. injection H as -> _. apply len_addHaloC in E. unfold withCont, withBufs, withCounts. cbn [cont bufs halos ccells]. lia.
    - destruct H as (_ & _ & H). injection H as -> _.
      assert (D : forall vs i j, len (setAt vs i (swapDelete (nth i vs []) j)) <= len vs) by (intros; apply len_setAt, length_swapDelete).
      unfold doDelete. destruct l as [i j|i j|i j]; assert (D1 := D (ccells (cont s)) i j); assert (D2 := D (bufs s) i j); assert (D3 := D (halos s) i j);
        destruct (isOwned p); unfold withCont, withBufs, withCounts; cbn [cont bufs halos ccells kind]; lia.
    - injection H as -> _. cbn [doDeleteAll withCounts withValid withBufs withCont cont ccells bufs halos]. rewrite !len_clear. lia.
    - injection H as -> _. cbn [doMove withBufs withCont cont ccells bufs halos]. rewrite !len_map. lia.
    - unfold doUpdate in H. destruct (collectBuffers _ _ _ _ _ _ _ _) as [[[c1 bs] o1]|] eqn:E; [|discriminate]. destruct H as (r & C & H).
      destruct r as [[c2 o2]|]; [|discriminate]. injection H as -> _. cbn [cont bufs halos]. apply len_contUpdate in C. apply len_collectBuffers in E. rewrite len_clear. lia.
    - unfold doCompute in H. destruct (select _ _ _ _ _) as [s1|] eqn:E; [|discriminate]. apply size_select in E. rewrite !size_eq in E. destruct pw.
      + destruct (balanceVectors 1 (bufs s1)) as [b|] eqn:B1; [|discriminate]. destruct (balanceVectors 1 (halos s1)) as [h|] eqn:B2; [|discriminate].
        injection H as -> _. cbn [cont bufs halos]. apply len_balance in B1, B2. lia.
      + injection H as -> _. cbn [cont bufs halos]. lia.
    - unfold doResize in H. destruct (_ && _)%bool; [injection H as -> _; lia|]. destruct (negb _); [discriminate|]. destruct (existsb _ _); [discriminate|].
      destruct (generate _ _ _ _ _ _ _) as [c|] eqn:G; [|discriminate]. injection H as -> _. cbn [cont bufs halos]. apply len_generate in G. rewrite len_map in G. lia.
  Qed.
  Lemma size_history s h s' : properHistory cutoff spt freq s h s' -> size_ s' <= size_ s + list_sum (map added1 (map fst h)).
  Proof. induction 1 as [s|s e out s1 h s2 V P S H IH]; [cbn; lia|]. apply size_step in S. cbn [map fst list_sum fold_right] in *. unfold list_sum in *. cbn [fold_right]. lia. Qed.
  Lemma size_start s : validStart cutoff spt freq s -> size_ s = 0.
  Proof.
    intros (k & lo & hi & t & _ & _ & ->). rewrite size_eq. cbn [initial cont ccells bufs halos].
    assert (R : forall j, len (repeat (@nil Particle) j) = 0) by (induction j as [|j IHj]; [reflexivity|exact IHj]).
    rewrite len_empty, !R. reflexivity.
  Qed.
End Size.
