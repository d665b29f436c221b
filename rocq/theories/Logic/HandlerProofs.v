(** No call loses, duplicates or miscounts owned particles. *)
From Coq Require Import Reals Lra.
From Verif.Base Require Import ZRange Lists Occ.
From Verif.Grid Require Import IndexModel IndexSpec IndexProofs CellBlockModel CellBlockSpec CellBlockProofs CellBlockExact.
From Verif.Functor Require Import SortModel.
From Verif.Container Require Import LinkedCellsModel LinkedCellsSpec LinkedCellsGeo IteratorModel IteratorContainers IteratorSpec IteratorLemmas IteratorInstances IteratorRegion
  ParticleModel CollectModel CollectSpec CollectProofs CollectRun CollectContainers CollectTheorems UpdateModel UpdateProofs.
From Verif.Logic Require Import BalanceModel BalanceProofs HandlerModel HandlerSpec HandlerCont HandlerUpdate.
Import ListNotations.
Local Open Scope Z_scope.

Lemma withOwn_same o p : pown p = o -> withOwn o p = p.
Proof. destruct p. cbn. intros ->. reflexivity. Qed.
Lemma owned_iff p : isOwned p = true <-> pown p = 1.
Proof. unfold isOwned, stOwned. apply Z.eqb_eq. Qed.
Lemma perm_split {A} (f : A -> bool) l : Permutation l (filter (fun x => negb (f x)) l ++ filter f l).
Proof. induction l as [|x l IH]; [reflexivity|]. cbn [filter]. destruct (f x); cbn [negb app]; rewrite IH at 1; [apply Permutation_middle|reflexivity]. Qed.
Lemma concat_nil {A B} (l : list B) : concat (map (fun _ => [] : list A) l) = [].
Proof. induction l; [reflexivity|assumption]. Qed.

(** Buffers. *)
Lemma bufferSweep_eq lo hi : forall fuel l i out, (forall p, In p l -> pown p = 1) ->
  bufferSweep fuel lo hi l i out = sweep fuel (fun p => inBoxb lo hi (ppos p)) l i out.
Proof.
  induction fuel as [|f IH]; intros l i out H; [reflexivity|]. cbn [bufferSweep sweep]. destruct (i <? length l)%nat; [|reflexivity].
  destruct (nth_error l i) as [p|] eqn:E; [|reflexivity]. assert (Hp := H p (nth_error_In _ _ E)). unfold isDummy, stDummy. rewrite Hp. cbn [Z.eqb].
  assert (D : forall q, In q (swapDelete l i) -> pown q = 1) by (intros q Hq; apply H, (Permutation_in _ (Permutation_sym (swapDelete_perm l i p E))); right; exact Hq).
  destruct (inBoxb lo hi (ppos p)); cbn [negb]; apply IH; assumption.
Qed.

Lemma buffersSweep_spec lo hi : forall bs, (forall p, In p (concat bs) -> pown p = 1) ->
  exists bs' out, buffersSweep lo hi bs = Some (bs', out) /\ length bs' = length bs /\ Permutation (concat bs) (out ++ concat bs') /\
    (forall p, In p out -> ~ inBox lo hi (ppos p)) /\ (forall p, In p (concat bs') -> inBox lo hi (ppos p)).
Proof.
  induction bs as [|l r IH]; intros H.
  - exists [], []. cbn. split; [reflexivity|]. split; [reflexivity|]. split; [reflexivity|]. split; intros p [].
  - cbn [buffersSweep]. rewrite bufferSweep_eq by (intros p Hp; apply H; cbn; apply in_or_app; left; exact Hp).
    destruct (sweepCell_spec (fun p => inBoxb lo hi (ppos p)) l) as (l' & out & E & P & A & B). unfold sweepCell in E. rewrite E.
    destruct IH as (r' & out' & E' & L & P' & A' & B'); [intros p Hp; apply H; cbn; apply in_or_app; right; exact Hp|]. rewrite E'.
    exists (l' :: r'), (out ++ out'). split; [reflexivity|]. split; [cbn; congruence|]. split; [|split].
    + cbn [concat]. rewrite P, P'. rewrite (Permutation_app_comm l' out). rewrite <- !app_assoc. apply Permutation_app_head. rewrite !app_assoc. apply Permutation_app_tail, Permutation_app_comm.
    + intros p Hp I. apply in_app_or in Hp as [Hp|Hp]; [|exact (A' p Hp I)]. apply B in Hp. apply inBoxb_iff in I. congruence.
    + intros p Hp. cbn [concat] in Hp. apply in_app_or in Hp as [Hp|Hp]; [apply inBoxb_iff, A, Hp|apply B', Hp].
Qed.

Section Handler.
  Variables (cutoff spt : R) (freq : Z).
  Hypothesis Hopt : validOptions cutoff spt freq.
  Notation placed := (placed cutoff spt freq).
  Notation cellFor := (cellFor cutoff spt freq).

  Lemma bufferInsert_inv lo hi : forall l c c' out, bufferInsert cutoff spt freq lo hi c l = Some (c', out) ->
    (forall p, In p l -> pown p = 1) -> placed lo hi c ->
    kind c' = kind c /\ placed lo hi c' /\ Permutation (l ++ concat (ccells c)) (out ++ concat (ccells c')) /\
    (forall p, In p out -> pown p = 1 /\ ~ inBox lo hi (ppos p)) /\
    (forall k p, In p (nth k (ccells c') []) -> In p (nth k (ccells c) []) \/ (In p l /\ inBox lo hi (ppos p) /\ cellFor lo hi (kind c) k (ppos p))).
  Proof.
    induction l as [|p l IH]; intros c c' out H V P; cbn [bufferInsert] in H.
    - injection H as <- <-. split; [reflexivity|]. split; [exact P|]. split; [reflexivity|]. split; [intros p []|]. intros k p Hp. left. exact Hp.
    - assert (Vp := V p (or_introl eq_refl)). unfold isDummy, stDummy in H. rewrite Vp in H. cbn [Z.eqb] in H.
      destruct (inBoxb lo hi (ppos p)) eqn:B.
      + rewrite (withOwn_same stOwned p Vp) in H. destruct (addOwned _ _ _ _ _ _ _) as [c1|] eqn:E in H; [|discriminate].
        destruct (addOwned_inv cutoff spt freq lo hi c p c1 E Vp) as (K & i & E1 & Pl & C). assert (P1 := placed_push cutoff spt freq lo hi c i p c1 P K E1 Pl).
        destruct (IH c1 c' out H (fun q Hq => V q (or_intror Hq)) P1) as (K2 & P2 & Q2 & O2 & X2). destruct (pushAt_inv E1) as (_ & Q1 & I1).
        split; [congruence|]. split; [exact P2|]. split; [rewrite <- Q2, Q1; cbn [app]; apply Permutation_middle|]. split; [exact O2|].
        intros k q Hq. rewrite K in X2. destruct (X2 k q Hq) as [Y|(Y1 & Y2)]; [|right; split; [right; exact Y1|exact Y2]].
        apply I1 in Y as [Y|(-> & ->)]; [left; exact Y|right]. split; [left; reflexivity|]. split; [apply inBoxb_iff, B|exact C].
      + destruct (bufferInsert _ _ _ _ _ _ _) as [(c1, o1)|] eqn:E in H; [|discriminate]. injection H as <- <-.
        destruct (IH c c1 o1 E (fun q Hq => V q (or_intror Hq)) P) as (K2 & P2 & Q2 & O2 & X2).
        split; [exact K2|]. split; [exact P2|]. split; [cbn [app]; constructor; exact Q2|]. split.
        * intros q [<-|Hq]; [|apply O2, Hq]. split; [exact Vp|]. intros I. apply inBoxb_iff in I. congruence.
        * intros k q Hq. destruct (X2 k q Hq) as [Y|(Y1 & Y2)]; [left; exact Y|right; split; [right; exact Y1|exact Y2]].
  Qed.

  (** The invariant of all histories. *)
  Record Inv (s : State) : Prop := mkInv {
    inv_box : validBox cutoff spt freq (boxLo s) (boxHi s);
    inv_kind : validKind cutoff spt freq (boxLo s) (boxHi s) (kind (cont s));
    inv_placed : placed (boxLo s) (boxHi s) (cont s);
    inv_bufs : forall p, In p (concat (bufs s)) -> pown p = 1;
    inv_halos : forall p, In p (concat (halos s)) -> pown p = 2;
    inv_count : nOwned s = Z.of_nat (length (ownedParticles s)) }.

  Lemma owned_split s : (forall p, In p (concat (bufs s)) -> pown p = 1) -> (forall p, In p (concat (halos s)) -> pown p = 2) ->
    ownedParticles s = filter isOwned (concat (ccells (cont s))) ++ concat (bufs s).
  Proof.
    intros B H. unfold ownedParticles, stored. change (fun p => pown p =? 1) with isOwned. rewrite !filter_app.
    rewrite (filter_all isOwned (concat (bufs s))) by (intros p Hp; apply owned_iff, B, Hp).
    rewrite (filter_nil isOwned (concat (halos s))); [rewrite app_nil_r; reflexivity|].
    intros p Hp. unfold isOwned. rewrite (H p Hp). reflexivity.
  Qed.
  Lemma inv_split s : Inv s -> ownedParticles s = filter isOwned (concat (ccells (cont s))) ++ concat (bufs s).
  Proof. intros I. apply owned_split; [apply (inv_bufs s I)|apply (inv_halos s I)]. Qed.

  Definition good (s : State) (e : Event) (s' : State) (out : list Particle) : Prop :=
    Inv s' /\ ledgerStep (mkLedger (boxLo s) (boxHi s) (ownedParticles s)) e out (mkLedger (boxLo s') (boxHi s') (ownedParticles s')).

  Lemma count_perm {A} (l l' : list A) : Permutation l l' -> Z.of_nat (length l) = Z.of_nat (length l').
  Proof. intros P. rewrite (Permutation_length P). reflexivity. Qed.

  Lemma step_add s p t s' : Inv s -> doAdd cutoff spt freq s p t = Some s' -> good s (AddParticle p t) s' [].
  Proof.
    intros I H. unfold doAdd in H. destruct (inBoxb (boxLo s) (boxHi s) (ppos p)) eqn:B; cbn [negb] in H; [|discriminate]. apply inBoxb_iff in B.
    set (p' := withOwn stOwned p) in *. assert (Vp : pown p' = 1) by reflexivity.
    assert (G : exists s1, s' = withCounts s1 (nOwned s + 1) (nHalo s) /\ boxLo s1 = boxLo s /\ boxHi s1 = boxHi s /\ kind (cont s1) = kind (cont s) /\
      placed (boxLo s) (boxHi s) (cont s1) /\ (forall q, In q (concat (bufs s1)) -> pown q = 1) /\ halos s1 = halos s /\
      Permutation (filter isOwned (concat (ccells (cont s1))) ++ concat (bufs s1)) (p' :: ownedParticles s)).
    { rewrite (inv_split s I). destruct (valid s).
      - destruct (pushAt (bufs s) t p') as [b|] eqn:E; [|discriminate]. injection H as <-. exists (withBufs s b (halos s)).
        destruct (pushAt_inv E) as (_ & P & _). cbn. repeat (split; [reflexivity|]). split; [apply (inv_placed s I)|]. split; [|split; [reflexivity|]].
        + intros q Hq. apply (Permutation_in _ P) in Hq as [<-|Hq]; [exact Vp|apply (inv_bufs s I), Hq].
        + rewrite P. symmetry. apply Permutation_middle.
      - destruct (addOwned _ _ _ _ _ _ _) as [c|] eqn:E in H; [|discriminate]. injection H as <-. exists (withCont s c).
        destruct (addOwned_inv cutoff spt freq _ _ _ _ _ E Vp) as (K & i & E1 & Pl & _). destruct (pushAt_inv E1) as (_ & P & _).
        cbn. repeat (split; [reflexivity|]). split; [exact K|]. split; [apply (placed_push cutoff spt freq _ _ _ i p' c (inv_placed s I) K E1 Pl)|].
        split; [apply (inv_bufs s I)|]. split; [reflexivity|]. rewrite (filter_perm isOwned _ _ P). cbn [filter]. change (isOwned p') with true. reflexivity. }
    clear H. destruct G as (s1 & -> & E1 & E2 & K & Pl & Bf & Hl & P).
    assert (Eo : ownedParticles (withCounts s1 (nOwned s + 1) (nHalo s)) = filter isOwned (concat (ccells (cont s1))) ++ concat (bufs s1)).
    { apply (owned_split (withCounts s1 (nOwned s + 1) (nHalo s))); cbn [bufs halos withCounts cont ccells]; [exact Bf|rewrite Hl; apply (inv_halos s I)]. }
    split.
    - constructor; cbn [boxLo boxHi cont bufs halos withCounts nOwned].
      + rewrite E1, E2. apply (inv_box s I).
      + rewrite E1, E2, K. apply (inv_kind s I).
      + rewrite E1, E2. exact Pl.
      + exact Bf.
      + rewrite Hl. apply (inv_halos s I).
      + rewrite Eo, (count_perm _ _ P), (inv_count s I). cbn [length]. lia.
    - cbn [boxLo boxHi withCounts]. rewrite E1, E2. apply (LAdd (mkLedger (boxLo s) (boxHi s) (ownedParticles s))); cbn [expected ledgerLo ledgerHi]; [|exact B].
      rewrite Eo. exact P.
  Qed.

  Lemma step_halo s p t s' : Inv s -> doAddHalo cutoff spt freq s p t = Some s' -> good s (AddHalo p t) s' [].
  Proof.
    intros I H. unfold doAddHalo in H. destruct (inBoxb (boxLo s) (boxHi s) (ppos p)) eqn:B; cbn [negb] in H; [discriminate|].
    assert (N : ~ inBox (boxLo s) (boxHi s) (ppos p)) by (intros X; apply inBoxb_iff in X; congruence).
    set (p' := withOwn stHalo p) in *. assert (Vp : pown p' = 2) by reflexivity.
    assert (G : exists s1, s' = withCounts s1 (nOwned s) (nHalo s + 1) /\ boxLo s1 = boxLo s /\ boxHi s1 = boxHi s /\ kind (cont s1) = kind (cont s) /\
      placed (boxLo s) (boxHi s) (cont s1) /\ bufs s1 = bufs s /\ (forall q, In q (concat (halos s1)) -> pown q = 2) /\
      Permutation (filter isOwned (concat (ccells (cont s1))) ++ concat (bufs s1)) (ownedParticles s)).
    { rewrite (inv_split s I). destruct (valid s).
      - destruct (updateHaloC _ _ _ _ _ _ _) as [(c, [|])|] eqn:E in H; [| |discriminate].
        + injection H as <-. exists (withCont s c). destruct (updateHalo_inv cutoff spt freq _ _ _ _ _ _ E Vp (inv_placed s I)) as (K & [(C & _)|(_ & i & q & r & Q1 & Q2 & Q3 & Q4 & Q5 & P1 & P2 & X)]); [discriminate|].
          cbn. repeat (split; [reflexivity|]). split; [exact K|]. split.
          { destruct (inv_placed s I) as (L & Pl). split; [unfold size in *; rewrite Q5, K; exact L|]. rewrite K. intros k x Hx.
            destruct (X k x Hx) as [Y|(-> & ->)]; [apply Pl, Y|exact Q4]. }
          split; [reflexivity|]. split; [apply (inv_halos s I)|].
          apply Permutation_app_tail. rewrite (filter_perm isOwned _ _ P1), (filter_perm isOwned _ _ P2). cbn [filter]. change (isOwned p') with false.
          destruct (isOwned q) eqn:O; [apply owned_iff in O; contradiction|reflexivity].
        + destruct (pushAt (halos s) t p') as [h|] eqn:E1; [|discriminate]. injection H as <-. exists (withBufs s (bufs s) h).
          destruct (pushAt_inv E1) as (_ & P & _). cbn. repeat (split; [reflexivity|]). split; [apply (inv_placed s I)|]. split; [reflexivity|]. split; [|reflexivity].
          intros q Hq. apply (Permutation_in _ P) in Hq as [<-|Hq]; [exact Vp|apply (inv_halos s I), Hq].
      - destruct (addHaloC _ _ _ _ _ _ _) as [c|] eqn:E in H; [|discriminate]. injection H as <-. exists (withCont s c).
        destruct (addHalo_inv cutoff spt freq _ _ _ _ _ E Vp N) as (K & i & E1 & Pl & _). destruct (pushAt_inv E1) as (_ & P & _).
        cbn. repeat (split; [reflexivity|]). split; [exact K|]. split; [apply (placed_push cutoff spt freq _ _ _ i p' c (inv_placed s I) K E1 Pl)|].
        split; [reflexivity|]. split; [apply (inv_halos s I)|]. rewrite (filter_perm isOwned _ _ P). cbn [filter]. change (isOwned p') with false. reflexivity. }
    clear H. destruct G as (s1 & -> & E1 & E2 & K & Pl & Bf & Hl & P).
    assert (Eo : ownedParticles (withCounts s1 (nOwned s) (nHalo s + 1)) = filter isOwned (concat (ccells (cont s1))) ++ concat (bufs s1)).
    { apply (owned_split (withCounts s1 (nOwned s) (nHalo s + 1))); cbn [bufs halos withCounts cont ccells]; [rewrite Bf; apply (inv_bufs s I)|exact Hl]. }
    split.
    - constructor; cbn [boxLo boxHi cont bufs halos withCounts nOwned].
      + rewrite E1, E2. apply (inv_box s I).
      + rewrite E1, E2, K. apply (inv_kind s I).
      + rewrite E1, E2. exact Pl.
      + rewrite Bf. apply (inv_bufs s I).
      + exact Hl.
      + rewrite Eo, (count_perm _ _ P), (inv_count s I). lia.
    - cbn [boxLo boxHi withCounts]. rewrite E1, E2. apply (LAddHalo (mkLedger (boxLo s) (boxHi s) (ownedParticles s))); cbn [expected ledgerLo ledgerHi]; [|exact N].
      rewrite Eo. exact P.
  Qed.

  Lemma del_perm (vs : list (list Particle)) i j p : nth_error (nth i vs []) j = Some p ->
    Permutation (concat vs) (p :: concat (setAt vs i (swapDelete (nth i vs []) j))) /\
    length (setAt vs i (swapDelete (nth i vs []) j)) = length vs /\
    (forall k q, In q (nth k (setAt vs i (swapDelete (nth i vs []) j)) []) -> In q (nth k vs [])).
  Proof.
    intros H. assert (L : (i < length vs)%nat) by (apply (nth_In_lt i vs p), (nth_error_In _ _ H)).
    assert (P := swapDelete_perm _ _ _ H).
    assert (N : nth_error vs i = Some (nth i vs [])) by (apply nth_error_nth'; exact L).
    destruct (setAt_concat vs i (nth i vs []) (swapDelete (nth i vs []) j) N) as (r & Q1 & Q2).
    split; [rewrite Q1, Q2, P at 1; reflexivity|]. split; [apply setAt_length|].
    intros k q Hq. rewrite nth_setAt in Hq. destruct (Nat.eqb_spec i k) as [<-|D]; cbn [andb] in Hq; [|exact Hq].
    destruct (_ <? _)%nat in Hq; [|exact Hq]. apply (Permutation_in _ (Permutation_sym P)). right. exact Hq.
  Qed.

  Lemma step_delete s p l : Inv s -> particleAt s l = Some p -> isDummy p = false -> good s (Delete p l) (doDelete s p l) [].
  Proof.
    intros I H D. unfold particleAt in H.
    assert (V : pown p = 1 \/ pown p = 2).
    { unfold isDummy, stDummy in D. apply Z.eqb_neq in D. destruct l as [c j|b j|b j]; cbn in H; apply nth_error_In in H.
      - destruct (proj2 (inv_placed s I) c p H) as ([X|X] & _); [contradiction|exact X].
      - left. apply (inv_bufs s I), in_cells. exists b. exact H.
      - right. apply (inv_halos s I), in_cells. exists b. exact H. }
    set (s1 := doDelete s p l).
    assert (G : boxLo s1 = boxLo s /\ boxHi s1 = boxHi s /\ kind (cont s1) = kind (cont s) /\ placed (boxLo s) (boxHi s) (cont s1) /\
      (forall q, In q (concat (bufs s1)) -> pown q = 1) /\ (forall q, In q (concat (halos s1)) -> pown q = 2) /\
      nOwned s1 = (if isOwned p then nOwned s - 1 else nOwned s) /\
      Permutation (ownedParticles s) (if isOwned p then p :: (filter isOwned (concat (ccells (cont s1))) ++ concat (bufs s1)) else filter isOwned (concat (ccells (cont s1))) ++ concat (bufs s1))).
    { rewrite (inv_split s I). unfold s1, doDelete.
      destruct l as [c j|b j|b j]; cbn in H; destruct (del_perm _ _ _ _ H) as (P & L & X).
      - assert (PL : placed (boxLo s) (boxHi s) (mkCont (kind (cont s)) (setAt (ccells (cont s)) c (swapDelete (nth c (ccells (cont s)) []) j)))).
        { destruct (inv_placed s I) as (A & B). split; cbn [ccells kind]; [unfold size in *; rewrite L; exact A|]. intros k q Hq. apply B, X, Hq. }
        destruct (isOwned p) eqn:O; cbn; repeat (split; [reflexivity|]); (split; [exact PL|]); (split; [apply (inv_bufs s I)|]); (split; [apply (inv_halos s I)|]); (split; [reflexivity|]).
        + rewrite (filter_perm _ _ _ P). cbn [filter]. rewrite O. reflexivity.
        + rewrite (filter_perm _ _ _ P). cbn [filter]. rewrite O. reflexivity.
      - assert (O : pown p = 1) by (apply (inv_bufs s I), in_cells; exists b; apply (nth_error_In _ _ H)). assert (Oo : isOwned p = true) by (unfold isOwned; rewrite O; reflexivity). rewrite Oo. cbn.
        repeat (split; [reflexivity|]). split; [apply (inv_placed s I)|]. split; [|split; [apply (inv_halos s I)|]].
        + intros q Hq. apply (inv_bufs s I). apply (Permutation_in _ (Permutation_sym P)). right. exact Hq.
        + split; [reflexivity|]. rewrite P. symmetry. apply Permutation_middle.
      - assert (O : pown p = 2) by (apply (inv_halos s I), in_cells; exists b; apply (nth_error_In _ _ H)). assert (Oo : isOwned p = false) by (unfold isOwned; rewrite O; reflexivity). rewrite Oo. cbn.
        repeat (split; [reflexivity|]). split; [apply (inv_placed s I)|]. split; [apply (inv_bufs s I)|]. split; [|split; reflexivity].
        intros q Hq. apply (inv_halos s I). apply (Permutation_in _ (Permutation_sym P)). right. exact Hq. }
    clearbody s1. destruct G as (E1 & E2 & K & Pl & Bf & Hl & C & P).
    assert (Eo := owned_split s1 Bf Hl). rewrite <- Eo in P. split.
    - constructor; rewrite ?E1, ?E2, ?K; auto.
      + apply (inv_box s I).
      + apply (inv_kind s I).
      + rewrite C, (inv_count s I), (count_perm _ _ P). destruct (isOwned p); cbn [length]; lia.
    - rewrite E1, E2. destruct V as [V|V]; unfold isOwned in P at 1; rewrite V in P; cbn in P.
      + apply (LDelete (mkLedger (boxLo s) (boxHi s) (ownedParticles s))); assumption.
      + apply (LDeleteHalo (mkLedger (boxLo s) (boxHi s) (ownedParticles s))); assumption.
  Qed.

  Lemma step_deleteAll s : Inv s -> good s DeleteAll (doDeleteAll s) [].
  Proof.
    intros I. assert (E : stored (doDeleteAll s) = []) by (unfold stored, doDeleteAll; cbn; rewrite !concat_nil; reflexivity).
    assert (Eo : ownedParticles (doDeleteAll s) = []) by (unfold ownedParticles; rewrite E; reflexivity). split.
    - constructor; cbn.
      + apply (inv_box s I).
      + apply (inv_kind s I).
      + destruct (inv_placed s I) as (A & B). split; cbn [ccells kind]; [unfold size in *; rewrite map_length; exact A|].
        intros k q Hq. exfalso. assert (X : In q (concat (map (fun _ : list Particle => [] : list Particle) (ccells (cont s))))) by (apply in_cells; exists k; exact Hq). rewrite concat_nil in X. destruct X.
      + rewrite concat_nil. intros p [].
      + rewrite concat_nil. intros p [].
      + change (0 = Z.of_nat (length (ownedParticles (doDeleteAll s)))). rewrite Eo. reflexivity.
    - rewrite Eo. apply (LDeleteAll (mkLedger (boxLo s) (boxHi s) (ownedParticles s))).
  Qed.

  Lemma moved_own f p : pown (moved f p) = pown p.
  Proof. unfold moved. destruct (isDummy p); reflexivity. Qed.
  Lemma moved_filter f l : filter isOwned (map (moved f) l) = map (fun p => moveTo (f p) p) (filter isOwned l).
  Proof.
    induction l as [|p l IH]; [reflexivity|]. cbn [map filter].
    assert (Eo : isOwned (moved f p) = isOwned p) by (unfold isOwned; rewrite moved_own; reflexivity). rewrite Eo.
    destruct (isOwned p) eqn:O; cbn [map]; [|exact IH]. apply owned_iff in O. f_equal; [|exact IH]. unfold moved, isDummy, stDummy. rewrite O. cbn. unfold moveTo. rewrite O. reflexivity.
  Qed.
  Lemma moved_in (f : Particle -> R3) (vs : list (list Particle)) k q : In q (nth k (map (map (moved f)) vs) []) -> exists p, In p (nth k vs []) /\ q = moved f p.
  Proof. change (@nil Particle) with (map (moved f) []) at 1. rewrite map_nth. intros H. apply in_map_iff in H as (p & <- & H). exists p. auto. Qed.
  Lemma moved_stored (f : Particle -> R3) (vs : list (list Particle)) q : In q (concat (map (map (moved f)) vs)) -> exists p, In p (concat vs) /\ q = moved f p.
  Proof. rewrite <- concat_map. intros H. apply in_map_iff in H as (p & <- & H). exists p. auto. Qed.

  Lemma step_move s f : Inv s -> good s (Move f) (doMove s f) [].
  Proof.
    intros I.
    assert (Bf : forall p, In p (concat (bufs (doMove s f))) -> pown p = 1).
    { intros p Hp. cbn in Hp. apply moved_stored in Hp as (q & Hq & ->). rewrite moved_own. apply (inv_bufs s I), Hq. }
    assert (Hl : forall p, In p (concat (halos (doMove s f))) -> pown p = 2).
    { intros p Hp. cbn in Hp. apply moved_stored in Hp as (q & Hq & ->). rewrite moved_own. apply (inv_halos s I), Hq. }
    assert (P : ownedParticles (doMove s f) = map (fun p => moveTo (f p) p) (ownedParticles s)).
    { rewrite (owned_split _ Bf Hl), (inv_split s I). cbn. rewrite map_app. f_equal.
      - rewrite <- concat_map. apply moved_filter.
      - rewrite <- concat_map. apply map_ext_in. intros p Hp. unfold moved, isDummy, stDummy. rewrite (inv_bufs s I p Hp). cbn. unfold moveTo. rewrite (inv_bufs s I p Hp). reflexivity. }
    split.
    - constructor; try assumption; cbn.
      + apply (inv_box s I).
      + apply (inv_kind s I).
      + destruct (inv_placed s I) as (A & B). split; cbn [ccells kind]; [unfold size in *; rewrite map_length; exact A|].
        intros k q Hq. apply moved_in in Hq as (p & Hp & ->). assert (Y := B k p Hp). unfold placeOk in *. rewrite moved_own. exact Y.
      + change (nOwned s = Z.of_nat (length (ownedParticles (doMove s f)))). rewrite P, map_length. apply (inv_count s I).
    - apply (LMove (mkLedger (boxLo s) (boxHi s) (ownedParticles s))). cbn [expected]. rewrite P. reflexivity.
  Qed.

  (** updateContainer. *)
  Lemma collectBuffers_inv insert s c bs out : Inv s -> collectBuffers cutoff spt freq insert (boxLo s) (boxHi s) (cont s) (bufs s) = Some (c, bs, out) ->
    kind c = kind (cont s) /\ placed (boxLo s) (boxHi s) c /\ (forall p, In p (concat bs) -> pown p = 1 /\ inBox (boxLo s) (boxHi s) (ppos p)) /\ length bs = length (bufs s) /\
    (forall p, In p out -> pown p = 1 /\ ~ inBox (boxLo s) (boxHi s) (ppos p)) /\
    Permutation (ownedParticles s) (out ++ filter isOwned (concat (ccells c)) ++ concat bs) /\
    (forall k p, In p (nth k (ccells c) []) -> In p (nth k (ccells (cont s)) []) \/ (In p (concat (bufs s)) /\ inBox (boxLo s) (boxHi s) (ppos p) /\ cellFor (boxLo s) (boxHi s) (kind (cont s)) k (ppos p))) /\
    (insert = true -> concat bs = []) /\ (insert = false -> c = cont s).
  Proof.
    intros I H. rewrite (inv_split s I). unfold collectBuffers in H. destruct insert.
    - destruct (bufferInsert _ _ _ _ _ _ _) as [(c', o)|] eqn:E in H; [|discriminate]. injection H as <- <- <-.
      destruct (bufferInsert_inv _ _ _ _ _ _ E (inv_bufs s I) (inv_placed s I)) as (K & P & Q & O & X).
      split; [exact K|]. split; [exact P|]. split; [rewrite concat_nil; intros p []|]. split; [apply map_length|]. split; [exact O|]. split; [|split; [exact X|split; [intros _; apply concat_nil|discriminate]]].
      rewrite concat_nil, app_nil_r. apply (filter_perm isOwned) in Q. rewrite !filter_app in Q.
      rewrite (filter_all isOwned (concat (bufs s))) in Q by (intros p Hp; apply owned_iff, (inv_bufs s I), Hp).
      rewrite (filter_all isOwned o) in Q by (intros p Hp; apply owned_iff, O, Hp). rewrite <- Q. apply Permutation_app_comm.
    - destruct (buffersSweep_spec (boxLo s) (boxHi s) (bufs s) (inv_bufs s I)) as (bs' & o & E & L & P & A & B). rewrite E in H. injection H as <- <- <-.
      split; [reflexivity|]. split; [apply (inv_placed s I)|].
      assert (Vo : forall p, In p (concat (bufs s)) <-> In p (o ++ concat bs')) by (intros p; split; apply Permutation_in; [exact P|symmetry; exact P]).
      split; [intros p Hp; split; [apply (inv_bufs s I), Vo, in_or_app; right; exact Hp|apply B, Hp]|]. split; [exact L|].
      split; [intros p Hp; split; [apply (inv_bufs s I), Vo, in_or_app; left; exact Hp|apply A, Hp]|].
      split; [|split; [intros k p Hp; left; exact Hp|split; [discriminate|reflexivity]]].
      rewrite P, !app_assoc. apply Permutation_app_tail, Permutation_app_comm.
  Qed.

  Lemma step_update s b s' out : Inv s -> doUpdate cutoff spt freq s b (Some (s', out)) -> good s (Update b) s' out.
  Proof.
    intros I H. unfold doUpdate in H. set (v := listsValid freq s b) in *.
    destruct (collectBuffers _ _ _ _ _ _ _ _) as [[[c1 bs] out1]|] eqn:E in H; [|discriminate].
    destruct (collectBuffers_inv _ s c1 bs out1 I E) as (K1 & P1 & B1 & _ & O1 & Q1 & _).
    destruct H as (r & U & Hr). destruct r as [(c2, out2)|]; [|discriminate]. injection Hr as -> ->.
    destruct (contUpdate_inv cutoff spt freq (boxLo s) (boxHi s) _ _ c1 c2 out2 P1 ltac:(rewrite K1; apply (inv_kind s I)) U) as (K2 & P2 & Q2 & O2 & _).
    match goal with |- good _ _ ?x _ => set (s' := x) end.
    assert (Bf : forall p, In p (concat (bufs s')) -> pown p = 1) by (intros p Hp; apply B1, Hp).
    assert (Hl : forall p, In p (concat (halos s')) -> pown p = 2) by (cbn; rewrite concat_nil; intros p []).
    assert (P : Permutation (ownedParticles s) ((out2 ++ out1) ++ ownedParticles s')).
    { rewrite (owned_split s' Bf Hl). cbn [cont bufs s']. rewrite Q1, Q2. rewrite <- !app_assoc. rewrite !(app_assoc out1), (Permutation_app_comm out1 out2). rewrite <- !app_assoc. reflexivity. }
    split.
    - constructor; try assumption; cbn [boxLo boxHi cont nOwned s'].
      + apply (inv_box s I).
      + rewrite K2, K1. apply (inv_kind s I).
      + rewrite (inv_count s I), (count_perm _ _ P), app_length. fold s'. lia.
    - apply (LUpdate (mkLedger (boxLo s) (boxHi s) (ownedParticles s))); cbn [expected ledgerLo ledgerHi]; [exact P|].
      apply Forall_app. split; [|apply Forall_forall; intros p Hp; apply O1, Hp].
      apply Forall_forall. intros p Hp. rewrite Forall_forall in O2. apply O2, Hp.
  Qed.

  (** Selecting other containers. *)
  Lemma select_inv : forall ks s s', select cutoff spt freq s ks = Some s' -> Inv s -> Forall (validKind cutoff spt freq (boxLo s) (boxHi s)) ks ->
    Inv s' /\ boxLo s' = boxLo s /\ boxHi s' = boxHi s /\ bufs s' = bufs s /\ halos s' = halos s /\ valid s' = valid s /\ steps s' = steps s /\ calls s' = calls s /\ nOwned s' = nOwned s /\
    nHalo s' = nHalo s /\
    Permutation (ownedParticles s) (ownedParticles s') /\ Permutation (haloParticles s) (haloParticles s') /\
    ((ccells (cont s') = ccells (cont s) /\ kind (cont s') = kind (cont s) /\ contSteps s' = contSteps s) \/
     (contSteps s' = 0 /\ (forall p, In p (stored s') -> In p (stored s)) /\
      (forall p, In p (concat (ccells (cont s'))) -> (pown p = 1 -> inBox (boxLo s) (boxHi s) (ppos p)) /\ (pown p = 2 -> ~ inBox (boxLo s) (boxHi s) (ppos p))) /\
      forall k p, In p (nth k (ccells (cont s')) []) -> In p (concat (ccells (cont s))) /\ pown p <> 0 /\ cellFor (boxLo s) (boxHi s) (kind (cont s')) k (ppos p))).
 
  Proof.
    induction ks as [|k ks IH]; intros s s' H I V; cbn [select] in H.
    - injection H as <-. split; [exact I|]. repeat (split; [reflexivity|]). left. auto.
    - inversion V as [|? ? V1 V2]; subst. destruct (sameKind (kind (cont s)) k); [apply (IH s s' H I V2)|].
      destruct (generate _ _ _ _ _ _ _) as [c|] eqn:E in H; [|discriminate].
      assert (Vs : forall p, In p (concat (ccells (cont s))) -> validState (pown p)) by (intros p Hp; apply in_cells in Hp as (i & Hi); apply (proj2 (inv_placed s I) i p Hi)).
      destruct (generate_inv cutoff spt freq _ _ _ _ _ E V1 Vs) as (K & P & Q & B & X).
      set (s1 := mkState (boxLo s) (boxHi s) c 0 (bufs s) (halos s) (valid s) (steps s) (calls s) (nOwned s) (nHalo s)) in *.
      assert (QF : forall f : Particle -> bool, (forall p, f p = true -> pown p <> 0) -> Permutation (filter f (stored s)) (filter f (stored s1))).
      { intros f Hf. unfold stored. cbn [cont bufs halos s1]. rewrite !filter_app. apply Permutation_app_tail. rewrite (filter_perm f _ _ Q), filter_filter.
        match goal with |- Permutation ?a ?b => cut (a = b); [intros ->; reflexivity|] end. apply filter_ext_in. intros p _.
        destruct (f p) eqn:F; [|rewrite andb_false_r; reflexivity]. apply Hf in F. destruct (Z.eqb_spec (pown p) 0); [contradiction|reflexivity]. }
      assert (QO : Permutation (ownedParticles s) (ownedParticles s1)) by (apply QF; intros p Hp; lia).
      assert (QH : Permutation (haloParticles s) (haloParticles s1)) by (apply QF; intros p Hp; lia).
      assert (I1 : Inv s1).
      { constructor; cbn [boxLo boxHi cont bufs halos nOwned s1].
        - apply (inv_box s I).
        - rewrite K. exact V1.
        - exact P.
        - apply (inv_bufs s I).
        - apply (inv_halos s I).
        - rewrite (inv_count s I). fold s1. apply count_perm, QO. }
      destruct (IH s1 s' H I1 V2) as (J & A1 & A2 & A3 & A4 & A5 & A6 & A7 & A8 & A9 & QO' & QH' & C).
      split; [exact J|]. repeat (split; [assumption|]). split; [rewrite QO; exact QO'|]. split; [rewrite QH; exact QH'|]. right.
      assert (In1 : forall p, In p (concat (ccells c)) -> In p (concat (ccells (cont s)))) by (intros p Hp; apply (Permutation_in _ Q), filter_In in Hp as (Hp & _); exact Hp).
      assert (Nz : forall p, In p (concat (ccells c)) -> pown p <> 0) by (intros p Hp; apply (Permutation_in _ Q), filter_In in Hp as (_ & Hp); lia).
      assert (St : forall p, In p (stored s1) -> In p (stored s)).
      { intros p Hp. unfold stored in *. cbn [cont bufs halos s1] in Hp. apply in_app_or in Hp as [Hp|Hp]; apply in_or_app; [left; apply In1, Hp|right; exact Hp]. }
      cbn [boxLo boxHi s1] in *. destruct C as [(C1 & C2 & C3)|(C1 & C2 & C3 & C4)].
      + split; [exact C3|]. split; [|split].
        * intros p Hp. apply St. unfold stored in *. rewrite C1, A3, A4 in Hp. exact Hp.
        * rewrite C1. intros p Hp. apply B, In1, Hp.
        * intros i p Hp. rewrite C1 in Hp. cbn [cont s1] in Hp. split; [apply In1, in_cells; exists i; exact Hp|]. split; [apply Nz, in_cells; exists i; exact Hp|]. rewrite C2. cbn [cont s1]. rewrite K. exact (X i p Hp).
      + split; [exact C1|]. split; [intros p Hp; apply St, C2, Hp|]. split; [exact C3|]. intros i p Hp. destruct (C4 i p Hp) as (D1 & D2). split; [apply In1, D1|exact D2].
  Qed.

  Lemma step_compute s pw ks s' : Inv s -> Forall (validKind cutoff spt freq (boxLo s) (boxHi s)) ks -> doCompute cutoff spt freq s pw ks = Some s' -> good s (Compute pw ks) s' [].
  Proof.
    intros I V H. unfold doCompute in H. destruct (select cutoff spt freq s ks) as [s1|] eqn:E; [|discriminate].
    destruct (select_inv ks s s1 E I V) as (J & A1 & A2 & A3 & A4 & A5 & A6 & A7 & A8 & A9 & QO & QH & _).
    assert (G : exists b h, Permutation (concat (bufs s1)) (concat b) /\ Permutation (concat (halos s1)) (concat h) /\
      s' = mkState (boxLo s1) (boxHi s1) (cont s1) (contSteps s1) b h true (steps s1) ((calls s1 + 1) mod 2 ^ 32) (nOwned s1) (nHalo s1)).
    { destruct pw; [|injection H as <-; exists (bufs s1), (halos s1); repeat split; reflexivity].
      destruct (balance_correct (bufs s1) 1 (le_n 1)) as (b & Eb & Pb & _). destruct (balance_correct (halos s1) 1 (le_n 1)) as (h & Eh & Ph & _).
      rewrite Eb, Eh in H. injection H as <-. exists b, h. auto. }
    destruct G as (b & h & Pb & Ph & ->). clear H.
    match goal with |- good _ _ ?x _ => set (s' := x) end.
    assert (Bf : forall p, In p (concat (bufs s')) -> pown p = 1) by (intros p Hp; apply (inv_bufs s1 J), (Permutation_in _ (Permutation_sym Pb)), Hp).
    assert (Hl : forall p, In p (concat (halos s')) -> pown p = 2) by (intros p Hp; apply (inv_halos s1 J), (Permutation_in _ (Permutation_sym Ph)), Hp).
    assert (P : Permutation (ownedParticles s) (ownedParticles s')).
    { rewrite (owned_split s' Bf Hl), QO, (inv_split s1 J). apply Permutation_app_head. exact Pb. }
    split.
    - constructor; try assumption; cbn [boxLo boxHi cont nOwned s'].
      + apply (inv_box s1 J).
      + apply (inv_kind s1 J).
      + apply (inv_placed s1 J).
      + rewrite A8, (inv_count s I), (count_perm _ _ P). reflexivity.
    - cbn [boxLo boxHi s']. rewrite A1, A2. apply (LCompute (mkLedger (boxLo s) (boxHi s) (ownedParticles s))). exact P.
  Qed.

  Lemma sameR3_eq a b : sameR3 a b = true -> a = b.
  Proof.
    unfold sameR3. destruct a as [x y z], b as [x' y' z']. cbn [rx ry rz]. destruct (Req_EM_T x x') as [->|]; [|discriminate].
    destruct (Req_EM_T y y') as [->|]; [|discriminate]. destruct (Req_EM_T z z') as [->|]; [|discriminate]. reflexivity.
  Qed.

  (** What remains and what is returned by resizeBox. *)
  Lemma resize_inv s lo hi s' out : Inv s -> validBox cutoff spt freq lo hi -> validKind cutoff spt freq lo hi (kind (cont s)) ->
    doResize cutoff spt freq s lo hi = Some (s', out) ->
    (s' = s /\ out = [] /\ lo = boxLo s /\ hi = boxHi s) \/
    (boxLo s' = lo /\ boxHi s' = hi /\ kind (cont s') = kind (cont s) /\ placed lo hi (cont s') /\ contSteps s' = 0 /\ bufs s' = bufs s /\ halos s' = halos s /\ valid s' = false /\
     steps s' = steps s /\ calls s' = calls s /\ nOwned s' = nOwned s - Z.of_nat (length out) /\ nHalo s' = nHalo s /\
     (forall p, In p out -> pown p = 1 /\ ~ inBox lo hi (ppos p)) /\
     (forall p, In p (concat (ccells (cont s))) -> pown p <> 2) /\
     Permutation (filter isOwned (concat (ccells (cont s)))) (out ++ concat (ccells (cont s'))) /\
     (forall k p, In p (nth k (ccells (cont s')) []) -> pown p = 1 /\ inBox lo hi (ppos p) /\ cellFor lo hi (kind (cont s')) k (ppos p))).
  Proof.
    intros I VB VK H. unfold doResize in H.
    destruct (sameR3 (boxLo s) lo && sameR3 (boxHi s) hi) eqn:S.
    { injection H as <- <-. apply andb_prop in S as (S1 & S2). apply sameR3_eq in S1, S2. left. auto. }
    right. destruct (negb _) in H; [discriminate|]. set (shown := filter (fun p => negb (isDummy p)) (concat (ccells (cont s)))) in *.
    destruct (existsb (fun p => negb (isOwned p)) shown) eqn:X; [discriminate|].
    set (outside := fun p => isOwned p && negb (inBoxb lo hi (ppos p))) in *.
    destruct (generate _ _ _ _ _ _ _) as [c|] eqn:E in H; [|discriminate]. injection H as <- <-.
    assert (Vs : forall p, In p (concat (ccells (cont s))) -> validState (pown p)) by (intros p Hp; apply in_cells in Hp as (i & Hi); apply (proj2 (inv_placed s I) i p Hi)).
    assert (N2 : forall p, In p (concat (ccells (cont s))) -> pown p <> 2).
    { intros p Hp O. assert (T : existsb (fun p => negb (isOwned p)) shown = true); [|congruence]. apply existsb_exists. exists p. unfold shown. rewrite filter_In.
      unfold isDummy, isOwned. rewrite O. auto. }
    set (old := map (map (fun p => if outside p then withOwn stDummy p else p)) (ccells (cont s))) in *.
    assert (Eold : concat old = map (fun p => if outside p then withOwn stDummy p else p) (concat (ccells (cont s)))) by (unfold old; rewrite <- concat_map; reflexivity).
    destruct (generate_inv cutoff spt freq lo hi _ _ _ E VK) as (K & P & Q & B & C).
    { intros p Hp. change (In p (concat old)) in Hp. rewrite Eold in Hp. apply in_map_iff in Hp as (q & <- & Hq). destruct (outside q); [left; reflexivity|apply Vs, Hq]. }
    cbn [boxLo boxHi cont contSteps bufs halos valid steps calls nOwned nHalo]. repeat (split; [reflexivity|]). split; [exact K|]. split; [exact P|]. repeat (split; [reflexivity|]).
    split.
    { intros p Hp. apply filter_In in Hp as (_ & Hp). unfold outside in Hp. apply andb_prop in Hp as (H1 & H2). apply owned_iff in H1. split; [exact H1|].
      intros J. apply inBoxb_iff in J. rewrite J in H2. discriminate. }
    split; [exact N2|]. change (Permutation (concat (ccells c)) (filter (fun p => negb (pown p =? 0)) (concat old))) in Q. rewrite Eold in Q.
    assert (Q2 : Permutation (concat (ccells c)) (filter (fun p => isOwned p && inBoxb lo hi (ppos p)) (concat (ccells (cont s))))).
    { rewrite Q. clear - Vs N2. match goal with |- Permutation ?a ?b => cut (a = b); [intros ->; reflexivity|] end.
      induction (concat (ccells (cont s))) as [|p l IH]; [reflexivity|]. cbn [map filter].
      specialize (IH (fun q Hq => Vs q (or_intror Hq)) (fun q Hq => N2 q (or_intror Hq))). rewrite IH. clear IH.
      unfold outside, isOwned, stOwned. destruct (Vs p (or_introl eq_refl)) as [V|[V|V]]; rewrite V; cbn.
      - rewrite V. reflexivity.
      - destruct (inBoxb lo hi (ppos p)); cbn; [rewrite V|]; reflexivity.
      - destruct (N2 p (or_introl eq_refl) V). }
    split.
    - rewrite Q2. unfold shown. rewrite filter_filter. rewrite (perm_split (fun p => inBoxb lo hi (ppos p)) (filter isOwned _)), !filter_filter.
      apply Permutation_app_tail. match goal with |- Permutation ?a ?b => cut (a = b); [intros ->; reflexivity|] end. apply filter_ext. intros p. unfold outside, isDummy, isOwned, stOwned, stDummy.
      destruct (Z.eqb_spec (pown p) 1) as [O|O]; [rewrite O; reflexivity|]. rewrite andb_false_r. reflexivity.
    - intros k p Hp. assert (Y : In p (concat (ccells c))) by (apply in_cells; exists k; exact Hp). apply (Permutation_in _ Q2), filter_In in Y as (_ & Y).
      apply andb_prop in Y as (Y1 & Y2). apply owned_iff in Y1. split; [exact Y1|]. split; [apply inBoxb_iff, Y2|]. rewrite K. exact (C k p Hp).
  Qed.

  Lemma step_resize s lo hi s' out : Inv s -> validBox cutoff spt freq lo hi -> validKind cutoff spt freq lo hi (kind (cont s)) ->
    doResize cutoff spt freq s lo hi = Some (s', out) -> good s (Resize lo hi) s' out.
  Proof.
    intros I VB VK H. destruct (resize_inv s lo hi s' out I VB VK H) as [(-> & -> & -> & ->)|(E1 & E2 & K & P & _ & Bf & Hl & _ & _ & _ & C & _ & O & _ & Q & X)].
    - split; [exact I|]. apply (LResize (mkLedger (boxLo s) (boxHi s) (ownedParticles s))); [reflexivity|constructor].
    - assert (Pm : Permutation (ownedParticles s) (out ++ ownedParticles s')).
      { assert (Es := owned_split s'). rewrite Bf, Hl in Es. rewrite (Es (inv_bufs s I) (inv_halos s I)), (inv_split s I), Q.
        rewrite (filter_all isOwned (concat (ccells (cont s')))); [rewrite app_assoc; reflexivity|]. intros p Hp. apply in_cells in Hp as (k & Hk). apply owned_iff, (X k p Hk). }
      split.
      + constructor.
        * rewrite E1, E2. exact VB.
        * rewrite E1, E2, K. exact VK.
        * rewrite E1, E2. exact P.
        * rewrite Bf. apply (inv_bufs s I).
        * rewrite Hl. apply (inv_halos s I).
        * rewrite C, (inv_count s I), (count_perm _ _ Pm), app_length. lia.
      + rewrite E1, E2. apply (LResize (mkLedger (boxLo s) (boxHi s) (ownedParticles s))); [exact Pm|]. apply Forall_forall. intros p Hp. apply O, Hp.
  Qed.

  Theorem step_good s e s' out : Inv s -> validCall cutoff spt freq s e -> step cutoff spt freq s e (Some (s', out)) -> good s e s' out.
  Proof.
    intros I V H. destruct e; cbn [step validCall] in *.
    - destruct (doAdd _ _ _ _ _ _) as [s1|] eqn:E in H; [|discriminate]. injection H as -> ->. apply (step_add s p thread s1 I E).
    - destruct (doAddHalo _ _ _ _ _ _) as [s1|] eqn:E in H; [|discriminate]. injection H as -> ->. apply (step_halo s p thread s1 I E).
    - destruct H as (H1 & H2 & H3). injection H3 as -> ->. apply (step_delete s p at_ I H1 H2).
    - injection H as -> ->. apply step_deleteAll, I.
    - injection H as -> ->. apply step_move, I.
    - apply (step_update s tunerRebuilds s' out I H).
    - destruct (doCompute _ _ _ _ _ _) as [s1|] eqn:E in H; [|discriminate]. injection H as -> ->. apply (step_compute s pairwise selected s1 I V E).
    - destruct V as (V1 & V2). apply (step_resize s lo hi s' out I V1 V2 (eq_sym H)).
  Qed.

  Lemma initial_inv s : validStart cutoff spt freq s -> Inv s /\ ownedParticles s = [] /\ haloParticles s = [].
  Proof.
    intros (k & lo & hi & n & VB & VK & ->). assert (E : concat (repeat ([] : list Particle) n) = []) by (induction n as [|n IH]; [reflexivity|exact IH]).
    assert (Ec : concat (emptyCells cutoff spt freq k lo hi) = []).
    { unfold emptyCells. destruct k as [|csf]; [reflexivity|]. generalize (Z.to_nat (numCells (blockDims (grid cutoff spt freq csf lo hi)))). intros m. induction m as [|m IH]; [reflexivity|exact IH]. }
    assert (Es : stored (initial cutoff spt freq k lo hi n) = []) by (unfold stored, initial; cbn [cont bufs halos ccells]; rewrite E, Ec; reflexivity).
    unfold ownedParticles, haloParticles. rewrite Es. split; [|split; reflexivity]. constructor; cbn.
    - exact VB.
    - exact VK.
    - apply empty_placed, VK.
    - rewrite E. intros p [].
    - rewrite E. intros p [].
    - change (0 = Z.of_nat (length (filter (fun p => pown p =? 1) (stored (initial cutoff spt freq k lo hi n))))). rewrite Es. reflexivity.
  Qed.

  Theorem history_good s h s' : history cutoff spt freq s h s' -> Inv s ->
    Inv s' /\ ledger (mkLedger (boxLo s) (boxHi s) (ownedParticles s)) h (mkLedger (boxLo s') (boxHi s') (ownedParticles s')).
  Proof.
    induction 1 as [s|s e out s1 h s2 V S H IH]; intros I; [split; [exact I|constructor]|].
    destruct (step_good s e s1 out I V S) as (I1 & L1). destruct (IH I1) as (I2 & L2). split; [exact I2|]. econstructor; eassumption.
  Qed.

  Theorem history_conserved s h s' : validStart cutoff spt freq s -> history cutoff spt freq s h s' ->
    ledger (mkLedger (boxLo s) (boxHi s) []) h (mkLedger (boxLo s') (boxHi s') (ownedParticles s')).
  Proof. intros V H. destruct (initial_inv s V) as (I & E & _). rewrite <- E at 1. apply (history_good s h s' H I). Qed.

  Theorem history_count s h s' : validStart cutoff spt freq s -> history cutoff spt freq s h s' -> nOwned s' = Z.of_nat (length (ownedParticles s')).
  Proof. intros V H. destruct (initial_inv s V) as (I & _). apply inv_count, (history_good s h s' H I). Qed.
End Handler.
