(** One round of the loop visits the next pending particle of the thread. *)
From Verif.Base Require Import ZRange.
From Verif.Container Require Import IteratorModel IteratorLemmas IteratorSearch.

Section Steps.
  Context {P : Type}.
  Variable cf : Conf P.
  Hypothesis Hstride : 0 < stride cf.
  Hypothesis Hstart : 0 <= startCell cf.
  Hypothesis Hthread : 0 <= threadNum cf.
  Let first := startCell cf + threadNum cf.

  Definition goodStore (st : Store P) (vs : list nat) : Prop :=
    goodCells cf (cells st) /\ goodVecs (buffers st) vs /\ NoDup vs.

  Definition vecsAll (st : Store P) (vs : list nat) : list P := vrest cf (buffers st) vs (threadNum cf) 0.

  Definition pendingAt (st : Store P) (vs : list nat) (inV : bool) (c p : Z) : list P :=
    if inV then vrest cf (buffers st) vs c p else rest cf (cells st) c p ++ vecsAll st vs.
  Definition pending (st : Store P) (it : Iter P) : list P :=
    match current it with
    | None => []
    | Some _ => pendingAt st (vectors it) (inVectors it) (vecIdx it) (partIdx it)
    end.

  Definition goodIter (st : Store P) (it : Iter P) : Prop :=
    match current it with
    | Some x => if inVectors it then vfound cf (buffers st) (vectors it) (threadNum cf) 0 x (vecIdx it) (partIdx it)
                else found cf (cells st) first 0 x (vecIdx it) (partIdx it)
    | None => (inVectors it = true /\ vecIdx it = sizeMax /\ partIdx it = sizeMax) \/
              (inVectors it = false /\ vectors it = [] /\ vecIdx it = 0 /\ partIdx it = 0)
    end.

  Lemma fetchVectors_spec st vs v i : goodVecs (buffers st) vs -> own cf (threadNum cf) v -> 0 <= i ->
    exists it, fetchVectors cf st vs v i = Some it /\ goodIter st it /\ vectors it = vs /\ inVectors it = true /\
      pending st it = vrest cf (buffers st) vs v i.
  Proof.
    intros G Ho Hi. unfold fetchVectors.
    destruct (scan_spec cf Hstride (buffers st) vs G (S (length vs)) v i) as (r & Er & Hr);
      [destruct Ho; lia|lia|unfold size; destruct Ho; lia|].
    rewrite Er. destruct r as [[[v' i'] x]|].
    - destruct Hr as [Hf Hr]. eexists. split; [reflexivity|]. cbn. repeat split; [|symmetry; exact Hr].
      destruct Hf as (b & A & B & C & D & F & I). exists b. repeat split; auto; apply (own_trans cf Hstride _ _ _ Ho F).
    - eexists. split; [reflexivity|]. cbn. repeat split; auto.
  Qed.

  Lemma fetchVectors_end st vs : goodVecs (buffers st) vs ->
    fetchVectors cf st vs sizeMax sizeMax = Some (mkIter sizeMax sizeMax None vs true).
  Proof.
    intros (G & _). unfold fetchVectors. cbn [scanVectors].
    destruct (Z.ltb_spec sizeMax (size vs)); [lia|reflexivity].
  Qed.

  Lemma vrest_no_vectors bufs v i : vrest cf bufs [] v i = [].
  Proof.
    unfold vrest. rewrite (flat_map_concat_map). 
    assert (E : forall v, vecAt bufs [] v = []).
    { intros w. unfold vecAt, at_. destruct (w <? 0); [reflexivity|]. now destruct (Z.to_nat w). }
    rewrite E, skipn_nil. cbn [filter app].
    induction (zsteps (v + stride cf) (size []) (stride cf)) as [|a l IH]; [reflexivity|].
    cbn. unfold vmatches at 1. rewrite E. exact IH.
  Qed.

  Lemma fetch_spec st vs cur c p : goodStore st vs -> 0 <= c -> 0 <= p < sizeMax -> own cf first (startOf cf c p) ->
    exists it, fetch cf st (mkIter c p cur vs false) = Some it /\ goodIter st it /\ vectors it = vs /\
      pending st it = pendingAt st vs false (startOf cf c p) p /\
      (current it = None -> vs = [] -> inVectors it = false).
  Proof.
    intros (Gc & Gv & _) Hc Hp Ho. unfold fetch. cbn [inVectors vecIdx partIdx vectors].
    destruct (getParticle_spec cf Hstride Hstart Hthread (cells st) Gc c p Hc Hp) as (r & c' & p' & Er & Hr).
    rewrite Er. destruct r as [x|].
    - destruct Hr as [Hf Hr]. eexists. split; [reflexivity|]. split; [|split; [reflexivity|split; [|discriminate]]].
      + destruct Hf as (l & A & B & C & D & F). exists l. repeat split; try tauto; apply (own_trans cf Hstride _ _ _ Ho D).
      + unfold pending, pendingAt. cbn. now rewrite Hr.
    - destruct Hr as (-> & -> & Hr). destruct vs as [|b vs].
      + eexists. split; [reflexivity|]. split; [right; auto|]. split; [reflexivity|]. split; [|reflexivity].
        unfold pending, pendingAt, vecsAll. cbn [current]. now rewrite Hr, vrest_no_vectors.
      + destruct (fetchVectors_spec st (b :: vs) (threadNum cf) 0 Gv) as (it & E & Gi & Ev & Ei & Ep);
          [apply own_refl|lia|].
        exists it. repeat split; auto.
        * rewrite Ep. unfold pendingAt. now rewrite Hr.
        * discriminate.
  Qed.

  (** Creating the iterator. *)
  Lemma begin_spec st vs : goodStore st vs ->
    exists it, begin_ cf st vs = Some it /\ goodIter st it /\ vectors it = vs /\
      pending st it = pendingAt st vs false first 0.
  Proof.
    intros G. destruct (fetch_spec st vs None 0 0 G) as (it & E & Gi & Ev & Ep & _).
    - lia.
    - pose proof sizeMax_pos. lia.
    - unfold startOf. cbn. apply own_refl.
    - exists it. repeat split; auto.
  Qed.

  Lemma startOf_own c p : own cf first c -> startOf cf c p = c.
  Proof.
    intros [H _]. unfold startOf. destruct (Z.eqb_spec c 0); [|reflexivity].
    destruct (p =? 0); [|reflexivity]. cbn [andb]. unfold first in H. lia.
  Qed.

  (** Fetching at the position of a good iterator, or behind it. *)
  Lemma refetch st it x : goodStore st (vectors it) -> goodIter st it -> current it = Some x ->
    forall d, 0 <= d <= 1 ->
    exists it', fetch cf st (mkIter (vecIdx it) (partIdx it + d) (current it) (vectors it) (inVectors it)) = Some it' /\
      goodIter st it' /\ vectors it' = vectors it /\
      pending st it' = pendingAt st (vectors it) (inVectors it) (vecIdx it) (partIdx it + d) /\
      (vectors it = [] -> inVectors it' = false).
  Proof.
    intros G Gi Ec d Hd. unfold goodIter in Gi. rewrite Ec in *. destruct (inVectors it) eqn:Ei.
    - destruct Gi as (b & A & B & C & D & F & I). unfold fetch. cbn [inVectors vectors vecIdx partIdx].
      destruct (fetchVectors_spec st (vectors it) (vecIdx it) (partIdx it + d)) as (it' & E & Gi & Ev & Ei' & Ep);
        [apply G|exact F|lia|].
      exists it'. repeat split; auto. intros E0. apply at_some in A. rewrite E0 in A. cbn in A. lia.
    - destruct Gi as (l & A & B & C & D & F).
      pose proof (good_end cf (cells st) (proj1 G) _ _ _ _ A B C) as [_ Hp].
      destruct (fetch_spec st (vectors it) (Some x) (vecIdx it) (partIdx it + d) G) as (it' & E & Gi & Ev & Ep & Hn).
      + lia.
      + lia.
      + rewrite startOf_own by exact D. exact D.
      + exists it'. rewrite startOf_own in Ep by exact D. repeat split; auto. intros E0.
        destruct (current it') eqn:Ec'; [|now apply Hn].
        unfold goodIter in Gi. rewrite Ec' in Gi. destruct (inVectors it'); [|reflexivity].
        destruct Gi as (b & A' & _). rewrite Ev, E0 in A'. apply at_some in A'. cbn in A'. lia.
  Qed.

  Lemma good_idx st it x : goodStore st (vectors it) -> goodIter st it -> current it = Some x ->
    0 <= partIdx it < sizeMax - 1 /\ 0 <= vecIdx it.
  Proof.
    intros G Gi Ec. unfold goodIter in Gi. rewrite Ec in Gi. destruct (inVectors it).
    - destruct Gi as (b & A & B & C & D & F & I). apply at_some in B. destruct G as (_ & (_ & _ & Gl) & _).
      assert (size (nth b (buffers st) []) < sizeMax) by (apply Gl, nth_In, C). destruct F. lia.
    - destruct Gi as (l & A & B & C & D & F).
      pose proof (good_end cf (cells st) (proj1 G) _ _ _ _ A B C). lia.
  Qed.

  (** [++] of a good iterator. *)
  Lemma next_spec st it x : goodStore st (vectors it) -> goodIter st it -> current it = Some x ->
    exists it', next cf st it = Some it' /\ goodIter st it' /\ vectors it' = vectors it /\
      pending st it = x :: pending st it'.
  Proof.
    intros G Gi Ec. destruct (good_idx st it x G Gi Ec) as [Hp _].
    destruct (refetch st it x G Gi Ec 1) as (it' & E & Gi' & Ev & Ep & _); [lia|].
    exists it'. unfold next. rewrite incr_small by lia. repeat split; auto.
    unfold pending at 1. rewrite Ec. rewrite Ep. unfold goodIter in Gi. rewrite Ec in Gi.
    unfold pendingAt. destruct (inVectors it).
    - destruct Gi as (b & A & B & C & D & F & I). exact (vfound_rest cf (buffers st) (vectors it) b _ _ _ A B D).
    - destruct Gi as (l & A & B & C & D & F). rewrite (found_rest cf (cells st) _ _ x); eauto.
  Qed.

  (** [--] after an [++] and one more [++]: the same place. *)
  Lemma back_next st it : goodStore st (vectors it) -> goodIter st it ->
    (current it = None -> vectors it <> []) ->
    exists it', next cf st (mkIter (vecIdx it) (decr (partIdx it)) (current it) (vectors it) (inVectors it)) = Some it' /\
      goodIter st it' /\ vectors it' = vectors it /\ pending st it' = pending st it.
  Proof.
    intros G Gi Hv. unfold next. cbn [vecIdx partIdx current vectors inVectors].
    destruct (current it) as [x|] eqn:Ec.
    - destruct (good_idx st it x G Gi Ec) as [Hp _]. pose proof sizeMax_pos.
      rewrite incr_decr by lia.
      destruct (refetch st it x G Gi Ec 0) as (it' & E & Gi' & Ev & Ep & _); [lia|].
      rewrite Z.add_0_r in *. rewrite Ec in E. exists it'. repeat split; auto.
      rewrite Ep. unfold pending. now rewrite Ec.
    - unfold goodIter in Gi. rewrite Ec in Gi. destruct Gi as [(E1 & E2 & E3)|(_ & E & _)]; [|now destruct Hv].
      rewrite E1, E2, E3. pose proof sizeMax_pos. rewrite incr_decr by lia.
      unfold fetch. cbn [inVectors vectors vecIdx partIdx]. rewrite fetchVectors_end by apply G.
      eexists. split; [reflexivity|]. unfold goodIter, pending. cbn. rewrite Ec. auto.
  Qed.

  (** What a deletion does to the store. *)
  Inductive deleted (vs : list nat) (x : P) (st : Store P) : Store P -> Prop :=
  | delCell c l l' : own cf first c -> startCell cf <= c <= endCell cf -> relevant cf c = true ->
      at_ (cells st) c = Some l -> size l' <= size l ->
      match marking cf with
      | None => Permutation l (x :: l')
      | Some m => Permutation (m x :: l) (x :: l')
      end ->
      deleted vs x st (mkStore (setAt (cells st) (Z.to_nat c) l') (buffers st))
  | delVec v b l l' : own cf (threadNum cf) v -> at_ vs v = Some b -> nth_error (buffers st) b = Some l ->
      Permutation l (x :: l') ->
      deleted vs x st (mkStore (cells st) (setAt (buffers st) b l')).

  Lemma at_setAt_same {A} (l : list A) c x : 0 <= c < size l -> at_ (setAt l (Z.to_nat c) x) c = Some x.
  Proof.
    intros H. unfold at_. destruct (Z.ltb_spec c 0); [lia|]. apply setAt_same. unfold size in H. lia.
  Qed.
  Lemma at_setAt_other {A} (l : list A) c c' x : 0 <= c -> c' <> c -> at_ (setAt l (Z.to_nat c) x) c' = at_ l c'.
  Proof.
    intros H Hn. unfold at_. destruct (Z.ltb_spec c' 0); [reflexivity|]. apply setAt_other. lia.
  Qed.
  Lemma size_setAt {A} (l : list A) i x : size (setAt l i x) = size l.
  Proof. unfold size. now rewrite setAt_length. Qed.

  Lemma deleted_good st st' vs x : goodStore st vs -> deleted vs x st st' -> goodStore st' vs.
  Proof.
    intros (Gc & Gv & Nd) [c l l' Ho Hr Hrel E Hs _|v b l l' Ho A E Hp]; (split; [|split; [|exact Nd]]); try assumption.
    - destruct Gc as (G1 & G2 & G3). cbn [cells]. split; [now rewrite size_setAt|].
      split; [now rewrite size_setAt|]. intros c' l1 E1.
      assert (Hc : 0 <= c < size (cells st)) by (apply at_some in E; tauto).
      destruct (Z.eq_dec c' c) as [->|Hn].
      + rewrite at_setAt_same in E1 by exact Hc. injection E1 as <-.
        destruct (G3 c l E) as [Hl _]. split; [lia|]. auto.
      + rewrite at_setAt_other in E1 by lia. now apply G3.
    - destruct Gv as (G1 & G2 & G3). cbn [buffers]. split; [exact G1|]. split.
      + intros b' Hb. rewrite setAt_length. now apply G2.
      + intros l1 Hl. apply In_nth_error in Hl. destruct Hl as [n Hn].
        assert (Hb : (b < length (buffers st))%nat) by (apply nth_error_Some; congruence).
        destruct (Nat.eq_dec b n) as [<-|Hd].
        * rewrite setAt_same in Hn by exact Hb. injection Hn as <-.
          assert (size l < sizeMax) by (apply G3; eapply nth_error_In, E).
          apply Permutation_length in Hp. unfold size in *. cbn in Hp. lia.
        * rewrite setAt_other in Hn by exact Hd. apply G3. eapply nth_error_In, Hn.
  Qed.

  Lemma rest_setAt cs c l l' p : 0 <= c -> at_ cs c = Some l ->
    rest cf (setAt cs (Z.to_nat c) l') c p =
    filter (ful cf) (skipn (Z.to_nat p) l') ++ flat_map (matches cf cs) (zsteps (c + stride cf) (endCell cf + 1) (stride cf)).
  Proof.
    intros Hc E. unfold rest. f_equal.
    - unfold cellAt. rewrite at_setAt_same; [reflexivity|]. apply at_some in E. tauto.
    - rewrite !flat_map_concat_map. f_equal. apply map_ext_in. intros c' Hin.
      apply in_zsteps in Hin; [|exact Hstride]. unfold matches, cellAt. rewrite at_setAt_other by lia. reflexivity.
  Qed.

  Lemma nth_setAt {A} (l : list A) b b' x d : b <> b' -> nth b' (setAt l b x) d = nth b' l d.
  Proof.
    intros H. destruct (nth_error l b') eqn:E.
    - rewrite (nth_error_nth _ _ d E). apply nth_error_nth. now rewrite setAt_other.
    - assert (E' : nth_error (setAt l b x) b' = None) by now rewrite setAt_other.
      apply nth_error_None in E, E'. now rewrite !nth_overflow.
  Qed.

  Lemma vrest_setAt bufs vs v b l l' i : NoDup vs -> at_ vs v = Some b -> nth_error bufs b = Some l ->
    vrest cf (setAt bufs b l') vs v i =
    filter (ful cf) (skipn (Z.to_nat i) l') ++
    flat_map (vmatches cf bufs vs) (zsteps (v + stride cf) (size vs) (stride cf)).
  Proof.
    intros Nd A E. unfold vrest. f_equal.
    - unfold vecAt. rewrite A. rewrite (nth_error_nth _ _ [] (setAt_same bufs b l' ltac:(apply nth_error_Some; congruence))).
      reflexivity.
    - rewrite !flat_map_concat_map. f_equal. apply map_ext_in. intros v' Hin.
      apply in_zsteps in Hin; [|exact Hstride]. unfold vmatches, vecAt.
      destruct (at_ vs v') as [b'|] eqn:A'; [|reflexivity].
      rewrite nth_setAt; [reflexivity|]. intros <-.
      apply at_some in A, A'. destruct A as [H1 A], A' as [H2 A'].
      assert (Z.to_nat v = Z.to_nat v').
      { apply (proj1 (NoDup_nth_error vs) Nd); [unfold size in *; lia|congruence]. }
      lia.
  Qed.

  (** What is pending after [x] was visited: the others, or, if there are no
      additional vectors and [x] was the last one and was deleted, everything from
      the beginning again. *)
  Definition after (pend : list P) (vs : list nat) (x : P) (st' : Store P) (it' : Iter P) : Prop :=
    Permutation pend (x :: pending st' it') \/
    (vs = [] /\ Permutation pend [x] /\ pending st' it' = pendingAt st' [] false first 0).

  (** One round of the loop: it visits [x] and the iterator stays good. *)
  Lemma loopStep_general st it x del : goodStore st (vectors it) -> goodIter st it -> current it = Some x ->
    exists st' it', loopStep cf st it del = Some (st', it') /\ goodStore st' (vectors it') /\ goodIter st' it' /\
      vectors it' = vectors it /\ after (pending st it) (vectors it) x st' it' /\
      (if del then deleted (vectors it) x st st' else st' = st).
  Proof.
    intros G Gi Ec. unfold loopStep. destruct del; cycle 1.
    { destruct (next_spec st it x G Gi Ec) as (it' & E & Gi' & Ev & Ep). rewrite E.
      exists st, it'. rewrite Ev. split; [reflexivity|]. split; [exact G|]. split; [exact Gi'|]. split; [reflexivity|].
      split; [left; now rewrite Ep|reflexivity]. }
    destruct (good_idx st it x G Gi Ec) as [Hp Hvi].
    (* the common tail: ++ inside the deletion, then -- and ++ *)
    assert (Tail : forall st', deleted (vectors it) x st st' ->
      (forall it1, goodIter st' it1 -> vectors it1 = vectors it ->
         pending st' it1 = pendingAt st' (vectors it) (inVectors it) (vecIdx it) (partIdx it + 1) ->
         Permutation (pending st it) (x :: pending st' it1)) ->
      (forall d, 0 <= d <= 1 -> d = 1 -> exists it1, next cf st' it = Some it1 /\ goodIter st' it1 /\ vectors it1 = vectors it /\
          pending st' it1 = pendingAt st' (vectors it) (inVectors it) (vecIdx it) (partIdx it + 1) /\
          (current it1 = None -> vectors it = [] -> inVectors it1 = false)) ->
      exists st2 it', match match next cf st' it with
          | Some it' => Some (st', mkIter (vecIdx it') (decr (partIdx it')) (current it') (vectors it') (inVectors it'))
          | None => None end with
        | Some (st', it') => match next cf st' it' with Some it'' => Some (st', it'') | None => None end
        | None => None end = Some (st2, it') /\ goodStore st2 (vectors it') /\ goodIter st2 it' /\
        vectors it' = vectors it /\ after (pending st it) (vectors it) x st2 it' /\ deleted (vectors it) x st st2).
    { intros st' Hd Hperm Hnext. destruct (Hnext 1) as (it1 & E1 & G1 & V1 & P1 & Hnv); [lia|reflexivity|].
      rewrite E1. pose proof (deleted_good _ _ _ _ G Hd) as G'.
      assert (Hcase : (current it1 = None /\ vectors it = []) \/ (current it1 = None -> vectors it1 <> [])).
      { destruct (current it1); [right; discriminate|]. rewrite V1. destruct (vectors it); [now left|right; discriminate]. }
      destruct Hcase as [[Hn Hvn]|Hcase].
      { (* restart *)
        unfold goodIter in G1. rewrite Hn, V1, Hvn in G1.
        assert (Hi : inVectors it1 = false) by (now apply Hnv).
        destruct G1 as [(Q & _)|(Q & _ & Q1 & Q2)]; [congruence|]. rewrite Q1, Q2, Q, V1, Hn, Hvn. unfold next.
        cbn [vecIdx partIdx current vectors inVectors]. pose proof sizeMax_pos. rewrite incr_decr by lia.
        rewrite Hvn in G'. destruct (begin_spec st' [] G') as (it2 & E2 & G2 & V2 & P2). unfold begin_ in E2. rewrite E2.
        exists st', it2. rewrite V2. split; [reflexivity|]. split; [exact G'|]. split; [exact G2|]. split; [reflexivity|].
        split; [|rewrite <- Hvn; exact Hd]. right. split; [reflexivity|]. split; [|exact P2].
        specialize (Hperm it1). unfold goodIter in Hperm. rewrite Hn in Hperm. unfold pending at 3 in Hperm. rewrite Hn in Hperm.
        apply Hperm; [right; rewrite V1; auto|exact V1|]. rewrite <- P1. unfold pending. now rewrite Hn. }
      destruct (back_next st' it1) as (it2 & E2 & G2 & V2 & P2).
      { now rewrite V1. }
      { exact G1. }
      { exact Hcase. }
      rewrite E2. exists st', it2. rewrite V2, V1. split; [reflexivity|]. split; [exact G'|]. split; [exact G2|].
      split; [reflexivity|]. split; [|exact Hd]. left. rewrite P2. now apply Hperm. }
    unfold deleteCurrent. rewrite Ec.
    unfold goodIter in Gi. rewrite Ec in Gi.
    assert (Epend : pending st it = pendingAt st (vectors it) (inVectors it) (vecIdx it) (partIdx it))
      by (unfold pending; now rewrite Ec).
    rewrite Epend in Tail |- *. clear Epend.
    destruct (inVectors it) eqn:Ei.
    - (* in an additional vector *)
      destruct Gi as (b & A & B & C & F & Ho & Hi). rewrite A.
      set (l := nth b (buffers st) []) in *.
      assert (En : nth_error (buffers st) b = Some l) by now apply nth_error_nth'.
      rewrite En. apply at_some in B. destruct B as [Hr B].
      set (i := Z.to_nat (partIdx it)) in *.
      set (st' := mkStore (cells st) (setAt (buffers st) b (swapDelete l i))).
      assert (Hd : deleted (vectors it) x st st').
      { apply (delVec (vectors it) x st (vecIdx it) b l (swapDelete l i) Ho A En). now apply swapDelete_perm. }
      pose proof (deleted_good _ _ _ _ G Hd) as G'.
      assert (Hold : pendingAt st (vectors it) true (vecIdx it) (partIdx it) =
        filter (ful cf) (skipn i l) ++ flat_map (vmatches cf (buffers st) (vectors it))
          (zsteps (vecIdx it + stride cf) (size (vectors it)) (stride cf))).
      { unfold pendingAt, vrest. f_equal. unfold vecAt. now rewrite A. }
      assert (Hnew : forall d, pendingAt st' (vectors it) true (vecIdx it) (partIdx it + d) =
        filter (ful cf) (skipn (Z.to_nat (partIdx it + d)) (swapDelete l i)) ++ flat_map (vmatches cf (buffers st) (vectors it))
          (zsteps (vecIdx it + stride cf) (size (vectors it)) (stride cf))).
      { intros d. unfold pendingAt, st'. cbn [buffers]. apply (vrest_setAt _ _ _ _ l); [apply G|exact A|exact En]. }
      assert (Hnext : forall d, 0 <= d <= 1 -> exists it1,
          fetch cf st' (mkIter (vecIdx it) (partIdx it + d) (current it) (vectors it) true) = Some it1 /\
          goodIter st' it1 /\ vectors it1 = vectors it /\
          pending st' it1 = pendingAt st' (vectors it) true (vecIdx it) (partIdx it + d) /\
          (current it1 = None -> vectors it = [] -> inVectors it1 = false)).
      { intros d Hd1. unfold fetch. cbn [inVectors vectors vecIdx partIdx].
        destruct (fetchVectors_spec st' (vectors it) (vecIdx it) (partIdx it + d)) as (it1 & E1 & Q1 & Q2 & _ & Q4);
          [apply G'|exact Ho|lia|]. exists it1. split; [exact E1|]. split; [exact Q1|]. split; [exact Q2|]. split; [exact Q4|].
        intros _ Hvn. rewrite Hvn in A. apply at_some in A. cbn in A. lia. }
      assert (Hadv : Permutation (filter (ful cf) (skipn i l)) (x :: filter (ful cf) (skipn (Z.to_nat (partIdx it + 1)) (swapDelete l i))) ->
        exists (st'0 : Store P) (it' : Iter P),
          match match next cf st' it with
          | Some it' => Some (st', mkIter (vecIdx it') (decr (partIdx it')) (current it') (vectors it') (inVectors it'))
          | None => None end with
          | Some (st', it') => match next cf st' it' with Some it'' => Some (st', it'') | None => None end
          | None => None end = Some (st'0, it') /\ goodStore st'0 (vectors it') /\ goodIter st'0 it' /\
          vectors it' = vectors it /\
          after (pendingAt st (vectors it) true (vecIdx it) (partIdx it)) (vectors it) x st'0 it' /\
          deleted (vectors it) x st st'0).
      { intros Hperm. apply Tail; [exact Hd| |].
        - intros it1 _ _ ->. rewrite Hold, Hnew. now rewrite Hperm.
        - intros d _ _. unfold next. rewrite incr_small by lia. rewrite Ei. apply Hnext. lia. }
      destruct (swapDelete_spec l i x B) as [(bk & m & S1 & S2 & S3 & S4 & S5 & S6 & S7)|(S1 & S2 & S3 & S4)].
      + rewrite S5. destruct (swapDelete l i) as [|y0 yr] eqn:El; [cbn in S4; lia|]. cbn [orb].
        destruct (ful cf bk) eqn:Fb; cbn [negb].
        * cbn [vecIdx partIdx current vectors inVectors].
          unfold next. cbn [vecIdx partIdx current vectors inVectors].
          pose proof sizeMax_pos. rewrite incr_decr by lia.
          destruct (fetchVectors_spec st' (vectors it) (vecIdx it) (partIdx it)) as (it1 & E1 & Q1 & Q2 & _ & Q4);
            [apply G'|exact Ho|lia|].
          unfold fetch. cbn [inVectors vectors vecIdx partIdx]. rewrite E1.
          exists st', it1. rewrite Q2. split; [reflexivity|]. split; [exact G'|]. split; [exact Q1|].
          split; [reflexivity|]. split; [|exact Hd]. left.
          rewrite Hold, Q4. specialize (Hnew 0). rewrite Z.add_0_r in Hnew. unfold pendingAt in Hnew. rewrite Hnew.
          fold i. rewrite S6, S1. cbn [filter]. rewrite F, Fb, filter_app. cbn [filter]. rewrite Fb. cbn [app]. constructor.
          rewrite <- app_assoc. symmetry. apply Permutation_middle.
        * apply Hadv. replace (Z.to_nat (partIdx it + 1)) with (S i) by lia. rewrite S7, S1.
          cbn [filter]. rewrite F, filter_app. cbn [filter]. rewrite Fb, app_nil_r. reflexivity.
      + assert (E : nth_error (swapDelete l i) i = None) by (apply nth_error_None; lia). rewrite E.
        rewrite F. cbn [negb]. rewrite orb_false_r.
        assert (Hperm : forall k, (i <= k)%nat -> filter (ful cf) (skipn i l) = x :: filter (ful cf) (skipn k (swapDelete l i))).
        { intros k Hk. rewrite S1, skipn_all2 by lia. cbn [filter]. now rewrite F. }
        destruct (swapDelete l i) as [|y0 yr] eqn:El.
        * apply Hadv. rewrite (Hperm (Z.to_nat (partIdx it + 1))) by lia. reflexivity.
        * cbn [vecIdx partIdx current vectors inVectors].
          unfold next. cbn [vecIdx partIdx current vectors inVectors].
          pose proof sizeMax_pos. rewrite incr_decr by lia.
          destruct (fetchVectors_spec st' (vectors it) (vecIdx it) (partIdx it)) as (it1 & E1 & Q1 & Q2 & _ & Q4);
            [apply G'|exact Ho|lia|].
          unfold fetch. cbn [inVectors vectors vecIdx partIdx]. rewrite E1.
          exists st', it1. rewrite Q2. split; [reflexivity|]. split; [exact G'|]. split; [exact Q1|].
          split; [reflexivity|]. split; [|exact Hd]. left.
          rewrite Hold, Q4. specialize (Hnew 0). rewrite Z.add_0_r in Hnew. unfold pendingAt in Hnew. rewrite Hnew.
          fold i. rewrite (Hperm i) by lia. reflexivity.
    - (* in a cell *)
      destruct Gi as (l & A & B & F & Ho & He). rewrite A. apply at_some in B. destruct B as [Hr B].
      set (i := Z.to_nat (partIdx it)) in *.
      assert (Hrel : relevant cf (vecIdx it) = true).
      { destruct G as ((_ & _ & G3) & _). destruct (G3 _ _ A) as [_ Gx]. apply (Gx x); [eapply nth_error_In, B|exact F]. }
      assert (Hold : pendingAt st (vectors it) false (vecIdx it) (partIdx it) =
        filter (ful cf) (skipn i l) ++ flat_map (matches cf (cells st))
          (zsteps (vecIdx it + stride cf) (endCell cf + 1) (stride cf)) ++ vecsAll st (vectors it)).
      { unfold pendingAt, rest. rewrite (cellAt_some _ _ _ A). now rewrite app_assoc. }
      (* whatever the new contents l' of the cell are *)
      assert (Core : forall l', deleted (vectors it) x st (mkStore (setAt (cells st) (Z.to_nat (vecIdx it)) l') (buffers st)) ->
        let st' := mkStore (setAt (cells st) (Z.to_nat (vecIdx it)) l') (buffers st) in
        (Permutation (filter (ful cf) (skipn i l)) (x :: filter (ful cf) (skipn (S i) l')) ->
        exists (st'0 : Store P) (it' : Iter P),
          match match next cf st' it with
          | Some it' => Some (st', mkIter (vecIdx it') (decr (partIdx it')) (current it') (vectors it') (inVectors it'))
          | None => None end with
          | Some (st', it') => match next cf st' it' with Some it'' => Some (st', it'') | None => None end
          | None => None end = Some (st'0, it') /\ goodStore st'0 (vectors it') /\ goodIter st'0 it' /\
          vectors it' = vectors it /\
          after (pendingAt st (vectors it) false (vecIdx it) (partIdx it)) (vectors it) x st'0 it' /\
          deleted (vectors it) x st st'0) /\
        (forall y, Permutation (filter (ful cf) (skipn i l)) (x :: filter (ful cf) (skipn i l')) ->
        exists (st'0 : Store P) (it' : Iter P),
          match next cf st' (mkIter (vecIdx it) (decr (partIdx it)) (Some y) (vectors it) false) with
          | Some it'' => Some (st', it'') | None => None end = Some (st'0, it') /\ goodStore st'0 (vectors it') /\ goodIter st'0 it' /\
          vectors it' = vectors it /\
          after (pendingAt st (vectors it) false (vecIdx it) (partIdx it)) (vectors it) x st'0 it' /\
          deleted (vectors it) x st st'0)).
      { intros l' Hd st'. pose proof (deleted_good _ _ _ _ G Hd) as G'. fold st' in Hd, G'.
        assert (Hnew : forall d, pendingAt st' (vectors it) false (vecIdx it) (partIdx it + d) =
          filter (ful cf) (skipn (Z.to_nat (partIdx it + d)) l') ++ flat_map (matches cf (cells st))
            (zsteps (vecIdx it + stride cf) (endCell cf + 1) (stride cf)) ++ vecsAll st (vectors it)).
        { intros d. unfold pendingAt, st'. cbn [cells]. rewrite (rest_setAt _ _ l) by (auto; lia).
          unfold vecsAll. cbn [buffers]. now rewrite app_assoc. }
        assert (Hnext : forall cur d, 0 <= d <= 1 -> exists it1,
          fetch cf st' (mkIter (vecIdx it) (partIdx it + d) cur (vectors it) false) = Some it1 /\
          goodIter st' it1 /\ vectors it1 = vectors it /\
          pending st' it1 = pendingAt st' (vectors it) false (vecIdx it) (partIdx it + d) /\
          (current it1 = None -> vectors it = [] -> inVectors it1 = false)).
        { intros cur d Hd1.
          destruct (fetch_spec st' (vectors it) cur (vecIdx it) (partIdx it + d) G') as (it1 & E1 & Q1 & Q2 & Q3 & Q5);
            [lia|lia|rewrite startOf_own by exact Ho; exact Ho|].
          rewrite startOf_own in Q3 by exact Ho. exists it1. auto. }
        split.
        - intros Hperm. apply Tail; [exact Hd| |].
          + intros it1 _ _ ->. rewrite Hold, Hnew. replace (Z.to_nat (partIdx it + 1)) with (S i) by lia. now rewrite Hperm.
          + intros d _ _. unfold next. rewrite incr_small by lia. rewrite Ei. apply Hnext. lia.
        - intros y Hperm. unfold next. cbn [vecIdx partIdx current vectors inVectors].
          pose proof sizeMax_pos. rewrite incr_decr by lia.
          destruct (Hnext (Some y) 0) as (it1 & E1 & Q1 & Q2 & Q3 & _); [lia|]. rewrite Z.add_0_r in *. rewrite E1.
          exists st', it1. rewrite Q2. split; [reflexivity|]. split; [exact G'|]. split; [exact Q1|].
          split; [reflexivity|]. split; [|exact Hd]. left.
          rewrite Hold, Q3. specialize (Hnew 0). rewrite Z.add_0_r in Hnew. rewrite Hnew. fold i. now rewrite Hperm. }
      unfold deleteFrom. destruct (marking cf) as [mk|] eqn:Em.
      + (* the container only marks the particle *)
        rewrite B. fold i.
        assert (Hd : deleted (vectors it) x st (mkStore (setAt (cells st) (Z.to_nat (vecIdx it)) (setAt l i (mk x))) (buffers st))).
        { apply (delCell _ _ _ _ l); auto; [rewrite size_setAt; lia|]. rewrite Em.
          destruct (setAt_split l i (mk x) x B) as [E1 ->]. rewrite E1 at 1.
          rewrite <- !Permutation_middle. constructor. }
        destruct (Core _ Hd) as [C1 _].
        assert (Hres : Permutation (filter (ful cf) (skipn i l)) (x :: filter (ful cf) (skipn (S i) (setAt l i (mk x))))).
        { rewrite skipn_setAt, (skipn_nth _ _ _ B). cbn [filter]. now rewrite F. }
        specialize (C1 Hres).
        destruct (nth_error (setAt l i (mk x)) i); exact C1.
      + (* swap-delete *)
        assert (Hd : deleted (vectors it) x st (mkStore (setAt (cells st) (Z.to_nat (vecIdx it)) (swapDelete l i)) (buffers st))).
        { assert (Hpm := swapDelete_perm l i x B). apply (delCell _ _ _ _ l); auto.
          - apply Permutation_length in Hpm. unfold size. cbn in Hpm. lia.
          - now rewrite Em. }
        destruct (Core _ Hd) as [C1 C2]. cbv zeta in C1, C2 |- *.
        destruct (swapDelete_spec l i x B) as [(bk & m & S1 & S2 & S3 & S4 & S5 & S6 & S7)|(S1 & S2 & S3 & S4)].
        * destruct (Nat.ltb_spec i (length (swapDelete l i))); [|lia]. rewrite S5.
          destruct (ful cf bk) eqn:Fb.
          -- cbn [vecIdx partIdx current vectors inVectors]. apply C2. rewrite S6, S1. cbn [filter].
             rewrite F, Fb, filter_app. cbn [filter]. rewrite Fb. constructor. symmetry. apply Permutation_cons_append.
          -- apply C1. rewrite S7, S1. cbn [filter]. rewrite F, filter_app. cbn [filter]. rewrite Fb, app_nil_r. reflexivity.
        * assert (E : nth_error (swapDelete l i) i = None) by (apply nth_error_None; lia). rewrite E.
          apply C1. rewrite S1, skipn_all2 by lia. cbn [filter]. now rewrite F.
  Qed.

  (** With additional vectors, or without deletion, exactly [x] is no longer
      pending. *)
  Lemma loopStep_spec st it x del : goodStore st (vectors it) -> goodIter st it -> current it = Some x ->
    vectors it <> [] \/ del = false ->
    exists st' it', loopStep cf st it del = Some (st', it') /\ goodStore st' (vectors it') /\ goodIter st' it' /\
      vectors it' = vectors it /\ Permutation (pending st it) (x :: pending st' it') /\
      (if del then deleted (vectors it) x st st' else st' = st).
  Proof.
    intros G Gi Ec Hv. destruct del.
    - destruct Hv as [Hv|Hv]; [|discriminate].
      destruct (loopStep_general st it x true G Gi Ec) as (st' & it' & E & G' & Gi' & Ev & Ha & Hd).
      exists st', it'. destruct Ha as [Ha|(Ha & _)]; [|now destruct Hv]. auto 8.
    - unfold loopStep. destruct (next_spec st it x G Gi Ec) as (it' & E & Gi' & Ev & Ep). rewrite E.
      exists st, it'. rewrite Ev, Ep. split; [reflexivity|auto].
  Qed.
End Steps.
