(** All threads together visit every matching particle exactly once. *)
From Verif.Base Require Import ZRange Lists.
From Verif.Container Require Import IteratorModel IteratorSpec IteratorLemmas IteratorSearch IteratorSteps.

Lemma perm_flat_map_update {A B} (f g : A -> list B) (l : list A) t d : NoDup l -> In t l ->
  (forall t', In t' l -> t' <> t -> g t' = f t') -> Permutation (g t) (f t ++ d) ->
  Permutation (flat_map g l) (flat_map f l ++ d).
Proof.
  intros Nd Hin He Ht. induction l as [|a l IH]; [destruct Hin|]. inversion Nd as [|? ? Hna Nd']; subst. cbn [flat_map].
  destruct Hin as [->|Hin].
  - rewrite Ht, <- !app_assoc. apply Permutation_app_head.
    replace (flat_map g l) with (flat_map f l); [apply Permutation_app_comm|].
    rewrite !flat_map_concat_map. f_equal. apply map_ext_in. intros b Hb. symmetry. apply He; [now right|].
    intros ->. now apply Hna.
  - rewrite (He a); [|now left|intros ->; now apply Hna]. rewrite <- app_assoc. apply Permutation_app_head.
    apply IH; auto. intros t' H1 H2. apply He; [now right|exact H2].
Qed.

Lemma perm_flat_map_list {A B} (f : A -> list B) l l' : Permutation l l' -> Permutation (flat_map f l) (flat_map f l').
Proof.
  induction 1; cbn; auto.
  - now apply Permutation_app_head.
  - rewrite !app_assoc. apply Permutation_app_tail, Permutation_app_comm.
  - etransitivity; eassumption.
Qed.

Lemma flat_map_filter {A B} (f : A -> list B) (keep : A -> bool) l :
  (forall a, In a l -> keep a = false -> f a = []) -> flat_map f l = flat_map f (filter keep l).
Proof.
  induction l as [|a l IH]; intros H; [reflexivity|]. cbn [flat_map filter].
  destruct (keep a) eqn:E; cbn [flat_map]; rewrite IH; auto; try (intros; apply H; [now right|assumption]).
  rewrite (H a); [reflexivity|now left|exact E].
Qed.

Lemma filter_concat {A} (f : A -> bool) ls : filter f (concat ls) = flat_map (filter f) ls.
Proof. induction ls as [|l ls IH]; cbn; [reflexivity|]. now rewrite filter_app, IH. Qed.

Lemma flat_map_flat_map {A B C} (f : A -> list B) (g : B -> list C) l :
  flat_map g (flat_map f l) = flat_map (fun a => flat_map g (f a)) l.
Proof. induction l as [|a l IH]; cbn; [reflexivity|]. now rewrite flat_map_app, IH. Qed.

Lemma flat_map_app_perm {A B} (f g : A -> list B) l :
  Permutation (flat_map (fun a => f a ++ g a) l) (flat_map f l ++ flat_map g l).
Proof.
  induction l as [|a l IH]; cbn; [reflexivity|]. rewrite IH, <- !app_assoc. apply Permutation_app_head.
  rewrite !app_assoc. apply Permutation_app_tail, Permutation_app_comm.
Qed.

Lemma flat_map_at {A B} (f : A -> list B) (l : list A) :
  flat_map f l = flat_map (fun i => match at_ l i with Some x => f x | None => [] end) (zrange 0 (size l)).
Proof.
  unfold zrange, size. replace (Z.to_nat (Z.of_nat (length l) - 0)) with (length l) by lia.
  rewrite flat_map_concat_map, (flat_map_concat_map _ (map _ _)), map_map. f_equal.
  assert (G : forall n (l' : list A), (forall k x, nth_error l' k = Some x -> nth_error l (n + k) = Some x) ->
    map f l' = map (fun k => match at_ l (0 + Z.of_nat k) with Some x => f x | None => [] end) (seq n (length l'))).
  { intros n l'. revert n. induction l' as [|a l' IH]; intros n H; [reflexivity|]. cbn [map length seq]. f_equal.
    - unfold at_. destruct (Z.ltb_spec (0 + Z.of_nat n) 0); [lia|]. rewrite Z.add_0_l, Nat2Z.id.
      specialize (H O a eq_refl). rewrite Nat.add_0_r in H. now rewrite H.
    - apply IH. intros k x E. specialize (H (S k) x E). now replace (S n + k)%nat with (n + S k)%nat by lia. }
  apply G. auto.
Qed.

(** The residue classes partition a range. *)
Lemma strided_partition (s e : Z) (T : nat) : (0 < T)%nat ->
  Permutation (flat_map (fun t => zsteps (s + Z.of_nat t) (e + 1) (Z.of_nat T)) (seq 0 T)) (zrange s (e + 1)).
Proof.
  intros HT. apply NoDup_Permutation.
  - assert (G : forall l, NoDup l -> (forall t, In t l -> (t < T)%nat) ->
      NoDup (flat_map (fun t => zsteps (s + Z.of_nat t) (e + 1) (Z.of_nat T)) l)).
    { induction l as [|t l IH]; intros Nd Hl; cbn; [constructor|]. inversion Nd; subst.
      apply NoDup_app_intro.
      - apply NoDup_zsteps. lia.
      - apply IH; auto. intros; apply Hl; now right.
      - intros c H1' H2'. apply in_flat_map in H2'. destruct H2' as (t' & Ht' & H2').
        apply in_zsteps in H1'; [|lia]. apply in_zsteps in H2'; [|lia].
        assert (Hlt : (t < T)%nat) by (apply Hl; now left). assert (Hlt' : (t' < T)%nat) by (apply Hl; now right).
        assert (t = t'); [|subst; contradiction].
        destruct H1' as [_ M1], H2' as [_ M2].
        assert (E1 := Z.div_mod (c - (s + Z.of_nat t)) (Z.of_nat T)). assert (E2 := Z.div_mod (c - (s + Z.of_nat t')) (Z.of_nat T)).
        rewrite M1 in E1. rewrite M2 in E2.
        set (q1 := (c - (s + Z.of_nat t)) / Z.of_nat T) in *. set (q2 := (c - (s + Z.of_nat t')) / Z.of_nat T) in *.
        clearbody q1 q2. assert (Z.of_nat t' - Z.of_nat t = Z.of_nat T * (q1 - q2)) by lia.
        assert (q1 - q2 = 0) by nia. nia. }
    apply G; [apply seq_NoDup|]. intros t Ht. apply in_seq in Ht. lia.
  - apply NoDup_zrange.
  - intros c. rewrite in_flat_map, in_zrange. split.
    + intros (t & Ht & Hc). apply in_zsteps in Hc; lia.
    + intros Hc. exists (Z.to_nat ((c - s) mod Z.of_nat T)).
      assert (Hm : 0 <= (c - s) mod Z.of_nat T < Z.of_nat T) by (apply Z.mod_pos_bound; lia).
      split; [apply in_seq; lia|]. apply in_zsteps; [lia|]. rewrite Z2Nat.id by lia.
      split.
      * assert ((c - s) mod Z.of_nat T <= c - s) by (apply Z.mod_le; lia). lia.
      * replace (c - (s + (c - s) mod Z.of_nat T)) with ((c - s) - (c - s) mod Z.of_nat T) by ring.
        rewrite Zminus_mod_idemp_r, Z.sub_diag. reflexivity.
Qed.

Definition withThread {P} (cf : Conf P) (t : Z) : Conf P :=
  mkConf (relevant cf) (startCell cf) (endCell cf) (lastCell cf) (stride cf) t (ful cf) (marking cf).

Section Parallel.
  Context {P : Type}.
  Variable cf : Conf P.
  Variable T : nat.
  Hypothesis HT : (0 < T)%nat.
  Hypothesis Hstride : stride cf = Z.of_nat T.
  Hypothesis Hstart : 0 <= startCell cf.
  Variable decide : Z -> list P -> P -> bool.
  Variable gatherNow : Store P -> list nat.
  Variable st0 : Store P.
  Let vs := gatherNow st0.
  Hypothesis G0 : goodStore cf st0 vs.

  Let cft (t : nat) := withThread cf (Z.of_nat t).
  Definition share (t : nat) : list P := pendingAt (cft t) st0 vs false (startCell cf + Z.of_nat t) 0.

  Lemma spos : 0 < stride cf. Proof. rewrite Hstride. lia. Qed.

  Lemma goodStore_t t st : goodStore cf st vs <-> goodStore (cft t) st vs.
  Proof. reflexivity. Qed.

  (** A step of thread [t] does not touch the vectors of thread [t']. *)
  Lemma not_own t t' a c : (t < T)%nat -> (t' < T)%nat -> t <> t' ->
    own cf (a + Z.of_nat t) c -> own cf (a + Z.of_nat t') c -> False.
  Proof.
    unfold own. rewrite Hstride. intros H1 H2 Hn [_ M1] [_ M2].
    assert (E1 := Z.div_mod (c - (a + Z.of_nat t)) (Z.of_nat T)). assert (E2 := Z.div_mod (c - (a + Z.of_nat t')) (Z.of_nat T)).
    rewrite M1 in E1. rewrite M2 in E2.
    set (q1 := (c - (a + Z.of_nat t)) / Z.of_nat T) in *. set (q2 := (c - (a + Z.of_nat t')) / Z.of_nat T) in *.
    clearbody q1 q2. assert (Z.of_nat t' - Z.of_nat t = Z.of_nat T * (q1 - q2)) by lia.
    assert (q1 - q2 = 0) by nia. nia.
  Qed.

  Lemma own_cells t t' st st' x c : (t < T)%nat -> (t' < T)%nat -> t <> t' ->
    deleted (cft t) vs x st st' -> own cf (startCell cf + Z.of_nat t') c ->
    at_ (cells st') c = at_ (cells st) c.
  Proof.
    intros H1 H2 Hn [c' l l' Ho Hr Hrel E Hs _|v b l l' Ho A E Hp] Hc; [|reflexivity]. cbn [cells].
    assert (0 <= c') by (apply at_some in E; lia).
    apply (at_setAt_other cf); [assumption|]. intros ->. exact (not_own t t' _ _ H1 H2 Hn Ho Hc).
  Qed.

  Lemma own_vecs t t' st st' x v : (t < T)%nat -> (t' < T)%nat -> t <> t' -> NoDup vs ->
    deleted (cft t) vs x st st' -> own cf (Z.of_nat t') v ->
    vecAt (buffers st') vs v = vecAt (buffers st) vs v /\
    (forall b, at_ vs v = Some b -> nth b (buffers st') [] = nth b (buffers st) []).
  Proof.
    intros H1 H2 Hn Nd [c' l l' Ho Hr Hrel E Hs _|w b l l' Ho A E Hp] Hc; [split; reflexivity|]. cbn [buffers].
    assert (G : forall b', at_ vs v = Some b' -> nth b' (setAt (buffers st) b l') [] = nth b' (buffers st) []).
    { intros b' A'. apply nth_setAt. intros <-.
      apply at_some in A, A'. destruct A as [R A], A' as [R' A'].
      assert (Z.to_nat w = Z.to_nat v).
      { apply (proj1 (NoDup_nth_error vs) Nd); [unfold size in *; lia|congruence]. }
      assert (w = v) by lia. subst w. exact (not_own t t' 0 v H1 H2 Hn Ho Hc). }
    split; [|exact G]. unfold vecAt. destruct (at_ vs v) as [b'|] eqn:A'; [|reflexivity]. now apply G.
  Qed.

  Lemma buffers_length t st st' x : deleted (cft t) vs x st st' -> length (buffers st') = length (buffers st).
  Proof. intros []; cbn; [reflexivity|]. now rewrite setAt_length. Qed.

  Lemma own_steps c c' hi : 0 <= c -> own cf c c' -> forall k, In k (zsteps (c' + stride cf) hi (stride cf)) -> own cf c k.
  Proof.
    intros Hc Ho k Hk. pose proof spos. apply in_zsteps in Hk; [|assumption]. destruct Hk as [Hk1 Hk2].
    apply (own_trans cf H c c' k Ho). apply (own_step cf H). split; [lia|exact Hk2].
  Qed.

  Lemma pending_frame t t' st st' x it : (t < T)%nat -> (t' < T)%nat -> t <> t' -> NoDup vs -> vectors it = vs ->
    deleted (cft t) vs x st st' -> goodIter (cft t') st it ->
    goodIter (cft t') st' it /\ pending (cft t') st' it = pending (cft t') st it.
  Proof.
    intros H1 H2 Hn Nd Ev Hd Gi.
    assert (Rv : forall v i, own cf (Z.of_nat t') v ->
      vrest (cft t') (buffers st') vs v i = vrest (cft t') (buffers st) vs v i).
    { intros v i Ho. unfold vrest. rewrite (proj1 (own_vecs t t' st st' x v H1 H2 Hn Nd Hd Ho)). f_equal.
      rewrite !flat_map_concat_map. f_equal. apply map_ext_in. intros k Hk. unfold vmatches.
      rewrite (proj1 (own_vecs t t' st st' x k H1 H2 Hn Nd Hd (own_steps (Z.of_nat t') v _ ltac:(lia) Ho k Hk))). reflexivity. }
    unfold goodIter, pending in *. destruct (current it) as [y|]; [|split; [exact Gi|reflexivity]].
    destruct (inVectors it).
    - destruct Gi as (b & A & B & C & F & Ho & Hi). rewrite Ev in *. split.
      + exists b. destruct (own_vecs t t' st st' x (vecIdx it) H1 H2 Hn Nd Hd Ho) as [_ Hb].
        rewrite (Hb b A), (buffers_length t st st' x Hd). auto 8.
      + unfold pendingAt. now apply Rv.
    - destruct Gi as (l & A & B & F & Ho & He). split.
      + exists l. rewrite (own_cells t t' st st' x _ H1 H2 Hn Hd Ho). auto 8.
      + unfold pendingAt, vecsAll. rewrite Ev. f_equal.
        * unfold rest, cellAt. rewrite (own_cells t t' st st' x _ H1 H2 Hn Hd Ho). f_equal.
          rewrite !flat_map_concat_map. f_equal. apply map_ext_in. intros k Hk. unfold matches, cellAt.
          rewrite (own_cells t t' st st' x k H1 H2 Hn Hd); [reflexivity|].
          apply (own_steps (startCell cf + Z.of_nat t') (vecIdx it) _ ltac:(lia) Ho k Hk).
        * apply Rv. apply own_refl.
  Qed.

  Lemma share_frame t t' st st' x : (t < T)%nat -> (t' < T)%nat -> t <> t' -> NoDup vs -> deleted (cft t) vs x st st' ->
    pendingAt (cft t') st' vs false (startCell cf + Z.of_nat t') 0 = pendingAt (cft t') st vs false (startCell cf + Z.of_nat t') 0.
  Proof.
    intros H1 H2 Hn Nd Hd. unfold pendingAt, vecsAll. f_equal.
    - pose proof (own_refl cf (startCell cf + Z.of_nat t')) as Ho.
      unfold rest, cellAt. rewrite (own_cells t t' st st' x _ H1 H2 Hn Hd Ho). f_equal.
      rewrite !flat_map_concat_map. f_equal. apply map_ext_in. intros k Hk. unfold matches, cellAt.
      rewrite (own_cells t t' st st' x k H1 H2 Hn Hd); [reflexivity|].
      apply (own_steps (startCell cf + Z.of_nat t') (startCell cf + Z.of_nat t') _ ltac:(lia) Ho k Hk).
    - pose proof (own_refl cf (Z.of_nat t')) as Ho. cbn [threadNum cft withThread].
      unfold vrest. rewrite (proj1 (own_vecs t t' st st' x (Z.of_nat t') H1 H2 Hn Nd Hd Ho)). f_equal.
      rewrite !flat_map_concat_map. f_equal. apply map_ext_in. intros k Hk. unfold vmatches.
      rewrite (proj1 (own_vecs t t' st st' x k H1 H2 Hn Nd Hd (own_steps (Z.of_nat t') (Z.of_nat t') _ ltac:(lia) Ho k Hk))). reflexivity.
  Qed.

  (** Which buffers are iterated over does not depend on what they hold. *)
  Definition stableGather : Prop := forall st st', length (buffers st') = length (buffers st) -> gatherNow st' = gatherNow st.

  (** The state while the loops run.  Threads that have not created their iterator
      yet will get their share. *)
  Definition runningThread (st : Store P) (t : nat) (th : Thread P) : Prop :=
    match th with
    | NotStarted => gatherNow st = vs /\ pendingAt (cft t) st vs false (startCell cf + Z.of_nat t) 0 = share t
    | Running it seen => vectors it = vs /\ goodIter (cft t) st it /\ Permutation (seen ++ pending (cft t) st it) (share t)
    end.
  Definition running (st : Store P) (ths : list (Thread P)) : Prop :=
    length ths = T /\ goodStore cf st vs /\
    (forall t th, nth_error ths t = Some th -> runningThread st t th) /\
    (exists ghosts, (forall g, In g ghosts -> exists m y, marking cf = Some m /\ g = m y) /\
       Permutation (ghosts ++ contents st0) (deletedParticles decide T ths ++ contents st)).
  (** Nothing is deleted, or all iterators were created, or it does not matter when. *)
  Definition calm (ths : list (Thread P)) : Prop :=
    (forall t seen x, decide t seen x = false) \/ (forall t, nth_error ths t <> Some NotStarted) \/ stableGather.
  Definition progress (ths : list (Thread P)) (t : nat) : nat :=
    match nth_error ths t with Some (Running _ seen) => S (length seen) | _ => O end.

  Lemma deleted_contents t st st' x : deleted (cft t) vs x st st' ->
    exists ghosts, (forall g, In g ghosts -> exists m y, marking cf = Some m /\ g = m y) /\
      Permutation (ghosts ++ contents st) (x :: contents st').
  Proof.
    intros [c l l' Ho Hr Hrel E Hs Hm|v b l l' Ho A E Hp]; unfold contents; cbn [cells buffers].
    - apply at_some in E. destruct E as [_ E]. destruct (setAt_concat (cells st) _ l l' E) as (r & P1 & P2).
      cbn [marking cft withThread] in Hm. destruct (marking cf) as [m|] eqn:Em.
      + exists [m x]. split; [intros g [<-|[]]; eauto|]. cbn [app]. rewrite P1, P2.
        rewrite <- !app_assoc. change (m x :: l ++ r ++ concat (buffers st)) with ((m x :: l) ++ r ++ concat (buffers st)).
        now rewrite Hm.
      + exists []. split; [intros g []|]. cbn [app]. rewrite P1, P2, Hm. reflexivity.
    - destruct (setAt_concat (buffers st) _ l l' E) as (r & P1 & P2). exists []. split; [intros g []|]. cbn [app].
      rewrite P1, P2, Hp. cbn [app]. symmetry. apply Permutation_middle.
  Qed.

  Lemma chosenFrom_snoc d : forall seen before (x : P),
    chosenFrom d before (seen ++ [x]) = chosenFrom d before seen ++ (if d (before ++ seen) x then [x] else []).
  Proof.
    induction seen as [|y seen IH]; intros before x; cbn [app chosenFrom].
    - rewrite !app_nil_r. now destruct (d before x).
    - rewrite IH, <- !app_assoc. reflexivity.
  Qed.

  Lemma nth_setAt_same {A} (l : list A) t x : (t < length l)%nat -> nth_error (setAt l t x) t = Some x.
  Proof. apply setAt_same. Qed.

  (** [vs] is not empty or nothing is deleted. *)
  Hypothesis Hvs : vs <> [] \/ forall t seen x, decide t seen x = false.

  Lemma setAt_id {A} (l : list A) t x : nth_error l t = Some x -> setAt l t x = l.
  Proof.
    revert t. induction l as [|a l IH]; intros [|t] En; cbn in *; try discriminate; [congruence|].
    f_equal. now apply IH.
  Qed.

  Lemma step_running st ths t th : running st ths -> calm ths -> nth_error ths t = Some th ->
    exists st' th', threadStep (fun t => withThread cf t) gatherNow decide t st th = Some (st', th') /\
      running st' (setAt ths t th') /\ calm (setAt ths t th') /\
      ((forall x y z, decide x y z = false) -> st' = st) /\
      (finished th' \/ progress (setAt ths t th') t = S (progress ths t)).
  Proof.
    intros (Hl & G & Ht & Hc) Hcalm En.
    assert (HtT : (t < T)%nat) by (rewrite <- Hl; apply nth_error_Some; congruence).
    pose proof spos as Hsp.
    assert (HcalmS : forall it seen, calm (setAt ths t (Running it seen))).
    { intros it seen. destruct Hcalm as [H|[H|H]]; [now left|right; left|now right; right]. intros t'. destruct (Nat.eq_dec t t') as [<-|Hn].
      - rewrite setAt_same by lia. discriminate.
      - rewrite setAt_other by exact Hn. apply H. }
    pose proof (Ht t th En) as Hth. destruct th as [|it seen].
    - cbn [runningThread] in Hth. destruct Hth as [Hg0 Hsh].
      destruct (begin_spec (cft t) Hsp Hstart ltac:(cbn; lia) st vs G) as (it & Eb & Gi & Ev & Ep).
      exists st, (Running it []). cbn [threadStep]. rewrite Hg0. unfold cft in Eb. rewrite Eb. split; [reflexivity|].
      split; [|split; [apply HcalmS|split; [reflexivity|]]].
      + split; [now rewrite setAt_length|]. split; [exact G|]. split.
        * intros t' th' E'. destruct (Nat.eq_dec t t') as [<-|Hn].
          -- rewrite setAt_same in E' by lia. injection E' as <-. cbn [runningThread]. split; [exact Ev|].
             split; [exact Gi|]. cbn [app]. rewrite Ep. cbn [cft withThread startCell threadNum]. now rewrite <- Hsh.
          -- rewrite setAt_other in E' by exact Hn. now apply Ht.
        * destruct Hc as (gh & Hg & Hperm). exists gh. split; [exact Hg|]. rewrite Hperm. apply Permutation_app_tail.
          replace (deletedParticles decide T (setAt ths t (Running it []))) with (deletedParticles decide T ths); [reflexivity|].
          unfold deletedParticles. rewrite !flat_map_concat_map. f_equal. apply map_ext. intros t'.
          unfold deletedBy, visitedBy. destruct (Nat.eq_dec t t') as [<-|Hn].
          -- rewrite setAt_same, En by lia. reflexivity.
          -- now rewrite setAt_other by exact Hn.
      + right. unfold progress. rewrite setAt_same, En by lia. reflexivity.
    - destruct Hth as (Ev & Gi & Hp). unfold threadStep. destruct (current it) as [x|] eqn:Ec.
      + destruct (loopStep_spec (cft t) Hsp Hstart ltac:(cbn; lia) st it x (decide (Z.of_nat t) seen x))
          as (st' & it' & El & G' & Gi' & Ev' & Hp' & Hd); auto.
        { rewrite Ev. exact G. }
        { destruct Hvs as [H|H]; [left; now rewrite Ev|right; apply H]. }
        unfold cft in El. rewrite El. exists st', (Running it' (seen ++ [x])). split; [reflexivity|].
        rewrite Ev in Hd. rewrite Ev', Ev in G'.
        assert (Hcontents : exists ghosts, (forall g, In g ghosts -> exists m y, marking cf = Some m /\ g = m y) /\
          Permutation (ghosts ++ contents st) ((if decide (Z.of_nat t) seen x then [x] else []) ++ contents st')).
        { destruct (decide (Z.of_nat t) seen x).
          - exact (deleted_contents t st st' x Hd).
          - exists []. split; [intros g []|]. subst st'. reflexivity. }
        split; [|split; [apply HcalmS|split]].
        * split; [now rewrite setAt_length|]. split; [exact G'|]. split.
          -- intros t' th' E'. destruct (Nat.eq_dec t t') as [<-|Hn].
             ++ rewrite setAt_same in E' by lia. injection E' as <-. cbn [runningThread]. split; [congruence|].
                split; [exact Gi'|]. rewrite <- app_assoc. cbn [app]. now rewrite <- Hp, Hp'.
             ++ rewrite setAt_other in E' by exact Hn. specialize (Ht t' th' E').
                assert (Ht' : (t' < T)%nat) by (rewrite <- Hl; apply nth_error_Some; congruence).
                destruct th' as [|it1 seen1].
                ** cbn [runningThread] in *. destruct (decide (Z.of_nat t) seen x) eqn:Ed; [|now subst st'].
                   destruct Hcalm as [H|[H|H]]; [now rewrite H in Ed|now destruct (H t')|].
                   destruct Ht as [Q1 Q2]. split; [rewrite <- Q1; apply H; exact (buffers_length t st st' x Hd)|].
                   rewrite <- Q2. apply (share_frame t t' st st' x HtT Ht' Hn); [apply G|exact Hd].
                ** destruct Ht as (Ev1 & Gi1 & Hp1). cbn [runningThread]. split; [exact Ev1|].
                   destruct (decide (Z.of_nat t) seen x).
                   --- destruct (pending_frame t t' st st' x it1 HtT Ht' Hn) as [Q1 Q2]; auto; [apply G|].
                       split; [exact Q1|]. now rewrite Q2.
                   --- subst st'. auto.
          -- destruct Hc as (gh & Hg & Hperm). destruct Hcontents as (gh' & Hg' & Hperm').
             exists (gh' ++ gh). split; [intros g Hin; apply in_app_or in Hin; destruct Hin; auto|].
             assert (Hdel : Permutation (deletedParticles decide T (setAt ths t (Running it' (seen ++ [x]))))
               (deletedParticles decide T ths ++ (if decide (Z.of_nat t) seen x then [x] else []))).
             { unfold deletedParticles. apply perm_flat_map_update with (t := t).
               - apply seq_NoDup.
               - apply in_seq. lia.
               - intros t' _ Hn. unfold deletedBy, visitedBy. now rewrite setAt_other by congruence.
               - unfold deletedBy, visitedBy. rewrite setAt_same, En by lia. unfold chosen.
                 rewrite chosenFrom_snoc. reflexivity. }
             rewrite Hdel, <- app_assoc, Hperm, <- (app_assoc (deletedParticles decide T ths)), <- Hperm'.
             rewrite !app_assoc. apply Permutation_app_tail, Permutation_app_comm.
        * intros Hf. rewrite Hf in Hd. exact Hd.
        * right. unfold progress. rewrite setAt_same, En by lia. rewrite app_length. cbn. lia.
      + exists st, (Running it seen). split; [reflexivity|]. rewrite (setAt_id ths t _ En).
        split; [|split; [exact Hcalm|split; [reflexivity|left; exact Ec]]].
        split; [exact Hl|]. split; [exact G|]. split; [exact Ht|exact Hc].
  Qed.

  Lemma share_le t : (t < T)%nat -> (length (share t) <= length (flat_map share (seq 0 T)))%nat.
  Proof.
    intros Ht. assert (Hin : In t (seq 0 T)) by (apply in_seq; lia). revert Hin. generalize (seq 0 T).
    induction l as [|a l IH]; intros Hin; [destruct Hin|]. cbn [flat_map]. rewrite app_length. destruct Hin as [->|Hin]; [lia|].
    specialize (IH Hin). lia.
  Qed.

  Lemma finished_stays t : forall sch st ths st' ths' th, running st ths -> calm ths ->
    nth_error ths t = Some th -> finished th ->
    runParallel (fun t => withThread cf t) gatherNow decide sch st ths = Some (st', ths') ->
    exists th', nth_error ths' t = Some th' /\ finished th'.
  Proof.
    induction sch as [|u sch IH]; intros st ths st' ths' th R K E F Er.
    - cbn in Er. injection Er as <- <-. eauto.
    - cbn [runParallel] in Er. destruct (nth_error ths u) as [thu|] eqn:Eu; [|eapply IH; eauto].
      destruct (step_running st ths u thu R K Eu) as (st2 & th2 & E2 & R2 & K2 & _). rewrite E2 in Er.
      destruct (Nat.eq_dec u t) as [->|Hne].
      + rewrite E in Eu. injection Eu as <-. destruct th as [|it seen]; [destruct F|].
        unfold threadStep in E2. unfold finished in F. rewrite F in E2. injection E2 as <- <-.
        eapply (IH st _ st' ths' (Running it seen) R2 K2); [|exact F|exact Er].
        apply setAt_same, nth_error_Some. congruence.
      + eapply (IH st2 _ st' ths' th R2 K2); [|exact F|exact Er]. rewrite setAt_other by exact Hne. exact E.
  Qed.

  (** Progress: a thread that got more steps than it has particles is finished. *)
  Lemma run_running : forall schedule st ths, running st ths -> calm ths ->
    exists st' ths', runParallel (fun t => withThread cf t) gatherNow decide schedule st ths = Some (st', ths') /\
      running st' ths' /\ ((forall x y z, decide x y z = false) -> st' = st) /\
      forall t, (t < T)%nat -> (exists th, nth_error ths' t = Some th /\ finished th) \/
        progress ths' t = (progress ths t + count_occ Nat.eq_dec schedule t)%nat.
  Proof.
    induction schedule as [|t r IH]; intros st ths R K.
    - exists st, ths. split; [reflexivity|]. split; [exact R|]. split; [reflexivity|]. intros t _. right. cbn. lia.
    - cbn [runParallel]. destruct (nth_error ths t) as [th|] eqn:En.
      + destruct (step_running st ths t th R K En) as (st1 & th1 & E1 & R1 & K1 & S1 & F1). rewrite E1.
        destruct (IH st1 (setAt ths t th1) R1 K1) as (st' & ths' & E' & R' & S' & F').
        exists st', ths'. split; [exact E'|]. split; [exact R'|]. split; [intros H; rewrite S', S1; auto|].
        assert (HtT : (t < T)%nat) by (destruct R as (Hl & _); rewrite <- Hl; apply nth_error_Some; congruence).
        intros t' Ht'. destruct (F' t' Ht') as [Hf|Hn]; [now left|]. cbn [count_occ].
        destruct (Nat.eq_dec t t') as [<-|Hne].
        * destruct F1 as [F1|F1]; [|right; lia]. left.
          eapply (finished_stays t r st1 _ st' ths' th1 R1 K1); [|exact F1|exact E'].
          apply setAt_same. destruct R as (Hl & _). lia.
        * right. rewrite Hn. unfold progress. rewrite setAt_other by exact Hne. reflexivity.
      + destruct (IH st ths R K) as (st' & ths' & E' & R' & S' & F'). exists st', ths'.
        split; [exact E'|]. split; [exact R'|]. split; [exact S'|].
        intros t' Ht'. destruct (F' t' Ht') as [Hf|Hn]; [now left|]. right. cbn [count_occ].
        destruct (Nat.eq_dec t t') as [<-|]; [|exact Hn].
        destruct R as (Hl & _). apply nth_error_None in En. lia.
  Qed.

  (** All iterators are created, in any order, before the first deletion. *)
  Lemma create_all : forall order ths, length ths = T -> NoDup order ->
    (forall t, In t order -> nth_error ths t = Some NotStarted) ->
    (forall t, (t < T)%nat -> ~ In t order -> exists it, begin_ (cft t) st0 vs = Some it /\ nth_error ths t = Some (Running it [])) ->
    exists ths', runParallel (fun t => withThread cf t) gatherNow decide order st0 ths = Some (st0, ths') /\ length ths' = T /\
      forall t, (t < T)%nat -> exists it, begin_ (cft t) st0 vs = Some it /\ nth_error ths' t = Some (Running it []).
  Proof.
    induction order as [|t order IH]; intros ths Hl Nd Hin Hout.
    - exists ths. split; [reflexivity|]. split; [exact Hl|]. intros t Ht. apply Hout; auto.
    - cbn [runParallel]. rewrite (Hin t) by now left. cbn [threadStep].
      assert (HtT : (t < T)%nat) by (rewrite <- Hl; apply nth_error_Some; rewrite (Hin t); [discriminate|now left]).
      pose proof spos as Hsp.
      destruct (begin_spec (cft t) Hsp Hstart ltac:(cbn; lia) st0 vs G0) as (it & Eb & _).
      fold vs. unfold cft in Eb. rewrite Eb. inversion Nd; subst.
      apply IH; auto.
      + now rewrite setAt_length.
      + intros t' Ht'. rewrite setAt_other by (intros ->; contradiction). apply Hin. now right.
      + intros t' Ht' Hn. destruct (Nat.eq_dec t t') as [<-|Hne].
        * exists it. split; [exact Eb|]. apply setAt_same. lia.
        * rewrite setAt_other by exact Hne. apply Hout; [exact Ht'|]. intros [->|H]; [congruence|contradiction].
  Qed.

  Lemma shares : Permutation (flat_map share (seq 0 T))
    (filter (ful cf) (concat (cells st0)) ++ flat_map (fun b => filter (ful cf) (nth b (buffers st0) [])) vs).
  Proof.
    pose proof spos as Hsp. unfold share, pendingAt, vecsAll.
    rewrite (flat_map_app_perm (fun t => rest (cft t) (cells st0) (startCell cf + Z.of_nat t) 0)
      (fun t => vrest (cft t) (buffers st0) vs (threadNum (cft t)) 0)).
    destruct G0 as (Gc & Gv & Nd). destruct Gc as (G1 & G2 & G3). apply Permutation_app.
    - transitivity (flat_map (matches cf (cells st0)) (flat_map (fun t => zsteps (startCell cf + Z.of_nat t) (endCell cf + 1) (Z.of_nat T)) (seq 0 T))).
      { rewrite flat_map_flat_map. rewrite !(flat_map_concat_map _ (seq 0 T)).
        replace (map (fun t => rest (cft t) (cells st0) (startCell cf + Z.of_nat t) 0) (seq 0 T))
          with (map (fun t => flat_map (matches cf (cells st0)) (zsteps (startCell cf + Z.of_nat t) (endCell cf + 1) (Z.of_nat T))) (seq 0 T)); [reflexivity|].
        apply map_ext_in. intros t _. unfold rest. cbn [cft withThread ful endCell stride]. rewrite <- Hstride.
        destruct (Z.ltb_spec (startCell cf + Z.of_nat t) (endCell cf + 1)).
        - rewrite zsteps_cons by assumption. reflexivity.
        - rewrite !zsteps_nil by lia. cbn [flat_map]. rewrite app_nil_r. symmetry. apply filter_nil.
          intros x Hx. cbn [Z.to_nat skipn] in Hx. unfold cellAt in Hx.
          destruct (at_ (cells st0) (startCell cf + Z.of_nat t)) as [l|] eqn:El; [|destruct Hx].
          destruct (ful cf x) eqn:F; [|reflexivity].
          destruct (G3 _ _ El) as [_ Gx]. destruct (Gx x Hx F). lia. }
      rewrite (perm_flat_map_list _ _ _ (strided_partition (startCell cf) (endCell cf) T HT)).
      rewrite filter_concat, (flat_map_at (filter (ful cf)) (cells st0)).
      rewrite (flat_map_filter _ (fun c => (startCell cf <=? c) && (c <=? endCell cf)) (zrange 0 (size (cells st0)))).
      + rewrite (perm_flat_map_list _ (filter (fun c => (startCell cf <=? c) && (c <=? endCell cf)) (zrange 0 (size (cells st0)))) (zrange (startCell cf) (endCell cf + 1))).
        * rewrite !flat_map_concat_map. replace (map (matches cf (cells st0)) (zrange (startCell cf) (endCell cf + 1))) with
            (map (fun i => match at_ (cells st0) i with Some x => filter (ful cf) x | None => [] end) (zrange (startCell cf) (endCell cf + 1))); [reflexivity|].
          apply map_ext. intros c. unfold matches, cellAt. now destruct (at_ (cells st0) c).
        * apply NoDup_Permutation; [apply NoDup_filter, NoDup_zrange|apply NoDup_zrange|].
          intros c. rewrite filter_In, !in_zrange. lia.
      + intros c _ Hk. destruct (at_ (cells st0) c) as [l|] eqn:El; [|reflexivity].
        apply filter_nil. intros x Hx. destruct (ful cf x) eqn:F; [|reflexivity].
        destruct (G3 _ _ El) as [_ Gx]. destruct (Gx x Hx F). lia.
    - transitivity (flat_map (vmatches cf (buffers st0) vs) (flat_map (fun t => zsteps (0 + Z.of_nat t) (size vs - 1 + 1) (Z.of_nat T)) (seq 0 T))).
      { rewrite flat_map_flat_map. rewrite !(flat_map_concat_map _ (seq 0 T)).
        replace (map (fun t => vrest (cft t) (buffers st0) vs (threadNum (cft t)) 0) (seq 0 T))
          with (map (fun t => flat_map (vmatches cf (buffers st0) vs) (zsteps (0 + Z.of_nat t) (size vs - 1 + 1) (Z.of_nat T))) (seq 0 T)); [reflexivity|].
        apply map_ext_in. intros t _. unfold vrest. cbn [cft withThread ful stride threadNum]. rewrite <- Hstride.
        replace (size vs - 1 + 1) with (size vs) by ring. rewrite Z.add_0_l.
        destruct (Z.ltb_spec (Z.of_nat t) (size vs)).
        - rewrite zsteps_cons by assumption. reflexivity.
        - rewrite !zsteps_nil by lia. unfold vecAt. rewrite at_none by lia. reflexivity. }
      rewrite (perm_flat_map_list _ _ _ (strided_partition 0 (size vs - 1) T HT)).
      replace (size vs - 1 + 1) with (size vs) by ring. rewrite (flat_map_at _ vs).
      rewrite !flat_map_concat_map. replace (map (vmatches cf (buffers st0) vs) (zrange 0 (size vs))) with
            (map (fun i => match at_ vs i with Some b => filter (ful cf) (nth b (buffers st0) []) | None => [] end) (zrange 0 (size vs))); [reflexivity|].
      apply map_ext. intros c. unfold vmatches, vecAt. now destruct (at_ vs c).
  Qed.

  Lemma run_app : forall a b st ths, runParallel (fun t => withThread cf t) gatherNow decide (a ++ b) st ths =
    match runParallel (fun t => withThread cf t) gatherNow decide a st ths with
    | Some (st', ths') => runParallel (fun t => withThread cf t) gatherNow decide b st' ths' | None => None end.
  Proof.
    induction a as [|u a IH]; intros b st ths; [reflexivity|]. cbn [app runParallel].
    destruct (nth_error ths u); [|apply IH]. destruct (threadStep _ _ _ u st t) as [[st' th']|]; [apply IH|reflexivity].
  Qed.

  Lemma none_deleted ths : (forall t, visitedBy ths t = []) -> deletedParticles decide T ths = [].
  Proof.
    intros H. unfold deletedParticles. generalize (seq 0 T). induction l as [|a l IH]; [reflexivity|]. cbn.
    unfold deletedBy at 1. rewrite H. exact IH.
  Qed.

  (** The loops of all threads, whatever the interleaving. *)
  Lemma parallel_iteration schedule : allowedSchedule decide T schedule \/ stableGather ->
    exists st' ths', runParallel (fun t => withThread cf t) gatherNow decide schedule st0 (repeat NotStarted T) = Some (st', ths') /\
      length ths' = T /\
      ((forall x y z, decide x y z = false) -> st' = st0) /\
      ((forall t, (t < T)%nat -> (length (flat_map share (seq 0 T)) + 1 < count_occ Nat.eq_dec schedule t)%nat) -> Forall finished ths') /\
      (Forall finished ths' -> Permutation (visited T ths') (flat_map share (seq 0 T))) /\
      (exists ghosts, (forall g, In g ghosts -> exists m y, marking cf = Some m /\ g = m y) /\
         Permutation (ghosts ++ contents st0) (deletedParticles decide T ths' ++ contents st')) /\
      (forall t x, In x (visitedBy ths' t) -> ful cf x = true).
  Proof.
    intros Hall. pose proof spos as Hsp.
    assert (Hrun : exists st' ths', runParallel (fun t => withThread cf t) gatherNow decide schedule st0 (repeat NotStarted T) = Some (st', ths') /\
      running st' ths' /\ ((forall x y z, decide x y z = false) -> st' = st0) /\
      forall t, (t < T)%nat -> (exists th, nth_error ths' t = Some th /\ finished th) \/
        progress ths' t = count_occ Nat.eq_dec schedule t).
    { assert (K0 : calm (repeat NotStarted T) -> exists st' ths', runParallel (fun t => withThread cf t) gatherNow decide schedule st0 (repeat NotStarted T) = Some (st', ths') /\
        running st' ths' /\ ((forall x y z, decide x y z = false) -> st' = st0) /\
        forall t, (t < T)%nat -> (exists th, nth_error ths' t = Some th /\ finished th) \/
          progress ths' t = count_occ Nat.eq_dec schedule t).
      { intros K. destruct (run_running schedule st0 (repeat NotStarted T)) as (st' & ths' & E' & R' & S' & F').
        + split; [apply repeat_length|]. split; [exact G0|]. split.
          * intros t th E. apply nth_error_In, repeat_spec in E. subst th. split; reflexivity.
          * exists []. split; [intros g []|]. cbn [app]. rewrite none_deleted; [reflexivity|].
            intros t. unfold visitedBy. destruct (nth_error (repeat NotStarted T) t) as [th|] eqn:E; [|reflexivity].
            apply nth_error_In, repeat_spec in E. now subst th.
        + exact K.
        + exists st', ths'. split; [exact E'|]. split; [exact R'|]. split; [exact S'|]. intros t Ht.
          destruct (F' t Ht) as [H|H]; [now left|right]. rewrite H. unfold progress. now rewrite nth_error_repeat. }
      destruct Hall as [[Hnd|(order & rest_ & Hord & ->)]|Hst]; [apply K0; now left| |apply K0; now right; right].
      clear K0.
      - destruct (create_all order (repeat NotStarted T)) as (ths1 & E1 & L1 & B1).
        { apply repeat_length. }
        { apply (Permutation_NoDup (Permutation_sym Hord)), seq_NoDup. }
        { intros t Ht. apply (Permutation_in _ Hord) in Ht. apply in_seq in Ht. rewrite nth_error_repeat by lia. reflexivity. }
        { intros t Ht Hn. exfalso. apply Hn. apply (Permutation_in _ (Permutation_sym Hord)). apply in_seq. lia. }
        assert (R1 : running st0 ths1).
        { split; [exact L1|]. split; [exact G0|]. split.
          - intros t th En. assert (Ht : (t < T)%nat) by (rewrite <- L1; apply nth_error_Some; congruence).
            destruct (B1 t Ht) as (it & Eb & En'). rewrite En in En'. injection En' as ->.
            destruct (begin_spec (cft t) Hsp Hstart ltac:(cbn; lia) st0 vs G0) as (it' & Eb' & Gi & Ev & Ep).
            rewrite Eb in Eb'. injection Eb' as <-. split; [exact Ev|]. split; [exact Gi|].
            cbn [app]. unfold share. now rewrite Ep.
          - exists []. split; [intros g []|]. cbn [app]. rewrite none_deleted; [reflexivity|].
            intros t. unfold visitedBy. destruct (nth_error ths1 t) as [th|] eqn:En; [|reflexivity].
            assert (Ht : (t < T)%nat) by (rewrite <- L1; apply nth_error_Some; congruence).
            destruct (B1 t Ht) as (it & _ & En'). rewrite En in En'. now injection En' as ->. }
        assert (K1 : calm ths1).
        { right. left. intros t Hn. assert (Ht : (t < T)%nat) by (rewrite <- L1; apply nth_error_Some; congruence).
          destruct (B1 t Ht) as (it & _ & En). congruence. }
        rewrite run_app, E1. destruct (run_running rest_ st0 ths1 R1 K1) as (st' & ths' & E' & R' & S' & F').
        exists st', ths'. split; [exact E'|]. split; [exact R'|]. split; [exact S'|]. intros t Ht.
        destruct (F' t Ht) as [H|H]; [now left|right]. rewrite H. unfold progress.
        destruct (B1 t Ht) as (it & _ & En). rewrite En. cbn [length]. rewrite count_occ_app.
        replace (count_occ Nat.eq_dec order t) with 1%nat; [lia|]. symmetry.
        rewrite (proj1 (Permutation_count_occ Nat.eq_dec order (seq 0 T)) Hord t).
        apply (proj1 (NoDup_count_occ' Nat.eq_dec (seq 0 T))); [apply seq_NoDup|apply in_seq; lia]. }
    destruct Hrun as (st' & ths' & E' & R' & S' & F').
    exists st', ths'. split; [exact E'|]. destruct R' as (L' & G' & T' & C'). split; [exact L'|]. split; [exact S'|].
    assert (Hnth : forall t, (t < T)%nat -> exists th, nth_error ths' t = Some th).
    { intros t Ht. destruct (nth_error ths' t) eqn:E; [eauto|]. apply nth_error_None in E. lia. }
    split; [|split; [|split]].
    - intros Hcnt. apply Forall_forall. intros th Hin. apply In_nth_error in Hin. destruct Hin as [t En].
      assert (Ht : (t < T)%nat) by (rewrite <- L'; apply nth_error_Some; congruence).
      destruct (F' t Ht) as [(th' & En' & Hf)|Hn]; [congruence|exfalso].
      specialize (Hcnt t Ht). specialize (T' t th En). unfold progress in Hn. rewrite En in Hn.
      destruct th as [|it seen]; [lia|]. destruct T' as (_ & _ & Hp).
      apply Permutation_length in Hp. rewrite app_length in Hp. pose proof (share_le t Ht). lia.
    - intros Hf. unfold visited. rewrite Forall_forall in Hf.
      assert (H : forall t, In t (seq 0 T) -> Permutation (visitedBy ths' t) (share t)).
      { intros t Ht. apply in_seq in Ht. destruct (Hnth t ltac:(lia)) as [th En]. specialize (T' t th En).
        specialize (Hf th (nth_error_In _ _ En)). unfold visitedBy. rewrite En. destruct th as [|it seen]; [destruct Hf|].
        destruct T' as (_ & _ & Hp). cbn in Hf. unfold pending in Hp. now rewrite Hf, app_nil_r in Hp. }
      revert H. generalize (seq 0 T). induction l as [|a l IH]; intros H; [reflexivity|]. cbn [flat_map].
      apply Permutation_app; [apply H; now left|]. apply IH. intros; apply H; now right.
    - exact C'.
    - intros t x Hx. unfold visitedBy in Hx. destruct (nth_error ths' t) as [[|it seen]|] eqn:En; try contradiction.
      assert (Ht : (t < T)%nat) by (rewrite <- L'; apply nth_error_Some; congruence).
      destruct (T' t _ En) as (_ & _ & Hp).
      assert (Hin : In x (share t)) by (apply (Permutation_in _ Hp), in_or_app; now left).
      assert (Hin2 : In x (flat_map share (seq 0 T))) by (apply in_flat_map; exists t; split; [apply in_seq; lia|exact Hin]).
      apply (Permutation_in _ shares) in Hin2. apply in_app_or in Hin2. destruct Hin2 as [H|H].
      + apply filter_In in H. tauto.
      + apply in_flat_map in H. destruct H as (b & _ & H). apply filter_In in H. tauto.
  Qed.
End Parallel.
