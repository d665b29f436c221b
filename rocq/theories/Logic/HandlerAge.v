(** For how many steps neighbour lists are reused, and what they then contain. *)
From Coq Require Import Reals Lra.
From Verif.Base Require Import ZRange.
From Verif.Grid Require Import CellBlockSpec.
From Verif.Functor Require Import SortModel SortSpec.
From Verif.Container Require Import LinkedCellsSpec LinkedCellsGeo IteratorModel IteratorContainers ParticleModel CollectModel CollectSpec UpdateModel.
From Verif.Logic Require Import BalanceModel HandlerModel HandlerSpec HandlerExact HandlerFields HandlerHalo.
Import ListNotations.
Local Open Scope Z_scope.

Section Age.
  Variables (cutoff spt : R) (freq : Z).
  Hypothesis Hopt : validOptions cutoff spt freq.
  Notation step := (step cutoff spt freq).
  Notation history := (history cutoff spt freq).
  Notation reusing := (reusing cutoff spt freq).

  Lemma history_app s h s1 e out s2 : history s h s1 -> validCall cutoff spt freq s1 e -> step s1 e (Some (s2, out)) -> history s (h ++ [(e, out)]) s2.
  Proof. induction 1; intros; cbn [app]; econstructor; eauto. constructor. Qed.
  Lemma reusing_app s h s1 e out s2 : reusing s h s1 -> validCall cutoff spt freq s1 e -> (forall pw ks, e = Compute pw ks -> rebuildsLists s1 = false) ->
    step s1 e (Some (s2, out)) -> reusing s (h ++ [(e, out)]) s2.
  Proof. induction 1; intros; cbn [app]; econstructor; eauto. constructor. Qed.

  (** The lists in use, with the number of updates since they were built. *)
  Definition built (s0 : State) (h : list (Event * list Particle)) (s : State) (age : Z) : Prop :=
    exists h1 pw ks h2 sa sb, h = h1 ++ (Compute pw ks, []) :: h2 /\ history s0 h1 sa /\ rebuildsLists sa = true /\
      validCall cutoff spt freq sa (Compute pw ks) /\ step sa (Compute pw ks) (Some (sb, [])) /\ reusing sb h2 s /\ updates (map fst h2) = age.

  Lemma age_history s0 h s : validStart cutoff spt freq s0 -> history s0 h s -> computations (map fst h) < 2 ^ 32 ->
    calls s = computations (map fst h) /\ 0 <= steps s <= freq /\
    (valid s = true -> 0 < calls s /\ exists age, built s0 h s age /\ age <= steps s).
  Proof.
    destruct Hopt as (_ & _ & F). intros V0 H. assert (P : exists past sp, past = (@nil (Event * list Particle)) /\ sp = s0 /\ history s0 past sp) by (exists [], s0; repeat split; constructor).
    destruct P as (past & sp & E1 & E2 & P). rewrite <- E2 in H.
    cut (forall past, history s0 past sp -> computations (map fst (past ++ h)) < 2 ^ 32 ->
           (calls sp = computations (map fst past) /\ 0 <= steps sp <= freq /\
            (valid sp = true -> 0 < calls sp /\ exists age, built s0 past sp age /\ age <= steps sp)) ->
           calls s = computations (map fst (past ++ h)) /\ 0 <= steps s <= freq /\
            (valid s = true -> 0 < calls s /\ exists age, built s0 (past ++ h) s age /\ age <= steps s)).
    { intros C Cn. apply (C []); [rewrite E2; constructor|exact Cn|]. rewrite E2. destruct V0 as (k & lo & hi & th & _ & _ & ->). cbn.
      split; [reflexivity|split; [lia|discriminate]]. }
    clear P E1 E2 past.
    induction H as [s|s e out s1 h s2 Vc St H IH]; intros past P Cn I.
    - rewrite app_nil_r. exact I.
    - specialize (IH (past ++ [(e, out)])). rewrite <- app_assoc in IH. cbn [app] in IH. apply IH; [eapply history_app; eassumption|exact Cn|].
      clear IH H. destruct I as (Ic & Is & Iv). pose proof (step_fields cutoff spt freq _ _ _ _ St) as Fl.
      rewrite map_app, computations_app in *. cbn [map fst] in *. rewrite computations_cons in Cn.
      pose proof (computations_pos (map fst past)). pose proof (computations_pos (map fst h)).
      assert (Keep : forall age, built s0 past s age -> (forall pw ks, e = Compute pw ks -> rebuildsLists s = false) ->
                built s0 (past ++ [(e, out)]) s1 (age + updates [e])).
      { intros age (h1 & pw & ks & h2 & sa & sb & -> & B1 & B2 & B3 & B4 & B5 & B6) NR.
        exists h1, pw, ks, (h2 ++ [(e, out)]), sa, sb. rewrite <- app_assoc. cbn [app].
        refine (conj eq_refl (conj B1 (conj B2 (conj B3 (conj B4 (conj _ _)))))); [eapply reusing_app; eassumption|].
        rewrite map_app, updates_app, B6. reflexivity. }
      destruct e.
      1,2,3,5: (destruct Fl as (Fv & Fs & Fc); rewrite Fv, Fs, Fc; change (computations [_]) with 0;
         split; [lia|split; [exact Is|]]; intros V; destruct (Iv V) as (I1 & age & B & A);
         split; [exact I1|]; exists (age + 0); split; [apply (Keep age B); discriminate|lia]).
      + destruct Fl as (Fv & Fs & Fc). rewrite Fv, Fs, Fc. change (computations [_]) with 0. split; [lia|split; [exact Is|discriminate]].
      + destruct Fl as (Fv & Fs & Fc). rewrite Fc. change (computations [_]) with 0. split; [lia|].
        rewrite Fs. unfold newSteps. split.
        { destruct (0 <? calls s); [|lia]. unfold listsValid. destruct (freq <=? steps s) eqn:Q; cbn [orb]; [lia|]. destruct tunerRebuilds; [lia|]. destruct (valid s); lia. }
        rewrite Fv. intros V. rewrite V. unfold listsValid in V. destruct ((freq <=? steps s) || tunerRebuilds)%bool eqn:Q; [discriminate|].
        apply Bool.orb_false_iff in Q. destruct Q as (Q & _). destruct (Iv V) as (I1 & age & B & A).
        replace (0 <? calls s) with true by lia. split; [exact I1|]. exists (age + 1). split; [apply (Keep age B); discriminate|lia].
      + destruct Fl as (Fv & Fs & Fc). rewrite Fc, Fs, Ic. change (computations [Compute pairwise selected]) with 1 in *.
        rewrite Z.mod_small by lia. split; [lia|split; [exact Is|]]. intros _. split; [lia|].
        destruct (valid s) eqn:V.
        * destruct (Iv eq_refl) as (I1 & age & B & A). exists (age + 0). split; [|lia].
          apply (Keep age B). intros. unfold rebuildsLists. rewrite V. reflexivity.
        * assert (O : out = []) by (cbn in St; unfold quiet in St; destruct (doCompute _ _ _ _ _ _); [injection St as _ <-; reflexivity|discriminate]). subst out.
          exists 0. split; [|lia]. exists past, pairwise, selected, [], s, s1.
          refine (conj eq_refl (conj P (conj _ (conj Vc (conj St (conj _ eq_refl)))))); [unfold rebuildsLists; rewrite V; reflexivity|constructor].
      + destruct Fl as (Fv & Fs & Fc). rewrite Fs, Fc. change (computations [_]) with 0. split; [lia|split; [exact Is|]].
        intros V. destruct Fv as [Fv| ->]; [congruence|]. destruct (Iv V) as (I1 & age & B & A). split; [exact I1|].
        exists (age + 0). split; [apply (Keep age B); discriminate|lia].
  Qed.

  Theorem rebuild_schedule s0 h s : validStart cutoff spt freq s0 -> history s0 h s -> computations (map fst h) < 2 ^ 32 -> rebuildsLists s = false ->
    exists h1 pw ks h2 sa sb, h = h1 ++ (Compute pw ks, []) :: h2 /\
      history s0 h1 sa /\ rebuildsLists sa = true /\ step sa (Compute pw ks) (Some (sb, [])) /\ reusing sb h2 s /\
      updates (map fst h2) <= freq.
  Proof.
    intros V H C R. destruct (age_history _ _ _ V H C) as (_ & S & I).
    assert (Vs : valid s = true) by (unfold rebuildsLists in R; destruct (valid s); [reflexivity|discriminate]).
    destruct (I Vs) as (_ & age & (h1 & pw & ks & h2 & sa & sb & A1 & A2 & A3 & A4 & A5 & A6 & A7) & A).
    exists h1, pw, ks, h2, sa, sb. repeat (split; [assumption|]). lia.
  Qed.

  (** Every second call at most moves. *)
  Lemma carried_near : forall es (m : bool) p, disciplined spt m es -> calm spt es ->
    (dist3 (ppos p) (ppos (carried es p)) <= spt / 2 * (IZR (updates es) - (if m then 1 else 0) + (if movedSince m es then 1 else 0)))%R.
  Proof.
    destruct Hopt as (_ & Hs & _).
    assert (Refl : forall x, dist3 x x = 0%R).
    { intros x. unfold dist3, dot, rsub. cbn [rx ry rz]. unfold Rminus. rewrite !Rplus_opp_r. replace (0 * 0 + 0 * 0 + 0 * 0)%R with 0%R by ring. apply sqrt_0. }
    induction es as [|e r IH]; intros m p D Ca; [cbn [carried movedSince]; rewrite Refl; change (updates []) with 0; destruct m; lra|].
    assert (Ca' : calm spt r) by (intros f Hf; apply Ca; right; exact Hf).
    destruct e; cbn [disciplined carried movedSince] in *.
    all: try (change (updates (_ :: r)) with (updates r); apply IH; [exact D|exact Ca']; fail).
    - destruct D as (-> & _ & D). change (updates (_ :: r)) with (updates r).
      pose proof (Ca f (or_introl eq_refl) p) as M. pose proof (IH true (moveTo (f p) p) D Ca') as I. cbn [moveTo ppos] in I.
      pose proof (dist3_triangle (ppos p) (f p) (ppos (carried r (moveTo (f p) p)))) as T.
      change (mkParticle (pid p) (f p) (pown p) (pdata p)) with (moveTo (f p) p) in I. lra.
    - replace (updates (_ :: r)) with (updates r + 1) by (unfold updates; cbn [filter length]; lia). rewrite plus_IZR.
      pose proof (IH false p D Ca') as I. destruct m; lra.
    - destruct D as (-> & D). change (updates (_ :: r)) with (updates r). exact (IH false p D Ca').
  Qed.

  Lemma disciplined_app : forall a b m, disciplined spt m (a ++ b) -> disciplined spt m a /\ disciplined spt (movedSince m a) b.
  Proof.
    induction a as [|e a IH]; intros b m D; [cbn; auto|]. cbn [app] in D.
    destruct e; cbn [disciplined movedSince] in *; intuition; try (apply (IH b); assumption).
  Qed.

  (** Lists that are reused now were complete, and are complete. *)
  Theorem complete_lists s0 h s pw ks : validStart cutoff spt freq s0 -> history s0 h s -> computations (map fst h) < 2 ^ 32 ->
    disciplined spt false (map fst h ++ [Compute pw ks]) -> calm spt (map fst h) -> rebuildsLists s = false ->
    exists h1 pw' ks' h2 sa sb, h = h1 ++ (Compute pw' ks', []) :: h2 /\
      history s0 h1 sa /\ rebuildsLists sa = true /\ step sa (Compute pw' ks') (Some (sb, [])) /\ reusing sb h2 s /\
      (forall p, travelled spt (map fst h2) (ppos p) (ppos (carried (map fst h2) p))) /\
      forall x x' y y', travelled spt (map fst h2) x x' -> travelled spt (map fst h2) y y' ->
        (dist3 x' y' < cutoff -> dist3 x y < cutoff + spt * IZR freq)%R /\
        (dist3 x' y' <= cutoff -> dist3 x y <= cutoff + spt * IZR freq)%R.
  Proof.
    intros V H C D Ca R. destruct (rebuild_schedule _ _ _ V H C R) as (h1 & pw' & ks' & h2 & sa & sb & E & B1 & B2 & B3 & B4 & B5).
    exists h1, pw', ks', h2, sa, sb. refine (conj E (conj B1 (conj B2 (conj B3 (conj B4 (conj _ _)))))).
    - intros p. subst h. rewrite map_app in D, Ca. cbn [map fst] in D, Ca. rewrite <- app_assoc in D. cbn [app] in D.
      apply disciplined_app in D. destruct D as (_ & D). cbn [disciplined] in D. destruct D as (M & D). rewrite M in D.
      apply disciplined_app in D. destruct D as (D & D'). cbn [disciplined] in D'. destruct D' as (M' & _).
      assert (Ca' : calm spt (map fst h2)) by (intros f Hf; apply Ca; apply in_or_app; right; right; exact Hf).
      pose proof (carried_near (map fst h2) false p D Ca') as N. rewrite M' in N. unfold travelled. lra.
    - intros x x' y y' Tx Ty. unfold travelled in *. destruct Hopt as (_ & Hs & _).
      assert (U : (spt / 2 * IZR (updates (map fst h2)) <= spt / 2 * IZR freq)%R) by (apply Rmult_le_compat_l; [lra|apply IZR_le; exact B5]).
      pose proof (dist3_triangle x x' y) as T1. pose proof (dist3_triangle x' y' y) as T2. rewrite (dist3_sym y' y) in T2. split; intros; lra.
  Qed.
End Age.
