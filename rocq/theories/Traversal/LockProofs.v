From Verif.Base Require Import ZRange Occ.
From Verif.Traversal Require Import SliceModel SliceSpec SliceProofs LockModel.

(** Static check of a slice's action list against the set [H] of locks it holds. *)
Section Ok.
  Variables (n ov nl s start th : Z).

  Definition holdsAt (H : Z -> Prop) (l : Z) : Prop :=
    start <= l < start + th /\
    (0 < s -> forall j, (s - 1) * ov + (l - start) <= j < s * ov -> H j) /\
    (s < n - 1 -> start + th - ov <= l -> forall j, s * ov <= j <= s * ov + (l - (start + th - ov)) -> H j).

  Fixpoint ok (H : Z -> Prop) (p : list Act) : Prop :=
    match p with
    | [] => forall j, ~ H j
    | Lock i :: p' => 0 <= i < nl /\ (forall j, H j -> j < i) /\ ok (fun j => H j \/ j = i) p'
    | Unlock i :: p' => H i /\ ok (fun j => H j /\ j <> i) p'
    | Proc l :: p' => holdsAt H l /\ ok H p'
    end.

  Lemma ok_ext p : forall H H', (forall j, H j <-> H' j) -> ok H p -> ok H' p.
  Proof.
    induction p as [|[i|i|l] p IH]; intros H H' E; cbn [ok].
    - intros F j Hj. apply (F j). now apply E.
    - intros (R & L & K). split; [assumption|]. split; [intros j Hj; apply L; now apply E|].
      eapply IH; [|exact K]. intros j. cbv beta. rewrite E. reflexivity.
    - intros (R & K). split; [now apply E|]. eapply IH; [|exact K]. intros j. cbv beta. rewrite E. reflexivity.
    - intros ((A & B & C) & K). split; [|eapply IH; [|exact K]; assumption].
      split; [assumption|]. split; intros; apply E; auto.
  Qed.

  (** locks in ascending order *)
  Lemma ok_locks p (f : Z -> Z) a k : forall lo (H : Z -> Prop), (forall i, f i = a + i) -> lo <= k ->
    0 <= a + lo -> a + k <= nl ->
    (forall j, H j -> j < a + lo) ->
    ok (fun j => H j \/ a + lo <= j < a + k) p ->
    ok H (map (fun i => Lock (f i)) (zrange lo k) ++ p).
  Proof.
    intros lo. remember (Z.to_nat (k - lo)) as m eqn:Em. revert lo Em.
    induction m as [|m IH]; intros lo Em H Hf Hlo H0 Hnl HH K.
    - rewrite zrange_nil by lia. simpl. eapply ok_ext; [|exact K]. intros j. cbv beta. 
      split; [intros [J|J]; [assumption|lia]|tauto].
    - rewrite zrange_cons by lia. cbn [map app ok]. rewrite Hf. split; [lia|]. split; [assumption|].
      apply IH; [lia|assumption|lia|lia|lia| |].
      + intros j [J| ->]; [specialize (HH j J); lia|lia].
      + eapply ok_ext; [|exact K]. intros j. cbv beta. split; [intros [J|J]|intros [[J|J]|J]]; try tauto; try lia.
  Qed.

  Lemma ok_unlocks p (f : Z -> Z) a k : forall lo (H : Z -> Prop), (forall i, f i = a + i) -> 
    (forall j, a + lo <= j < a + k -> H j) ->
    ok (fun j => H j /\ ~ (a + lo <= j < a + k)) p ->
    ok H (map (fun i => Unlock (f i)) (zrange lo k) ++ p).
  Proof.
    intros lo. remember (Z.to_nat (k - lo)) as m eqn:Em. revert lo Em.
    induction m as [|m IH]; intros lo Em H Hf HH K.
    - rewrite zrange_nil by lia. simpl. eapply ok_ext; [|exact K]. intros j. cbv beta. 
      split; [tauto|intros J; split; [assumption|lia]].
    - rewrite zrange_cons by lia. cbn [map app ok]. rewrite Hf. split; [apply HH; lia|].
      apply IH; [lia|assumption| |].
      + intros j J. split; [apply HH; lia|lia].
      + eapply ok_ext; [|exact K]. intros j. cbv beta. split; [intros [J N]|intros [[J N] N']]; repeat split; try tauto; try lia.
  Qed.

  Hypothesis Hov : 0 < ov.
  Hypothesis Hs : 0 <= s < n.
  Hypothesis Hnl : nl = (n - 1) * ov.
  Hypothesis Hth : 0 < th.
  Hypothesis Hthick : s < n - 1 -> ov < th.

  (** The locks held before layer [off]. *)
  Definition held (off : Z) (j : Z) : Prop :=
    (0 < s /\ (s - 1) * ov + off <= j < s * ov) \/
    (s < n - 1 /\ s * ov <= j < s * ov + (off - (th - ov))).

  Lemma ok_layers k : forall off, 0 <= off -> off + Z.of_nat k = th ->
    ok (held off) (flat_map (layerActs n ov s start th) (zrange off th)) \/ k = 0%nat.
  Proof.
    induction k as [|k IH]; intros off Hoff Hk; [now right|left].
    rewrite zrange_cons by lia. cbn [flat_map]. unfold layerActs at 1. cbv zeta.
    set (rest := flat_map (layerActs n ov s start th) (zrange (off + 1) th)).
    assert (Hrest : ok (held (off + 1)) rest \/ off + 1 = th).
    { destruct (Z.eq_dec (off + 1) th) as [|Hne]; [now right|].
      destruct (IH (off + 1) ltac:(lia) ltac:(lia)) as [K|K]; [left; exact K|lia]. }
    assert (Hnil : off + 1 = th -> rest = []).
    { intros E. unfold rest. rewrite zrange_nil by lia. reflexivity. }
    assert (Hs1 : s * ov = (s - 1) * ov + ov) by ring.
    assert (Hs2 : (s + 1) * ov = s * ov + ov) by ring.
    assert (Hsp : 0 <= s * ov) by nia.
    assert (HB : s < n - 1 -> s * ov + ov <= nl) by nia.
    (* the optional lock *)
    set (hl := fun j => (0 < s /\ (s - 1) * ov + off <= j < s * ov) \/
                        (s < n - 1 /\ s * ov <= j < s * ov + (off + 1 - (th - ov)))).
    assert (Lck : forall q, ok hl q ->
      ok (held off) ((if negb (s =? n - 1) && (start + th - ov <=? start + off)
         then [Lock ((s + 1) * ov - (start + th - (start + off)))] else []) ++ q)).
    { intros q Kq. destruct (Z.eqb_spec s (n - 1)) as [El|Nl]; cbn [negb andb app].
      - eapply ok_ext; [|exact Kq]. intros j. unfold hl, held. lia.
      - destruct (Z.leb_spec (start + th - ov) (start + off)) as [Le|Gt]; cbn [app ok].
        + split; [nia|]. split.
          * unfold held. intros j [J|J]; lia.
          * eapply ok_ext; [|exact Kq]. intros j. unfold hl, held. lia.
        + eapply ok_ext; [|exact Kq]. intros j. unfold hl, held. lia. }
    rewrite <- app_assoc. apply Lck. cbn [app ok]. split.
    { unfold holdsAt, hl. split; [lia|]. split; intros; [left; lia|right; lia]. }
    destruct (Z.ltb_spec 0 s) as [Sp|Sn]; cbn [andb].
    - destruct (Z.ltb_spec (start + off) (start + ov)) as [Lt|Ge]; cbn [app ok].
      + split; [unfold hl; left; lia|].
        destruct (Z.eqb_spec (start + off) (start + th - 1)) as [El|Nl].
        * apply (ok_unlocks rest (fun i => (s - 1) * ov + i) ((s - 1) * ov)); [reflexivity|unfold hl; intros; split; [left; lia|lia]|].
          rewrite Hnil by lia. cbn [ok]. unfold hl. intros j. lia.
        * cbn [app]. destruct Hrest as [K|K]; [|lia]. eapply ok_ext; [|exact K].
          intros j. unfold hl, held. lia.
      + destruct (Z.eqb_spec s (n - 1)) as [El|Nl]; cbn [negb andb].
        * cbn [app]. destruct Hrest as [K|K].
          -- eapply ok_ext; [|exact K]. intros j. unfold hl, held. lia.
          -- rewrite Hnil by lia. cbn [ok]. unfold hl. intros j. lia.
        * destruct (Z.eqb_spec (start + off) (start + th - 1)) as [E1|N1].
          -- change (map Unlock) with (map (fun i => Unlock ((fun x => x) i))).
             apply (ok_unlocks rest (fun x => x) 0); [intros; lia|unfold hl; intros; right; lia|].
             rewrite Hnil by lia. cbn [ok]. unfold hl. intros j. lia.
          -- cbn [app]. destruct Hrest as [K|K]; [|lia]. eapply ok_ext; [|exact K].
             intros j. unfold hl, held. lia.
    - destruct (Z.eqb_spec s (n - 1)) as [El|Nl]; cbn [negb andb].
      + cbn [app]. destruct Hrest as [K|K].
        -- eapply ok_ext; [|exact K]. intros j. unfold hl, held. lia.
        -- rewrite Hnil by lia. cbn [ok]. unfold hl. intros j. lia.
      + destruct (Z.eqb_spec (start + off) (start + th - 1)) as [E1|N1].
        -- change (map Unlock) with (map (fun i => Unlock ((fun x => x) i))).
           apply (ok_unlocks rest (fun x => x) 0); [intros; lia|unfold hl; intros; right; lia|].
           rewrite Hnil by lia. cbn [ok]. unfold hl. intros j. lia.
        -- cbn [app]. destruct Hrest as [K|K]; [|lia]. eapply ok_ext; [|exact K].
           intros j. unfold hl, held. lia.
  Qed.
End Ok.

(** The slices of a traversal. *)
Section Slices.
  Variables (t : list Z) (ov : Z).
  Hypothesis Hov : 0 < ov.
  Hypothesis Ht : thick (ov + 1) 1 t.
  Let n := Z.of_nat (length t).

  Definition sok (s : Z) := ok n ov (numLocks t ov) s (sliceStart t s) (thicknessOf t s).

  Lemma thickness_pos s : 0 <= s < n -> 0 < thicknessOf t s.
  Proof.
    intros Hs. destruct (Z.eq_dec s (n - 1)) as [->|Hne].
    - pose proof (thick_nth_last _ _ t (n - 1) Ht eq_refl ltac:(lia)). lia.
    - pose proof (thick_nth _ _ t s Ht ltac:(unfold n in *; lia)). lia.
  Qed.

  Lemma thickness_gt s : 0 <= s < n - 1 -> ov < thicknessOf t s.
  Proof. intros Hs. pose proof (thick_nth _ _ t s Ht ltac:(unfold n in *; lia)). lia. Qed.

  Lemma sliceProg_ok s : 0 <= s < n -> sok s (fun _ => False) (sliceProg t ov s).
  Proof.
    intros Hs. unfold sok, sliceProg. cbv zeta. fold n.
    pose proof (thickness_pos s Hs) as Hp. pose proof (thickness_gt s) as Hg.
    assert (Hs1 : s * ov = (s - 1) * ov + ov) by ring.
    assert (K : ok n ov (numLocks t ov) s (sliceStart t s) (thicknessOf t s) (held n ov s (thicknessOf t s) 0)
       (flat_map (layerActs n ov s (sliceStart t s) (thicknessOf t s)) (zrange 0 (thicknessOf t s)))).
    { destruct (ok_layers n ov (numLocks t ov) s (sliceStart t s) (thicknessOf t s) Hov Hs eq_refl Hp
        ltac:(intros; apply Hg; lia) (Z.to_nat (thicknessOf t s)) 0 ltac:(lia) ltac:(lia)) as [K|K]; [exact K|lia]. }
    destruct (Z.ltb_spec 0 s) as [Sp|Sn].
    - apply (ok_locks n ov (numLocks t ov) s (sliceStart t s) (thicknessOf t s) _ (fun i => (s - 1) * ov + i) ((s - 1) * ov)).
      + reflexivity. + lia. + nia. + unfold numLocks. fold n. nia. + intros j [].
      + eapply ok_ext; [|exact K]. intros j. unfold held. pose proof (Hg). 
        split; [intros [[A B]|[A B]]|intros [[]|A]].
        * right; lia.
        * specialize (Hg ltac:(lia)). lia.
        * left; lia.
    - cbn [app]. eapply ok_ext; [|exact K]. intros j. unfold held.
      split; [intros [[A B]|[A B]]|intros []]; [lia|]. specialize (Hg ltac:(lia)). lia.
  Qed.

  Definition inv (st : SState) : Prop :=
    (forall s, 0 <= s < n -> sok s (fun j => owner st j = Some s) (todo st s)) /\
    (forall j s, owner st j = Some s -> 0 <= s < n /\ started st s = true).

  Lemma inv_init : inv (initState (sliceProg t ov)).
  Proof.
    split.
    - intros s Hs. simpl. eapply ok_ext; [|exact (sliceProg_ok s Hs)]. intros j. split; [intros []|discriminate].
    - intros j s. simpl. discriminate.
  Qed.

  Lemma upd_eq {A} (f : Z -> A) k v : upd f k v k = v.
  Proof. unfold upd. now rewrite Z.eqb_refl. Qed.
  Lemma upd_ne {A} (f : Z -> A) k v j : j <> k -> upd f k v j = f j.
  Proof. unfold upd. intros. destruct (Z.eqb_spec j k); congruence. Qed.

  Lemma inv_step st s ev st' : inv st -> step n st s ev st' -> inv st'.
  Proof.
    intros [I1 I2] Hst. inversion Hst; subst; clear Hst.
    - split; cbn [todo owner started]; [assumption|]. intros j s' E. destruct (I2 j s' E) as [A B]. split; [assumption|].
      destruct (Z.eq_dec s' s) as [->|N]; [apply upd_eq|rewrite upd_ne; assumption].
    - split; cbn [todo owner started].
      + intros s' Hs'. destruct (Z.eq_dec s' s) as [->|N].
        * rewrite upd_eq. pose proof (I1 s Hs') as K. rewrite H1 in K. cbn [sok ok] in K. destruct K as (_ & _ & K).
          eapply ok_ext; [|exact K]. intros j. cbv beta. destruct (Z.eq_dec j i) as [->|Nj].
          -- rewrite upd_eq. tauto.
          -- rewrite upd_ne by assumption. tauto.
        * rewrite upd_ne by assumption. eapply ok_ext; [|exact (I1 s' Hs')]. intros j. cbv beta.
          destruct (Z.eq_dec j i) as [->|Nj].
          -- rewrite upd_eq, H2. split; [discriminate|congruence].
          -- rewrite upd_ne by assumption. reflexivity.
      + intros j s' E. destruct (Z.eq_dec j i) as [->|Nj].
        * rewrite upd_eq in E. injection E as <-. auto.
        * rewrite upd_ne in E by assumption. eauto.
    - split; cbn [todo owner started].
      + intros s' Hs'. destruct (Z.eq_dec s' s) as [->|N].
        * rewrite upd_eq. pose proof (I1 s Hs') as K. rewrite H1 in K. cbn [sok ok] in K. destruct K as (_ & K).
          eapply ok_ext; [|exact K]. intros j. cbv beta. destruct (Z.eq_dec j i) as [->|Nj].
          -- rewrite upd_eq. split; [tauto|discriminate].
          -- rewrite upd_ne by assumption. tauto.
        * rewrite upd_ne by assumption. eapply ok_ext; [|exact (I1 s' Hs')]. intros j. cbv beta.
          destruct (Z.eq_dec j i) as [->|Nj].
          -- rewrite upd_eq, H2. split; [congruence|discriminate].
          -- rewrite upd_ne by assumption. reflexivity.
      + intros j s' E. destruct (Z.eq_dec j i) as [->|Nj].
        * rewrite upd_eq in E. discriminate.
        * rewrite upd_ne in E by assumption. eauto.
    - split; cbn [todo owner started]; [|assumption].
      intros s' Hs'. destruct (Z.eq_dec s' s) as [->|N].
      + rewrite upd_eq. pose proof (I1 s Hs') as K. rewrite H1 in K. cbn [sok ok] in K. tauto.
      + rewrite upd_ne by assumption. auto.
  Qed.

  Lemma inv_reach k d st : reach n (initState (sliceProg t ov)) k d st -> inv st.
  Proof. induction 1; [apply inv_init|eapply inv_step; eauto]. Qed.

  Lemma processing_holds st s l : inv st -> 0 <= s < n -> processing st s l ->
    holdsAt n ov s (sliceStart t s) (thicknessOf t s) (fun j => owner st j = Some s) l.
  Proof.
    intros [I1 _] Hs (_ & rest & E). specialize (I1 s Hs). rewrite E in I1. cbn [sok ok] in I1. tauto.
  Qed.

  (** Mutual exclusion. *)
  Lemma sliced_exclusion_lt k d st s1 s2 l1 l2 : reach n (initState (sliceProg t ov)) k d st ->
    0 <= s1 < n -> 0 <= s2 < n -> s1 < s2 -> processing st s1 l1 -> processing st s2 l2 -> ov < l2 - l1.
  Proof.
    intros Hr H1 H2 Hlt P1 P2. apply inv_reach in Hr.
    pose proof (processing_holds st s1 l1 Hr H1 P1) as (R1 & _ & E1).
    pose proof (processing_holds st s2 l2 Hr H2 P2) as (R2 & E2 & _).
    pose proof (sliceStart_succ t s1 ltac:(fold n; lia)) as Est.
    assert (Hpos : forall s, 0 <= s < Z.of_nat (length t) -> 0 <= thicknessOf t s).
    { intros s Hs. pose proof (thickness_pos s Hs). lia. }
    destruct (Z.eq_dec s2 (s1 + 1)) as [->|Hne].
    - destruct (Z_lt_le_dec ov (l2 - l1)) as [|Hle]; [assumption|exfalso].
      (* lock s1*ov + (l2 - start2) *)
      set (j := s1 * ov + (l2 - sliceStart t (s1 + 1))).
      assert (O1 : owner st j = Some s1) by (apply E1; unfold j; lia).
      assert (O2 : owner st j = Some (s1 + 1)).
      { apply E2; unfold j; [lia|]. replace (s1 + 1 - 1) with s1 by lia.
        replace ((s1 + 1) * ov) with (s1 * ov + ov) by ring. lia. }
      rewrite O1 in O2. injection O2. lia.
    - pose proof (sliceStart_succ t (s1 + 1) ltac:(fold n; lia)) as Est2.
      pose proof (thickness_gt (s1 + 1) ltac:(lia)) as Hg.
      pose proof (sliceStart_mono t (s1 + 1 + 1) s2 Hpos ltac:(lia) ltac:(lia) ltac:(fold n; lia)). lia.
  Qed.

  (** Never an illegal unlock, never a lock out of range. *)
  Lemma sliced_lock_usage k d st s : reach n (initState (sliceProg t ov)) k d st -> 0 <= s < n ->
    match todo st s with
    | Lock i :: _ => 0 <= i < numLocks t ov
    | Unlock i :: _ => owner st i = Some s
    | _ => True
    end.
  Proof.
    intros Hr Hs. apply inv_reach in Hr as [I1 _]. specialize (I1 s Hs). 
    destruct (todo st s) as [|[i|i|l] rest]; cbn [sok ok] in I1; tauto.
  Qed.

  Definition canStep (st : SState) (s : Z) : Prop := exists ev st', step n st s ev st'.

  Lemma progress_aux st : inv st -> forall m s i rest, (m = Z.to_nat (numLocks t ov - i)) ->
    0 <= s < n -> started st s = true -> todo st s = Lock i :: rest ->
    exists s', 0 <= s' < n /\ started st s' = true /\ canStep st s'.
  Proof.
    intros I m. induction m as [m IH] using (well_founded_induction lt_wf). intros s i rest Em Hs Hst E.
    destruct I as [I1 I2].
    pose proof (I1 s Hs) as K. rewrite E in K. cbn [sok ok] in K. destruct K as (R & _ & _).
    destruct (owner st i) as [s'|] eqn:O.
    - destruct (I2 i s' O) as [Hs' Hst'].
      pose proof (I1 s' Hs') as K'.
      destruct (todo st s') as [|[i'|i'|l'] rest'] eqn:E'; cbn [sok ok] in K'.
      + exfalso. apply (K' i O).
      + destruct K' as (R' & L' & _). specialize (L' i O).
        apply (IH (Z.to_nat (numLocks t ov - i')) ltac:(lia) s' i' rest' eq_refl Hs' Hst' E').
      + exists s'. repeat split; try lia; [assumption|]. eexists _, _. eapply StepUnlock; eauto. tauto.
      + exists s'. repeat split; try lia; [assumption|]. eexists _, _. eapply StepProc; eauto.
    - exists s. repeat split; try lia; [assumption|]. eexists _, _. eapply StepLock; eauto.
  Qed.

  (** No deadlock: if a started slice is not finished, some started slice can proceed. *)
  Lemma sliced_progress k d st s : reach n (initState (sliceProg t ov)) k d st -> 0 <= s < n -> unfinished st s ->
    exists s', 0 <= s' < n /\ started st s' = true /\ canStep st s'.
  Proof.
    intros Hr Hs [Hst Hne]. apply inv_reach in Hr.
    destruct (todo st s) as [|[i|i|l] rest] eqn:E; [congruence| | |].
    - eapply progress_aux; eauto.
    - exists s. repeat split; try lia; [assumption|]. eexists _, _. eapply StepUnlock; eauto.
      destruct Hr as [I1 _]. specialize (I1 s Hs). rewrite E in I1. cbn [sok ok] in I1. tauto.
    - exists s. repeat split; try lia; [assumption|]. eexists _, _. eapply StepProc; eauto.
  Qed.
End Slices.

(** Executions are finite. *)
Definition work (ss : list Z) (st : SState) : nat :=
  fold_right (fun s m => ((if started st s then 0 else 1) + length (todo st s) + m)%nat) 0%nat ss.

Lemma work_same ss st st' : (forall s, In s ss -> started st s = started st' s /\ length (todo st s) = length (todo st' s)) ->
  work ss st = work ss st'.
Proof.
  induction ss as [|a ss IH]; intros H; [reflexivity|]. cbn [work fold_right].
  destruct (H a ltac:(now left)) as [-> ->]. f_equal. apply IH. intros; apply H; now right.
Qed.

Lemma work_dec ss st st' s : NoDup ss -> In s ss ->
  (forall s', s' <> s -> started st s' = started st' s' /\ length (todo st s') = length (todo st' s')) ->
  ((if started st s then 0 else 1) + length (todo st s) = S ((if started st' s then 0 else 1) + length (todo st' s)))%nat ->
  work ss st = S (work ss st').
Proof.
  induction ss as [|a ss IH]; intros Hnd Hin Hoth Hs; [destruct Hin|]. inversion Hnd; subst. cbn [work fold_right].
  destruct (Z.eq_dec a s) as [->|Hne].
  - fold (work ss st) (work ss st'). rewrite (work_same ss st st'); [lia|].
    intros s' Hs'. apply Hoth. intros ->. contradiction.
  - destruct Hin as [->|Hin]; [congruence|]. fold (work ss st) (work ss st'). rewrite IH by assumption.
    destruct (Hoth a Hne) as [-> ->]. lia.
Qed.

Lemma step_work n st s ev st' : step n st s ev st' -> work (zrange 0 n) st = S (work (zrange 0 n) st').
Proof.
  intros H. apply work_dec with (s := s).
  - apply NoDup_zrange.
  - apply in_zrange. inversion H; subst; assumption.
  - intros s' Hne. inversion H; subst; cbn [started todo]; rewrite ?upd_ne by assumption; auto.
  - inversion H; subst; cbn [started todo]; rewrite ?upd_eq; try rewrite H1; try rewrite H2; cbn [length]; try lia.
    all: repeat match goal with E : todo _ _ = _ |- _ => rewrite E end; cbn [length]; destruct (started st s); lia.
Qed.

Lemma reach_work n st0 k d st : reach n st0 k d st -> (k + work (zrange 0 n) st = work (zrange 0 n) st0)%nat.
Proof. induction 1; [reflexivity|]. apply step_work in H0. lia. Qed.

(** Layers processed so far plus layers still to do never change. *)
Lemma progLayers_app p q : progLayers (p ++ q) = progLayers p ++ progLayers q.
Proof. unfold progLayers. apply flat_map_app. Qed.

Lemma sliceProg_layers t ov s : progLayers (sliceProg t ov s) = c02SliceLayers t s.
Proof.
  unfold sliceProg. cbv zeta. rewrite progLayers_app.
  assert (A : forall (f : Z -> Act) l, (forall i, progLayers [f i] = []) -> progLayers (map f l) = []).
  { intros f l Hf. induction l as [|a l IH]; [reflexivity|]. cbn [map]. change (f a :: map f l) with ([f a] ++ map f l).
    rewrite progLayers_app, Hf, IH. reflexivity. }
  replace (progLayers (if 0 <? s then map (fun i => Lock ((s - 1) * ov + i)) (zrange 0 ov) else [])) with (@nil Z).
  2: { destruct (0 <? s); [symmetry; apply A; reflexivity|reflexivity]. }
  cbn [app]. unfold c02SliceLayers.
  assert (B : forall n st th o, progLayers (layerActs n ov s st th o) = [st + o]).
  { intros. unfold layerActs. cbv zeta. rewrite !progLayers_app. 
    replace (progLayers (if _ && _ then [Lock _] else [])) with (@nil Z) by (destruct (_ && _); reflexivity).
    cbn [app]. change (progLayers [Proc (st + o)]) with [st + o]. 
    set (u := if _ && _ then _ else _). replace (progLayers u) with (@nil Z); [reflexivity|].
    unfold u. destruct (_ && _).
    - destruct (_ =? _); cbn [map]; [|reflexivity]. symmetry.
      change (progLayers (?a :: ?l)) with (progLayers l). apply A. reflexivity.
    - destruct (_ && _); [|reflexivity]. symmetry. apply A. reflexivity. }
  generalize (Z.of_nat (length t)) (sliceStart t s) (thicknessOf t s). intros n st th.
  replace (zrange st (st + th)) with (map (fun o => st + o) (zrange 0 th)).
  - induction (zrange 0 th) as [|o l IH]; [reflexivity|]. cbn [flat_map map]. rewrite progLayers_app, B, IH. reflexivity.
  - unfold zrange. rewrite map_map. replace (st + th - st) with (th - 0) by lia. apply map_ext. intros; lia.
Qed.

Lemma flat_map_ext_in {A B} (f g : A -> list B) l : (forall a, In a l -> f a = g a) -> flat_map f l = flat_map g l.
Proof.
  induction l as [|a l IH]; intros H; [reflexivity|]. cbn [flat_map].
  rewrite H by now left. rewrite IH; [reflexivity|]. intros; apply H; now right.
Qed.

Lemma flat_map_upd (ss : list Z) (f g : Z -> list Z) s : NoDup ss -> In s ss ->
  (forall s', s' <> s -> f s' = g s') -> forall l, f s = l :: g s ->
  Permutation (flat_map f ss) (l :: flat_map g ss).
Proof.
  intros Hnd Hin Hoth l Hs. induction ss as [|a ss IH]; [destruct Hin|]. inversion Hnd; subst. cbn [flat_map].
  destruct (Z.eq_dec a s) as [->|Hne].
  - rewrite Hs. cbn [app]. constructor. apply Permutation_app_head.
    rewrite (flat_map_ext_in f g); [reflexivity|]. intros s' Hs'. apply Hoth. intros ->. contradiction.
  - destruct Hin as [->|Hin]; [congruence|]. rewrite (Hoth a Hne). rewrite IH by assumption.
    symmetry. apply Permutation_middle.
Qed.

Lemma reach_layers n prog k d st : reach n (initState prog) k d st ->
  Permutation (d ++ flat_map (fun s => progLayers (todo st s)) (zrange 0 n))
              (flat_map (fun s => progLayers (prog s)) (zrange 0 n)).
Proof.
  induction 1 as [|k d st s ev st' Hr IH Hst]; [reflexivity|]. etransitivity; [|exact IH]. clear IH Hr.
  inversion Hst; subst; cbn [todo].
  - reflexivity.
  - apply Permutation_app_head. erewrite flat_map_ext; [reflexivity|]. intros s'.
    destruct (Z.eq_dec s' s) as [->|Hne]; [rewrite upd_eq, H1; reflexivity|now rewrite upd_ne].
  - apply Permutation_app_head. erewrite flat_map_ext; [reflexivity|]. intros s'.
    destruct (Z.eq_dec s' s) as [->|Hne]; [rewrite upd_eq, H1; reflexivity|now rewrite upd_ne].
  - rewrite (flat_map_upd (zrange 0 n) (fun s => progLayers (todo st s)) (fun s0 => progLayers (upd (todo st) s rest s0)) s) with (l := l).
    + cbn [app]. apply Permutation_middle.
    + apply NoDup_zrange.
    + apply in_zrange. assumption.
    + intros s' Hne. now rewrite upd_ne.
    + rewrite upd_eq, H1. reflexivity.
Qed.

(** A state without any possible step is complete. *)
Lemma sliced_stuck_done t ov k d st : 0 < ov -> thick (ov + 1) 1 t ->
  let n := Z.of_nat (length t) in
  reach n (initState (sliceProg t ov)) k d st -> (forall s ev st', ~ step n st s ev st') ->
  allDone n st /\ Permutation d (zrange 0 (zsum t)).
Proof.
  intros Hov Ht n Hr Hstuck.
  assert (D : allDone n st).
  { intros s Hs. destruct (started st s) eqn:E.
    - destruct (todo st s) eqn:E'; [reflexivity|exfalso].
      destruct (sliced_progress t ov Hov Ht k d st s Hr Hs) as (s' & _ & _ & ev & st' & Hst).
      { split; [assumption|congruence]. } apply (Hstuck _ _ _ Hst).
    - exfalso. eapply Hstuck. apply StepStart; eassumption. }
  split; [assumption|].
  apply reach_layers in Hr.
  rewrite <- slices_partition.
  2: { intros s Hs. pose proof (thickness_pos t ov Hov Ht s Hs). lia. }
  fold n. rewrite (flat_map_ext (c02SliceLayers t) (fun s => progLayers (sliceProg t ov s))) by (intros; now rewrite sliceProg_layers).
  rewrite <- Hr.
  assert (E : flat_map (fun s => progLayers (todo st s)) (zrange 0 n) = []).
  { assert (G : forall ss, (forall s, In s ss -> 0 <= s < n) -> flat_map (fun s => progLayers (todo st s)) ss = []).
    { induction ss as [|a ss IH]; intros Hss; [reflexivity|]. cbn [flat_map]. rewrite D by (apply Hss; now left).
      rewrite IH by (intros; apply Hss; now right). reflexivity. }
    apply G. intros s Hs. now apply in_zrange in Hs. }
  now rewrite E, app_nil_r.
Qed.
