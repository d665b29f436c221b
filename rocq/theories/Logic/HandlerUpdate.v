(** Updating the container of the logic handler. *)
From Coq Require Import Reals Lra.
From Verif.Base Require Import ZRange Lists Occ.
From Verif.Grid Require Import IndexModel IndexSpec IndexProofs CellBlockModel CellBlockSpec CellBlockProofs CellBlockExact.
From Verif.Functor Require Import SortModel.
From Verif.Container Require Import LinkedCellsModel LinkedCellsSpec LinkedCellsGeo IteratorModel IteratorContainers IteratorSpec IteratorLemmas IteratorInstances IteratorRegion
  ParticleModel CollectModel CollectSpec CollectProofs CollectRun CollectContainers CollectTheorems UpdateModel UpdateProofs.
From Verif.Logic Require Import BalanceModel BalanceProofs HandlerModel HandlerSpec HandlerCont.
Import ListNotations.
Local Open Scope Z_scope.

Section General.
  Variables bMin bMax : R3.
  Variable vols : list (R3 * R3).
  Variable cellsOf : R3 * R3 -> list nat.

  Lemma collected_cases c p : validState (pown p) ->
    (collected bMin bMax vols cellsOf c p = (p, []) /\ (pown p = 0 \/ reached vols cellsOf c p = false \/ (pown p = 1 /\ inBox bMin bMax (ppos p)))) \/
    (collected bMin bMax vols cellsOf c p = (withOwn 0 p, []) /\ pown p = 2) \/
    (collected bMin bMax vols cellsOf c p = (withOwn 0 p, [p]) /\ pown p = 1 /\ ~ inBox bMin bMax (ppos p)).
  Proof.
    intros V. unfold collected. destruct (reached vols cellsOf c p) eqn:R; cbn [andb]; [|left; auto].
    destruct V as [V|[V|V]]; unfold alive, collectBody, isHaloP; rewrite V; [left; auto| |right; left; auto].
    change (fulfills bhOwnedOrHalo true 1) with true. change (1 =? stHalo) with false. cbn [negb].
    destruct (inBoxb bMin bMax (ppos p)) eqn:B; cbn [negb].
    - left. apply inBoxb_iff in B. auto.
    - right. right. split; [reflexivity|]. split; [reflexivity|]. intros I. apply inBoxb_iff in I. congruence.
  Qed.

  Lemma in_collected cells k q : In q (nth k (map (fun c => map (fun p => fst (collected bMin bMax vols cellsOf c p)) (nth c cells [])) (seq 0 (length cells))) []) ->
    exists p, In p (nth k cells []) /\ q = fst (collected bMin bMax vols cellsOf k p).
  Proof.
    intros H. assert (L := nth_In_lt _ _ _ H). rewrite map_length, seq_length in L.
    set (f := fun c => map (fun p => fst (collected bMin bMax vols cellsOf c p)) (nth c cells [])) in *.
    rewrite (nth_indep _ [] (f 0%nat)) in H by (rewrite map_length, seq_length; exact L). rewrite map_nth, seq_nth in H by exact L.
    cbn [Nat.add] in H. unfold f in H. apply in_map_iff in H as (p & <- & Hp). exists p. auto.
  Qed.

  Lemma collect_general cells visits : (forall p, In p (concat cells) -> validState (pown p)) ->
    Permutation visits (regionVisits vols cellsOf cells) ->
    exists cells' out, collectRun bMin bMax visits cells = (cells', out) /\ length cells' = length cells /\
      Permutation (filter isOwned (concat cells)) (out ++ filter isOwned (concat cells')) /\
      Forall (fun p => pown p = 1 /\ ~ inBox bMin bMax (ppos p)) out /\
      (forall k q, In q (nth k cells' []) -> exists p, In p (nth k cells []) /\ (q = withOwn 0 p \/
         (q = p /\ (pown p = 0 \/ reached vols cellsOf k p = false \/ (pown p = 1 /\ inBox bMin bMax (ppos p)))))).
  Proof.
    intros V HP. destruct (collect_any_order bMin bMax vols cellsOf cells visits HP) as (out & E & P).
    eexists. exists out. split; [exact E|]. split; [rewrite map_length, seq_length; reflexivity|].
    assert (Vk : forall k p, In p (nth k cells []) -> validState (pown p)) by (intros k p Hp; apply V, in_cells; exists k; exact Hp).
    split; [|split].
    - rewrite P. clear E P out HP V.
      assert (G : forall ks, Permutation (flat_map (fun k => filter isOwned (nth k cells [])) ks)
        (flat_map (fun c => flat_map (fun p => snd (collected bMin bMax vols cellsOf c p)) (nth c cells [])) ks ++
         filter isOwned (concat (map (fun c => map (fun p => fst (collected bMin bMax vols cellsOf c p)) (nth c cells [])) ks)))).
      { assert (H1 : forall k l, (forall p, In p l -> validState (pown p)) -> Permutation (filter isOwned l)
          (flat_map (fun p => snd (collected bMin bMax vols cellsOf k p)) l ++ filter isOwned (map (fun p => fst (collected bMin bMax vols cellsOf k p)) l))).
        { intros k. induction l as [|p l IH]; intros Hl; [reflexivity|]. cbn [flat_map map filter].
          specialize (IH (fun q Hq => Hl q (or_intror Hq))).
          destruct (collected_cases k p (Hl p (or_introl eq_refl))) as [(C & _)|[(C & D)|(C & D & _)]]; rewrite C; cbn [fst snd app pown withOwn].
          - destruct (isOwned p); [|exact IH]. rewrite IH. apply Permutation_middle.
          - assert (Eo : isOwned p = false) by (unfold isOwned; rewrite D; reflexivity). rewrite Eo. exact IH.
          - assert (Eo : isOwned p = true) by (unfold isOwned; rewrite D; reflexivity). rewrite Eo. cbn. constructor. exact IH. }
        induction ks as [|k ks IH]; [reflexivity|]. cbn [flat_map map concat]. rewrite filter_app, (H1 k _ (Vk k)), IH.
        rewrite <- !app_assoc. apply Permutation_app_head. rewrite !app_assoc. apply Permutation_app_tail, Permutation_app_comm. }
      rewrite <- G. rewrite filter_concat, <- flat_map_seq. reflexivity.
    - apply Forall_forall. intros q Hq. apply (Permutation_in _ P) in Hq. apply in_flat_map in Hq as (k & _ & Hq). apply in_flat_map in Hq as (p & Hp & Hq).
      destruct (collected_cases k p (Vk k p Hp)) as [(C & _)|[(C & _)|(C & D)]]; rewrite C in Hq; cbn in Hq; try contradiction. destruct Hq as [<-|[]]. exact D.
    - intros k q Hq. apply in_collected in Hq as (p & Hp & ->). exists p. split; [exact Hp|].
      destruct (collected_cases k p (Vk k p Hp)) as [(C & D)|[(C & _)|(C & _)]]; rewrite C; cbn [fst]; auto.
  Qed.
End General.

Section Update.
  Variables (cutoff spt : R) (freq : Z).
  Hypothesis Hopt : validOptions cutoff spt freq.
  Let il := il cutoff spt freq.
  Let skin := skin spt freq.
  Variables lo hi : R3.
  Hypothesis Hbox : validBox cutoff spt freq lo hi.
  Notation grid := (grid cutoff spt freq).
  Notation placed := (placed cutoff spt freq lo hi).
  Notation cellFor := (cellFor cutoff spt freq lo hi).

  Lemma lengths : (0 < il /\ 0 <= skin <= il /\ spt <= skin)%R.
  Proof.
    destruct Hopt as (H1 & H2 & H3). unfold il, skin, HandlerModel.il, HandlerModel.skin.
    assert (F : (1 <= IZR freq)%R) by (apply IZR_le in H3; lra). assert (0 <= spt * IZR freq)%R by (apply Rmult_le_pos; lra).
    assert (spt * 1 <= spt * IZR freq)%R by (apply Rmult_le_compat_l; lra). lra.
  Qed.
  Lemma box_skin : atLeast skin lo hi.
  Proof. destruct lengths as (A & B & _). destruct Hbox as (H1 & H2 & H3). unfold atLeast. change (cutoff + spt * IZR freq)%R with il in *. lra. Qed.

  (** A particle that left its place in the container unmarked. *)
  Definition kept (c : Cont) (margin : R) (keep : bool) (k : nat) (p : Particle) : Prop :=
    if keep then In p (nth k (ccells c) []) /\
      (inBox lo hi (ppos p) \/
       reached (volumes cutoff spt freq lo hi)
         (match kind c with KDirectSum => dsRegionCells | KLinkedCells csf => lcRegionCells rndExact (grid csf lo hi) margin end) k p = false)
    else In p (concat (ccells c)) /\ inBox lo hi (ppos p) /\ cellFor (kind c) k (ppos p).

  Lemma contUpdate_inv keep margin c c' out : placed c -> validKind cutoff spt freq lo hi (kind c) ->
    contUpdate cutoff spt freq keep margin lo hi c (Some (c', out)) ->
    kind c' = kind c /\ placed c' /\ Permutation (filter isOwned (concat (ccells c))) (out ++ filter isOwned (concat (ccells c'))) /\
    Forall (fun p => pown p = 1 /\ ~ inBox lo hi (ppos p)) out /\
    (forall k p, In p (nth k (ccells c') []) -> pown p = 1 -> kept c margin keep k p) /\
    (forall k p, In p (nth k (ccells c') []) -> pown p = 2 -> keep = true /\ In p (nth k (ccells c) []) /\
       reached (volumes cutoff spt freq lo hi)
         (match kind c with KDirectSum => dsRegionCells | KLinkedCells csf => lcRegionCells rndExact (grid csf lo hi) margin end) k p = false) /\
    (forall k p, In p (nth k (ccells c') []) -> pown p = 0 -> keep = true /\ exists q, In q (nth k (ccells c) []) /\ p = withOwn 0 q).
  Proof.
    intros (Hsz & Hpl) V U.
    assert (Vs : forall p, In p (concat (ccells c)) -> validState (pown p)) by (intros p Hp; apply in_cells in Hp as (k & Hk); apply (Hpl k p Hk)).
    assert (COLLECT : forall cellsOf visits, cellsOf = (match kind c with KDirectSum => dsRegionCells | KLinkedCells csf => lcRegionCells rndExact (grid csf lo hi) margin end) -> keep = true ->
      Permutation visits (regionVisits (volumes cutoff spt freq lo hi) cellsOf (ccells c)) -> Some (c', out) = (let r := collectRun lo hi visits (ccells c) in Some (mkCont (kind c) (fst r), snd r)) ->
      kind c' = kind c /\ placed c' /\ Permutation (filter isOwned (concat (ccells c))) (out ++ filter isOwned (concat (ccells c'))) /\
      Forall (fun p => pown p = 1 /\ ~ inBox lo hi (ppos p)) out /\
      (forall k p, In p (nth k (ccells c') []) -> pown p = 1 -> kept c margin keep k p) /\
      (forall k p, In p (nth k (ccells c') []) -> pown p = 2 -> keep = true /\ In p (nth k (ccells c) []) /\ reached (volumes cutoff spt freq lo hi) cellsOf k p = false) /\
      (forall k p, In p (nth k (ccells c') []) -> pown p = 0 -> keep = true /\ exists q, In q (nth k (ccells c) []) /\ p = withOwn 0 q)).
    { intros cellsOf visits Hc Hk HP E. destruct (collect_general lo hi (volumes cutoff spt freq lo hi) cellsOf (ccells c) visits Vs HP) as (cs & o & Er & L & P & F & X).
      rewrite Er in E. cbn [fst snd] in E. injection E as -> ->. cbn [kind ccells]. split; [reflexivity|]. split.
      { split; [unfold size in *; cbn [ccells kind]; rewrite L; exact Hsz|]. cbn [ccells kind]. intros k q Hq. destruct (X k q Hq) as (p & Hp & [->|(-> & _)]); [|apply Hpl; exact Hp].
        assert (A := Hpl k p Hp). unfold placeOk in *. cbn [pown withOwn]. split; [left; reflexivity|].
        destruct (kind c); split; intros; congruence. }
      split; [exact P|]. split; [exact F|]. unfold kept. rewrite Hk. split; [|split]; intros k q Hq O; destruct (X k q Hq) as (p & Hp & [->|(-> & D)]); try (cbn in O; congruence).
      - split; [exact Hp|]. rewrite <- Hc. destruct D as [D|[D|(D & B)]]; [congruence|right; exact D|left; exact B].
      - split; [reflexivity|]. split; [exact Hp|]. destruct D as [D|[D|(D & B)]]; [congruence|exact D|congruence].
      - split; [reflexivity|]. exists p. auto.
      - split; [reflexivity|]. exists p. split; [exact Hp|]. destruct p; cbn in *. rewrite O. reflexivity. }
    unfold contUpdate in U. destruct (kind c) as [|csf] eqn:K.
    - destruct keep.
      + destruct U as (visits & HP & E). apply (COLLECT dsRegionCells visits eq_refl eq_refl HP). rewrite E. destruct (collectRun lo hi visits (ccells c)). reflexivity.
      + destruct (ds_update lo hi (ccells c)) as (owned & o & E & P1 & P2).
        { try rewrite K in Hsz. unfold size, numberOfCells in Hsz. lia. }
        { intros k l x Hk Hx. assert (Hn : In x (nth k (ccells c) [])) by (rewrite (nth_error_nth _ _ _ Hk); exact Hx). assert (A := Hpl k x Hn). try rewrite K in A. exact A. }
        rewrite E in U. injection U as -> ->. cbn [kind ccells]. split; [reflexivity|].
        assert (N : forall k p, In p (nth k [owned; []; []; []; []; []; []] []) -> k = 0%nat /\ In p owned).
        { intros k p H. destruct k as [|k]; [auto|]. do 6 (destruct k as [|k]; [destruct H|]). destruct k; destruct H. }
        assert (O : forall p, In p owned -> pown p = 1 /\ inBox lo hi (ppos p) /\ In p (concat (ccells c))).
        { intros p Hp. apply (Permutation_in _ P1), filter_In in Hp as (H1 & H2). apply andb_prop in H2 as (H2 & H3). apply Z.eqb_eq in H2. apply inBoxb_iff in H3. auto. }
        split; [|split; [|split; [|split; [|split]]]].
        * split; [reflexivity|]. cbn [kind ccells]. intros k p H. apply N in H as (-> & H). destruct (O p H) as (Ho & _). unfold placeOk, validState. rewrite Ho. split; [auto|]. split; congruence.
        * cbn [concat app]. rewrite !app_nil_r. rewrite (filter_all isOwned owned) by (intros p Hp; unfold isOwned; rewrite (proj1 (O p Hp)); reflexivity).
          rewrite P1, P2, <- !filter_filter. clear.
          induction (filter isOwned (concat (ccells c))) as [|p l IH]; [reflexivity|]. cbn [filter]. destruct (inBoxb lo hi (ppos p)); cbn [negb]; rewrite IH at 1; [apply Permutation_middle|reflexivity].
        * apply Forall_forall. intros p Hp. apply (Permutation_in _ P2), filter_In in Hp as (_ & Hp). apply andb_prop in Hp as (H2 & H3). apply Z.eqb_eq in H2. split; [exact H2|].
          intros I. apply inBoxb_iff in I. rewrite I in H3. discriminate.
        * intros k p H _. apply N in H as (-> & H). destruct (O p H) as (Ho & B & I). unfold kept. rewrite K. split; [exact I|]. split; [exact B|left; reflexivity].
        * intros k p H D. apply N in H as (-> & H). destruct (O p H) as (Ho & _). congruence.
        * intros k p H D. apply N in H as (-> & H). destruct (O p H) as (Ho & _). congruence.
    - destruct keep.
      + destruct U as [(_ & visits & HP & E)|(_ & E)]; [|discriminate]. apply (COLLECT _ visits eq_refl eq_refl HP). rewrite E. destruct (collectRun lo hi visits (ccells c)). reflexivity.
      + cbn [validKind] in V. change (cutoff + spt * IZR freq)%R with il in V.
        assert (PC : placedCells (rebuild rndExact il csf lo hi) (ccells c)).
        { try rewrite K in Hsz. split; [exact Hsz|]. intros k p Hp. assert (A := Hpl k p Hp). try rewrite K in A. exact A. }
        destruct (lc_update_exact il csf lo hi V (ccells c) PC) as (cells1 & inv & E & F). change (rebuild rndExact il csf lo hi) with (grid csf lo hi) in E. rewrite E in U.
        destruct U as (order & Ho & U). destruct (F order Ho) as (cells' & o & E' & L & P1 & P2 & X). change (rebuild rndExact il csf lo hi) with (grid csf lo hi) in E'. rewrite E' in U.
        injection U as -> ->. cbn [kind ccells]. split; [reflexivity|].
        assert (O : forall p, In p (concat cells') -> pown p = 1 /\ inBox lo hi (ppos p) /\ In p (concat (ccells c))).
        { intros p Hp. apply (Permutation_in _ P1), filter_In in Hp as (H1 & H2). apply andb_prop in H2 as (H2 & H3). apply Z.eqb_eq in H2. apply inBoxb_iff in H3. auto. }
        assert (In_ : forall k p, In p (nth k cells' []) -> In p (concat cells')) by (intros k p Hp; apply in_cells; exists k; exact Hp).
        split; [|split; [|split; [|split; [|split]]]].
        * split; [unfold size in *; cbn [ccells kind]; rewrite L; try rewrite K in Hsz; exact Hsz|]. cbn [kind ccells]. intros k p H. destruct (O p (In_ k p H)) as (Ho' & B & _).
          unfold placeOk, validState. rewrite Ho'. split; [auto|]. split; [|congruence]. intros _.
          destruct (exact_inside il csf lo hi V (ppos p) B) as (i & Ei & _ & Ci). rewrite (X k p H) in Ei. injection Ei as <-. exact Ci.
        * rewrite (filter_all isOwned (concat cells')) by (intros p Hp; unfold isOwned; rewrite (proj1 (O p Hp)); reflexivity).
          rewrite P1, P2, <- !filter_filter. clear.
          induction (filter isOwned (concat (ccells c))) as [|p l IH]; [reflexivity|]. cbn [filter]. destruct (inBoxb lo hi (ppos p)); cbn [negb]; rewrite IH at 1; [apply Permutation_middle|reflexivity].
        * apply Forall_forall. intros p Hp. apply (Permutation_in _ P2), filter_In in Hp as (_ & Hp). apply andb_prop in Hp as (H2 & H3). apply Z.eqb_eq in H2. split; [exact H2|].
          intros I. apply inBoxb_iff in I. rewrite I in H3. discriminate.
        * intros k p H _. destruct (O p (In_ k p H)) as (Ho' & B & I). unfold kept. rewrite K. split; [exact I|]. split; [exact B|]. exact (X k p H).
        * intros k p H D. destruct (O p (In_ k p H)) as (Ho' & _). congruence.
        * intros k p H D. destruct (O p (In_ k p H)) as (Ho' & _). congruence.
  Qed.
End Update.
