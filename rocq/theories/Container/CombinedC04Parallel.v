(** lc_c04_combined_SoA: threads working on different lines of a colour do not
    influence each other, however their steps interleave. *)
From Coq Require Import Permutation.
From Verif.Base Require Import ZRange Occ.
From Verif.Grid Require Import IndexModel IndexSpec IndexProofs.
From Verif.Traversal Require Import CellSpec C08Model.
From Verif.Utils Require Import SoAModel.
From Verif.Container Require Import CombinedC04Model CombinedC04Offsets CombinedC04Sim CombinedC04Handler CombinedC04Spec CombinedC04Count CombinedC04Grid.
Local Open Scope Z_scope.

Section Local.
  Context {P : Type}.
  Variable zeroRow : Row P.
  Variable useN3 : bool.
  Variable near : Z -> Z -> Z -> bool.
  Variable dims : I3.
  Variable size : Z -> nat.
  Notation one := (mkI3 1 1 1).
  Notation dx := (ix dims).
  Notation dxy := (iy dims * ix dims).
  Hypothesis Hdx : 2 <= ix dims.
  Hypothesis Hdy : 2 <= iy dims.
  Hypothesis Hnear : forall x y z, 0 <= x <= 1 -> 0 <= y <= 1 -> 0 <= z <= 1 -> near x y z = true.

  Section Cells.
    Variable C : Z -> Prop.

    (** The two memories look the same to a thread that only uses the cells [C]. *)
    Definition agree (m m' : @Mem P) : Prop :=
      (forall k, C k -> cellRow m k = cellRow m' k) /\ (forall s, comb m s = comb m' s) /\ (forall s, combOff m s = combOff m' s) /\
      curSl m = curSl m'.
    Definition keeps (m m1 : @Mem P) : Prop := forall k, ~ C k -> cellRow m1 k = cellRow m k.
    (** [m1], [m1'] result from [m], [m'] by a step that only uses the cells [C]. *)
    Definition confined (m m' m1 m1' : @Mem P) : Prop := agree m1 m1' /\ keeps m m1.

    Lemma confined_trans m m' m1 m1' m2 m2' : confined m m' m1 m1' -> confined m1 m1' m2 m2' -> confined m m' m2 m2'.
    Proof. intros [_ K1] [A2 K2]. split; [exact A2|]. intros k Hk. now rewrite K2, K1. Qed.
    Lemma confined_refl m m' : agree m m' -> confined m m' m m'.
    Proof. intros A. split; [exact A|]. intros k _. reflexivity. Qed.

    Definition locOK (v : View) : Prop := match vLoc v with InCell k => C k | InComb _ => True end.

    Lemma agree_view m m' v : agree m m' -> locOK v -> readLoc m (vLoc v) = readLoc m' (vLoc v).
    Proof. intros (A1 & A2 & _) H. unfold locOK in H. destruct (vLoc v) as [k|s0]; cbn [readLoc]; auto. Qed.
    Lemma agree_rows m m' v : agree m m' -> locOK v -> viewRows m v = viewRows m' v.
    Proof. intros A H. unfold viewRows. now rewrite (agree_view m m' v A H). Qed.

    Lemma confined_write m m' loc l : agree m m' -> (match loc with InCell k => C k | InComb _ => True end) ->
      confined m m' (writeLoc m loc l) (writeLoc m' loc l).
    Proof.
      intros (A1 & A2 & A3 & A4) H. destruct loc as [k|s0]; cbn [writeLoc]; (split; [repeat split|]); cbn [cellRow comb combOff curSl]; auto.
      - intros k' Hk'. unfold setAt. destruct (k' =? k); auto.
      - intros k' Hk'. cbn [cellRow]. unfold setAt. destruct (Z.eqb_spec k' k) as [->|]; [contradiction|reflexivity].
      - intros s1. unfold setAt. destruct (s1 =? s0); auto.
      - intros k' _. reflexivity.
    Qed.

    Lemma confined_set m m' v l : agree m m' -> locOK v -> confined m m' (setView m v l) (setView m' v l).
    Proof. intros A H. unfold setView. rewrite <- (agree_view m m' v A H). now apply confined_write. Qed.

    Lemma confined_pair m m' v1 v2 : agree m m' -> locOK v1 -> locOK v2 ->
      confined m m' (functorPair useN3 m v1 v2) (functorPair useN3 m' v1 v2).
    Proof.
      intros A H1 H2. unfold functorPair. rewrite <- !(agree_rows m m' v1 A H1), <- (agree_rows m m' v2 A H2).
      set (l := map (gain (map rowP (viewRows m v2))) (viewRows m v1)).
      pose proof (confined_set m m' v1 l A H1) as G. destruct useN3; [|exact G].
      eapply confined_trans; [exact G|]. rewrite <- (agree_rows _ _ v2 (proj1 G) H2). apply confined_set; [apply G|exact H2].
    Qed.

    Lemma confined_both m m' v1 v2 : agree m m' -> locOK v1 -> locOK v2 ->
      confined m m' (pairBoth useN3 m v1 v2) (pairBoth useN3 m' v1 v2).
    Proof.
      intros A H1 H2. unfold pairBoth. pose proof (confined_pair m m' v1 v2 A H1 H2) as G.
      pose proof (confined_pair _ _ v2 v1 (proj1 G) H2 H1) as G2. destruct useN3; [exact G|].
      eapply confined_trans; [exact G|exact G2].
    Qed.

    Lemma confined_single m m' v : agree m m' -> locOK v -> confined m m' (functorSingle m v) (functorSingle m' v).
    Proof. intros A H. unfold functorSingle. rewrite <- (agree_rows m m' v A H). now apply confined_set. Qed.

    Lemma confined_fold {A} (f : @Mem P -> A -> @Mem P) (Q : A -> Prop) l :
      (forall m m' x, agree m m' -> Q x -> confined m m' (f m x) (f m' x)) -> Forall Q l ->
      forall m m', agree m m' -> confined m m' (fold_left f l m) (fold_left f l m').
    Proof.
      intros Hf HQ. induction HQ as [|x l Hx _ IH]; intros m m' A0; [now apply confined_refl|].
      cbn [fold_left]. pose proof (Hf m m' x A0 Hx) as G. eapply confined_trans; [exact G|]. apply IH. apply G.
    Qed.

    Variable base : Z.
    Hypothesis Cplane : forall x y z, 0 <= x <= 1 -> 0 <= y <= 1 -> 0 <= z <= 1 -> C (base + (x + y * dx + z * dxy)).

    Lemma confined_entry slice m m' e : agree m m' -> C (base + fst e) ->
      confined m m' (handleEntry useN3 one dims size base slice m e) (handleEntry useN3 one dims size base slice m' e).
    Proof.
      intros A He. pose proof A as (A1 & A2 & A3 & A4). destruct e as [o [i1 i2]]. cbn [fst] in He. unfold handleEntry.
      rewrite <- !A4, <- !A3. set (index := (curSl m + numSlices one - 1) mod numSlices one). rewrite <- !A2, <- (A1 _ He).
      destruct (o =? 0).
      - destruct (Nat.eqb (size base) 0); [now apply confined_refl|].
        destruct (slice =? curSl m); [|now apply confined_both].
        pose proof (confined_single m m' (mkView (InComb (curSl m)) 0 (size base)) A I) as G.
        eapply confined_trans; [exact G|]. apply confined_both; [apply G|exact I|exact I].
      - destruct (o =? last (baseOffsets one dims 0) 0); [now apply confined_both|].
        destruct (o =? hd 0 (baseOffsets one dims (numSlices one - 1))).
        + destruct (Nat.eqb (nth 1 (combOff m index) O) 0); [now apply confined_refl|now apply confined_both].
        + now apply confined_both.
    Qed.

    Lemma offsets_in j e : 0 <= j < 2 -> In e (offsets near one dims j) -> C (base + fst e).
    Proof.
      intros Hj He. assert (G : exists x y z, 0 <= x <= 1 /\ 0 <= y <= 1 /\ 0 <= z <= 1 /\ fst e = x + y * dx + z * dxy).
      { destruct (mod2_cases j Hj) as [ -> | -> ].
        - rewrite (offsets0 near dims Hdx Hdy Hnear) in He.
          destruct He as [<-|[<-|[<-|[<-|[<-|[<-|[]]]]]]]; cbn [fst].
          + exists 0, 0, 0. lia.
          + exists 1, 0, 0. lia.
          + exists 0, 0, 1. lia.
          + exists 1, 0, 1. lia.
          + exists 0, 1, 1. lia.
          + exists 1, 1, 1. lia.
        - rewrite (offsets1 near dims Hdx Hdy Hnear) in He. destruct He as [<-|[<-|[<-|[]]]]; cbn [fst].
          + exists 0, 0, 0. lia.
          + exists 0, 0, 1. lia.
          + exists 0, 1, 1. lia. }
      destruct G as (x & y & z & Hx & Hy & Hz & ->). now apply Cplane.
    Qed.

    Lemma confined_interactions m m' : agree m m' ->
      confined m m' (handleInteractions useN3 near one dims size base m) (handleInteractions useN3 near one dims size base m').
    Proof.
      intros A. unfold handleInteractions. apply (confined_fold _ (fun _ => True)); [|now apply Forall_forall|exact A].
      clear m m' A. intros m m' slice A _. rewrite <- (proj2 (proj2 (proj2 A))).
      apply (confined_fold _ (fun e => C (base + fst e))); [|apply Forall_forall|exact A].
      - intros m0 m0' e A0 He. now apply confined_entry.
      - intros e He. apply (offsets_in ((slice + curSl m) mod numSlices one)); [|exact He]. apply Z.mod_pos_bound. reflexivity.
    Qed.

    Lemma confined_loadSlice m m' s0 c : agree m m' -> 0 <= c < 2 ->
      confined m m' (writeCellIntoBuffer one dims size base m s0 c) (writeCellIntoBuffer one dims size base m' s0 c).
    Proof.
      intros (A1 & A2 & A3 & A4) Hc. rewrite !(load_slice dims size).
      assert (C1 : C (base + c)) by (replace c with (c + 0 * dx + 0 * dxy) by ring; apply Cplane; lia).
      assert (C2 : C (base + c + dx)) by (replace (base + c + dx) with (base + (c + 1 * dx + 0 * dxy)) by ring; apply Cplane; lia).
      rewrite <- (A1 _ C1), <- (A1 _ C2). split; [repeat split|]; cbn [cellRow comb combOff curSl]; auto.
      - intros s1. unfold setAt. destruct (s1 =? s0); auto.
      - intros s1. unfold setAt. destruct (s1 =? s0); auto.
      - intros k _. reflexivity.
    Qed.

    Lemma agree_cur m m' c : agree m m' -> agree (mkMem (cellRow m) (comb m) (combOff m) c) (mkMem (cellRow m') (comb m') (combOff m') c).
    Proof. intros (A1 & A2 & A3 & A4). repeat split; auto. Qed.

    Lemma confined_load x m m' : agree m m' -> confined m m' (loadBuffers one dims size base x m) (loadBuffers one dims size base x m').
    Proof.
      intros A. unfold loadBuffers. destruct (x =? 0).
      - apply (confined_trans m m' (mkMem (cellRow m) (comb m) (combOff m) 0) (mkMem (cellRow m') (comb m') (combOff m') 0)).
        + split; [now apply agree_cur|]. intros k _. reflexivity.
        + apply (confined_fold _ (fun s0 => 0 <= s0 < 2)); [| |now apply agree_cur].
          * intros m0 m0' s0 A0 Hs. now apply confined_loadSlice.
          * apply Forall_forall. intros s0 Hs. now apply in_zrange in Hs.
      - rewrite <- (proj2 (proj2 (proj2 A))).
        pose proof (confined_loadSlice m m' (curSl m) (numSlices one - 1) A ltac:(change (0 <= 1 < 2); lia)) as [G1 G2].
        split.
        + rewrite <- (proj2 (proj2 (proj2 G1))). now apply agree_cur.
        + intros k Hk. cbn [cellRow]. now apply G2.
    Qed.

    Lemma confined_writeBack s0 c m m' i : agree m m' -> 0 <= c < 2 -> (i < 2)%nat ->
      confined m m' (writeBack zeroRow one dims base s0 c m i) (writeBack zeroRow one dims base s0 c m' i).
    Proof.
      intros A Hc Hi. pose proof A as (A1 & A2 & A3 & A4). unfold writeBack. rewrite <- !A3, <- !A2.
      destruct (Nat.eqb _ _); [now apply confined_refl|]. cbv zeta.
      set (buffer := resizeList _ _ _ _).
      pose proof (confined_write m m' (InComb s0) buffer A I) as G. eapply confined_trans; [exact G|].
      rewrite <- (agree_rows _ _ (mkView (InComb s0) (nth i (combOff m s0) O) (length buffer)) (proj1 G) I). apply confined_write; [apply G|].
      rewrite (baseOffsets_eq dims). destruct i as [|[|i]]; [| |lia]; cbn [nth].
      - replace c with (c + 0 * dx + 0 * dxy) by ring. apply Cplane; lia.
      - replace (c + dx) with (c + 1 * dx + 0 * dxy) by ring. apply Cplane; lia.
    Qed.

    Lemma confined_storeSlice m m' s0 c : agree m m' -> 0 <= c < 2 ->
      confined m m' (writeBufferIntoCell zeroRow one dims base m s0 c) (writeBufferIntoCell zeroRow one dims base m' s0 c).
    Proof.
      intros A Hc. unfold writeBufferIntoCell. rewrite (baseOffsets_eq dims). cbn [length seq rev app].
      apply (confined_fold _ (fun i => (i < 2)%nat)); [|repeat constructor; lia|exact A].
      intros m0 m0' i A0 Hi. now apply confined_writeBack.
    Qed.

    Lemma confined_store x m m' : agree m m' -> confined m m' (storeBuffers zeroRow one dims base x m) (storeBuffers zeroRow one dims base x m').
    Proof.
      intros A. unfold storeBuffers. rewrite <- (proj2 (proj2 (proj2 A))).
      pose proof (confined_storeSlice m m' (curSl m) 0 A ltac:(lia)) as G.
      destruct (x =? _); [|exact G]. eapply confined_trans; [exact G|].
      apply (confined_fold _ (fun s0 => 0 <= s0 < 2)); [| |apply G].
      - intros m0 m0' s0 A0 Hs. rewrite <- (proj2 (proj2 (proj2 A0))). now apply confined_storeSlice.
      - apply Forall_forall. intros s0 Hs. apply in_zrange in Hs. change (1 <= s0 < 2) in Hs. lia.
    Qed.

    Lemma confined_base b m m' : base = threeToOneD b dims -> agree m m' ->
      confined m m' (c04cProcessBaseCell zeroRow useN3 near one dims size m b) (c04cProcessBaseCell zeroRow useN3 near one dims size m' b).
    Proof.
      intros Eb A. unfold c04cProcessBaseCell. rewrite <- Eb.
      pose proof (confined_load (ix b) m m' A) as G1. eapply confined_trans; [exact G1|].
      pose proof (confined_interactions _ _ (proj1 G1)) as G2. eapply confined_trans; [exact G2|]. apply confined_store. apply G2.
    Qed.
  End Cells.
End Local.
