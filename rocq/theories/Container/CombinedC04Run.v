(** lc_c04_combined_SoA: every interleaving of the threads of a colour gives the
    cells that processing the lines one after another gives. *)
From Coq Require Import Permutation.
From Verif.Base Require Import ZRange Occ.
From Verif.Grid Require Import IndexModel IndexSpec IndexProofs.
From Verif.Traversal Require Import CellSpec C08Model.
From Verif.Utils Require Import SoAModel.
From Verif.Container Require Import CombinedC04Model CombinedC04Offsets CombinedC04Sim CombinedC04Handler CombinedC04Spec CombinedC04Count CombinedC04Grid CombinedC04Parallel.
Local Open Scope Z_scope.

Lemma NoDup_flat_map_disjoint {A B} (f : A -> list B) l x y b :
  NoDup (flat_map f l) -> In x l -> In y l -> x <> y -> In b (f x) -> In b (f y) -> False.
Proof.
  induction l as [|a l IH]; intros Hnd Hx Hy Hne Bx By; [destruct Hx|]. cbn [flat_map] in Hnd.
  assert (Hsplit : forall l1 l2 : list B, NoDup (l1 ++ l2) -> NoDup l2 /\ (forall v, In v l1 -> ~ In v l2)).
  { clear. induction l1 as [|v l1 IH]; intros l2 H; [split; [exact H|intros v []]|]. cbn [app] in H. inversion H as [|? ? Hn Hd]; subst.
    destruct (IH l2 Hd) as [G1 G2]. split; [exact G1|]. intros w [<-|Hw]; [|now apply G2]. intros Hin. apply Hn. apply in_app_iff. now right. }
  destruct (Hsplit _ _ Hnd) as [H2 Hd]. destruct Hx as [->|Hx], Hy as [->|Hy].
  - congruence.
  - apply (Hd b Bx). apply in_flat_map. now exists y.
  - apply (Hd b By). apply in_flat_map. now exists x.
  - now apply IH.
Qed.

Lemma events_of t (evs : list (Z * I3)) : filter (fun e => fst e =? t) evs = map (pair t) (map snd (filter (fun e => fst e =? t) evs)).
Proof.
  induction evs as [|[t' b] evs IH]; [reflexivity|]. cbn [filter fst]. destruct (Z.eqb_spec t' t) as [->|]; [|exact IH].
  cbn [map snd]. now rewrite <- IH.
Qed.

Section Run.
  Context {P : Type}.
  Variable zeroRow : Row P.
  Variable useN3 : bool.
  Variable near : Z -> Z -> Z -> bool.
  Variable dims : I3.
  Variable size : Z -> nat.
  Notation one := (mkI3 1 1 1).
  Notation dx := (ix dims).
  Notation dxy := (iy dims * ix dims).
  Hypothesis Hdx : 2 <= ix dims.
  Hypothesis Hdy : 2 <= iy dims.
  Hypothesis Hnear : forall x y z, 0 <= x <= 1 -> 0 <= y <= 1 -> 0 <= z <= 1 -> near x y z = true.
  Notation process := (c04cProcessBaseCell zeroRow useN3 near one dims size).
  Notation event := (c04cEvent zeroRow useN3 near one dims size).
  Notation run st evs := (c04cEvents zeroRow useN3 near one dims size st evs).
  Notation St := ((Z -> list (Row P)) * (Z -> @Mem P))%type.

  Definition memOf (st : St) (t : Z) : @Mem P := mkMem (fst st) (comb (snd st t)) (combOff (snd st t)) (curSl (snd st t)).
  (** The cells of the 2x2x2 block at a base cell. *)
  Definition covers (C : Z -> Prop) (b : I3) : Prop :=
    forall x y z, 0 <= x <= 1 -> 0 <= y <= 1 -> 0 <= z <= 1 -> C (threeToOneD b dims + (x + y * dx + z * dxy)).

  Lemma event_keeps C st e k : covers C (snd e) -> ~ C k -> fst (event st e) k = fst st k.
  Proof.
    intros HC Hk. destruct st as [cells bufs], e as [t b]. cbn [c04cEvent fst snd] in *.
    set (m := mkMem cells (comb (bufs t)) (combOff (bufs t)) (curSl (bufs t))).
    assert (A : agree C m m) by (repeat split; auto).
    exact (proj2 (confined_base zeroRow useN3 near dims size Hdx Hdy Hnear C (threeToOneD b dims) HC b m m eq_refl A) k Hk).
  Qed.

  Lemma run_keeps st evs k : (forall e, In e evs -> exists C, covers C (snd e) /\ ~ C k) -> fst (run st evs) k = fst st k.
  Proof.
    revert st. unfold c04cEvents. induction evs as [|e evs IH]; intros st H; [reflexivity|]. cbn [fold_left].
    rewrite IH by (intros e' He'; apply H; now right). destruct (H e (or_introl eq_refl)) as (C & HC & Hk). now apply (event_keeps C).
  Qed.

  Lemma project C t evs : (forall e, In e evs -> fst e = t -> covers C (snd e)) ->
    (forall e, In e evs -> fst e <> t -> exists C', covers C' (snd e) /\ forall k, C k -> ~ C' k) ->
    forall st st', agree C (memOf st t) (memOf st' t) ->
    agree C (memOf (run st evs) t) (memOf (run st' (filter (fun e => fst e =? t) evs)) t).
  Proof.
    unfold c04cEvents. induction evs as [|e evs IH]; intros H1 H2 st st' A; [exact A|].
    assert (IH' := IH (fun e' He' => H1 e' (or_intror He')) (fun e' He' => H2 e' (or_intror He'))). clear IH.
    cbn [fold_left filter]. destruct (Z.eqb_spec (fst e) t) as [E|E].
    - cbn [fold_left]. apply IH'. pose proof (H1 e (or_introl eq_refl) E) as HC. destruct e as [t' b]. cbn [fst snd] in *. subst t'.
      destruct st as [cells bufs], st' as [cells' bufs']. unfold memOf in *. cbn [c04cEvent fst snd] in *.
      unfold setAt. rewrite Z.eqb_refl.
      pose proof (proj1 (confined_base zeroRow useN3 near dims size Hdx Hdy Hnear C (threeToOneD b dims) HC b _ _ eq_refl A)) as G.
      exact G.
    - apply IH'. destruct (H2 e (or_introl eq_refl) E) as (C' & HC' & Hdis). destruct A as (A1 & A2 & A3 & A4).
      assert (Hbuf : snd (event st e) t = snd st t).
      { destruct st as [cells bufs], e as [t' b]. cbn [c04cEvent fst snd] in *. unfold setAt.
        rewrite (proj2 (Z.eqb_neq t t')) by congruence. reflexivity. }
      unfold memOf in *. cbn [cellRow comb combOff curSl] in *. rewrite Hbuf. repeat split; auto. cbn [cellRow].
      intros k Hk. rewrite (event_keeps C' st e k HC') by now apply Hdis. now apply A1.
  Qed.

  (** One thread alone. *)
  Lemma run_thread t bases : forall cells bufs, exists bufs',
    run (cells, bufs) (map (pair t) bases) =
    (cellRow (fold_left process bases (mkMem cells (comb (bufs t)) (combOff (bufs t)) (curSl (bufs t)))), bufs').
  Proof.
    unfold c04cEvents. induction bases as [|b bases IH]; intros cells bufs; [now exists bufs|]. cbn [map fold_left c04cEvent].
    set (m := process _ b). destruct (IH (cellRow m) (setAt bufs t m)) as (bufs' & E). exists bufs'. rewrite E.
    f_equal. unfold setAt. rewrite Z.eqb_refl. now destruct m.
  Qed.

  Lemma thread_lines t lines : forall cells bufs (L : Z -> list (Row P)), (forall k, cells k = L k) -> (forall k, length (L k) = size k) ->
    forall k, fst (run (cells, bufs) (map (pair t) (flat_map (c04cLineBases one dims) lines))) k
              = fold_left stepE (flat_map (lineOps dims) lines) L k.
  Proof.
    induction lines as [|yz lines IH]; intros cells bufs L Hc HL k; [apply Hc|].
    cbn [flat_map]. rewrite map_app, fold_left_app. unfold c04cEvents. rewrite fold_left_app.
    destruct (run_thread t (c04cLineBases one dims yz) cells bufs) as (bufs' & E). unfold c04cEvents in E. rewrite E.
    apply IH.
    - intros k'. exact (line_sim zeroRow useN3 near dims size Hdx Hdy Hnear cells (bufs t) yz L Hc HL k').
    - intros k'. rewrite length_steps. apply HL.
  Qed.

  (** * Blocks *)
  Lemma base_block yz b : In b (c04cLineBases one dims yz) -> covers (inBlock dims yz) b.
  Proof.
    intros H x y z Hx Hy Hz. unfold c04cLineBases in H. apply in_map_iff in H as (x0 & <- & H0). apply in_zsteps in H0; [|lia]. cbn [ix] in H0.
    exists (x0 + x), (fst yz + y), (snd yz + z). split; [lia|]. split; [lia|]. split; [lia|]. rewrite !flat_at. ring.
  Qed.

  Lemma ops_block yz e : In e (lineOps dims yz) -> inBlock dims yz (fst e) /\ inBlock dims yz (snd e).
  Proof.
    unfold lineOps. intros H. apply in_flat_map in H as (x & Hx & He). apply in_zrange in Hx.
    set (b := mkI3 x (fst yz) (snd yz)) in *.
    assert (G : forall x' y' z', 0 <= x' <= 1 -> 0 <= y' <= 1 -> 0 <= z' <= 1 -> forall k, k = threeToOneD b dims + (x' + y' * dx + z' * dxy) -> inBlock dims yz k).
    { intros x' y' z' Hx' Hy' Hz' k ->. apply base_block; auto. unfold c04cLineBases, b. apply in_map_iff. exists x. split; [reflexivity|].
      apply in_zsteps; [lia|]. cbn [ix]. rewrite Z.mod_1_r. lia. }
    assert (In e (ops0 dims (threeToOneD b dims) ++ ops1 dims (threeToOneD b dims))).
    { unfold opsBase in He. destruct (curAt x =? 0); [exact He|]. apply in_app_iff in He. apply in_app_iff. tauto. }
    clear He. unfold ops0, ops1 in H. cbn [app] in H.
    repeat (destruct H as [<-|H]; [cbn [fst snd]; split;
      first [ apply (G 0 0 0); [lia|lia|lia|ring] | apply (G 1 0 0); [lia|lia|lia|ring] | apply (G 0 1 0); [lia|lia|lia|ring] | apply (G 1 1 0); [lia|lia|lia|ring]
            | apply (G 0 0 1); [lia|lia|lia|ring] | apply (G 1 0 1); [lia|lia|lia|ring] | apply (G 0 1 1); [lia|lia|lia|ring] | apply (G 1 1 1); [lia|lia|lia|ring] ] |]).
    destruct H.
  Qed.

  Lemma color_block_disjoint col l1 l2 k : 0 <= col < 4 -> In l1 (c04cColor one dims col) -> In l2 (c04cColor one dims col) -> l1 <> l2 ->
    inBlock dims l1 k -> inBlock dims l2 k -> False.
  Proof.
    intros Hcol I1 I2 Hne (x1 & y1 & z1 & Hx1 & Hy1 & Hz1 & E1) (x2 & y2 & z2 & Hx2 & Hy2 & Hz2 & E2).
    destruct l1 as [a1 c1], l2 as [a2 c2]. cbn [fst snd] in *.
    destruct (color_parity dims col a1 c1 Hcol I1) as [P1 Q1]. destruct (color_parity dims col a2 c2 Hcol I2) as [P2 Q2].
    pose proof (in_color dims col _ _ a1 c1 (color_start col Hcol)) as [F1 _]. specialize (F1 I1).
    pose proof (in_color dims col _ _ a2 c2 (color_start col Hcol)) as [F2 _]. specialize (F2 I2).
    assert (B : 0 <= col mod 2 /\ 0 <= col / 2) by (split; [apply Z.mod_pos_bound; lia|apply Z.div_pos; lia]).
    assert (E : mkI3 x1 y1 z1 = mkI3 x2 y2 z2).
    { apply (threeToOneD_inj dims); [unfold inGrid; cbn [ix iy iz]; lia|unfold inGrid; cbn [ix iy iz]; lia|congruence]. }
    injection E as -> -> ->. apply Hne.
    assert (forall u v w, u <= w <= u + 1 -> v <= w <= v + 1 -> u mod 2 = v mod 2 -> u = v).
    { clear. intros u v w Hu Hv E. pose proof (Z.div_mod u 2 ltac:(lia)). pose proof (Z.div_mod v 2 ltac:(lia)). lia. }
    f_equal; [apply (H a1 a2 y2)|apply (H c1 c2 z2)]; auto; congruence.
  Qed.

  (** * A colour *)
  Definition blockCells (yz : Z * Z) : list Z :=
    flat_map (fun z => flat_map (fun y => map (fun x => threeToOneD (mkI3 x y z) dims) (zrange 0 dx)) (zrange (fst yz) (fst yz + 2)))
      (zrange (snd yz) (snd yz + 2)).
  Lemma in_blockCells yz k : In k (blockCells yz) <-> inBlock dims yz k.
  Proof.
    unfold blockCells, inBlock. split.
    - intros H. apply in_flat_map in H as (z & Hz & H). apply in_flat_map in H as (y & Hy & H). apply in_map_iff in H as (x & <- & Hx).
      apply in_zrange in Hx, Hy, Hz. exists x, y, z. repeat split; try lia.
    - intros (x & y & z & Hx & Hy & Hz & ->). apply in_flat_map. exists z. split; [apply in_zrange; lia|].
      apply in_flat_map. exists y. split; [apply in_zrange; lia|]. apply in_map_iff. exists x. split; [reflexivity|]. apply in_zrange. lia.
  Qed.

  Definition linesCell (lines : list (Z * Z)) (k : Z) : Prop := exists yz, In yz lines /\ inBlock dims yz k.

  Lemma lines_local lines (L L' : Z -> list (Row P)) : (forall k, linesCell lines k -> L k = L' k) ->
    (forall k, linesCell lines k -> fold_left stepE (flat_map (lineOps dims) lines) L k = fold_left stepE (flat_map (lineOps dims) lines) L' k) /\
    (forall k, ~ linesCell lines k -> fold_left stepE (flat_map (lineOps dims) lines) L k = L k).
  Proof.
    apply steps_local. intros e He. apply in_flat_map in He as (yz & Hyz & He). apply ops_block in He as [B1 B2].
    split; exists yz; now split.
  Qed.

  Lemma colour_run col evs cells bufs (L : Z -> list (Row P)) : 0 <= col < 4 -> executes dims (c04cColor one dims col) evs ->
    (forall k, cells k = L k) -> (forall k, length (L k) = size k) ->
    exists lines, Permutation lines (c04cColor one dims col) /\
      forall k, fst (run (cells, bufs) evs) k = fold_left stepE (flat_map (lineOps dims) lines) L k.
  Proof.
    intros Hcol (threads & work & Hnd & Hperm & Hin & Hev) Hc HL. exists (flat_map work threads). split; [exact Hperm|].
    assert (Hndl : NoDup (flat_map work threads)).
    { apply (Permutation_NoDup (Permutation_sym Hperm)). pose proof (NoDup_lines dims) as H. unfold c04cColors in H.
      rewrite <- flat_map_concat_map in H. change (1 * (iy one + 1) * (iz one + 1)) with 4 in H.
      assert (Hsub : forall l, In col l -> NoDup (flat_map (c04cColor one dims) l) -> NoDup (c04cColor one dims col)).
      { assert (Hap : forall l1 l2 : list (Z * Z), NoDup (l1 ++ l2) -> NoDup l1 /\ NoDup l2).
        { clear. induction l1 as [|v l1 IH]; intros l2 H0; [split; [constructor|exact H0]|]. cbn [app] in H0. inversion H0 as [|? ? Hn Hd]; subst.
          destruct (IH l2 Hd). split; [|assumption]. constructor; [|assumption]. intros Hv. apply Hn. apply in_app_iff. now left. }
        clear H. induction l as [|c l IH]; intros Hl Hn; [destruct Hl|]. cbn [flat_map] in Hn. destruct (Hap _ _ Hn) as [Hn1 Hn2].
        destruct Hl as [->|Hl]; auto. }
      apply (Hsub (zrange 0 4)); [now apply in_zrange|exact H]. }
    assert (Hcolour : forall t yz, In t threads -> In yz (work t) -> In yz (c04cColor one dims col)).
    { intros t yz Ht Hyz. apply (Permutation_in yz Hperm). apply in_flat_map. now exists t. }
    assert (Hdis : forall t t' k, In t threads -> In t' threads -> t <> t' -> linesCell (work t) k -> ~ linesCell (work t') k).
    { intros t t' k Ht Ht' Hne (l1 & I1 & B1) (l2 & I2 & B2).
      assert (Hl : l1 <> l2) by (intros ->; apply (NoDup_flat_map_disjoint work threads t t' l2); auto).
      exact (color_block_disjoint col l1 l2 k Hcol (Hcolour t l1 Ht I1) (Hcolour t' l2 Ht' I2) Hl B1 B2). }
    assert (Hcov : forall e, In e evs -> covers (linesCell (work (fst e))) (snd e)).
    { intros e He x y z Hx Hy Hz. pose proof (Hin e He) as Ht.
      assert (Hb : In (snd e) (flat_map (c04cLineBases one dims) (work (fst e)))).
      { rewrite <- (Hev _ Ht). apply in_map. apply filter_In. split; [exact He|]. apply Z.eqb_refl. }
      apply in_flat_map in Hb as (yz & Hyz & Hb). exists yz. split; [exact Hyz|]. now apply base_block. }
    intros k.
    assert (Hdec : (exists t, In t threads /\ linesCell (work t) k) \/ (forall t, In t threads -> ~ linesCell (work t) k)).
    { destruct (Exists_dec (fun t => In k (flat_map blockCells (work t))) threads (fun t => in_dec Z.eq_dec k _)) as [H|H].
      - left. apply Exists_exists in H as (t & Ht & H). exists t. split; [exact Ht|]. apply in_flat_map in H as (yz & Hyz & H).
        exists yz. split; [exact Hyz|]. now apply in_blockCells.
      - right. intros t Ht (yz & Hyz & Hb). apply H. apply Exists_exists. exists t. split; [exact Ht|]. apply in_flat_map. exists yz.
        split; [exact Hyz|]. now apply in_blockCells. }
    destruct Hdec as [(t & Ht & Hk)|Hno].
    - assert (A : agree (linesCell (work t)) (memOf (run (cells, bufs) evs) t) (memOf (run (cells, bufs) (filter (fun e => fst e =? t) evs)) t)).
      { apply project.
        - intros e He E. rewrite <- E. now apply Hcov.
        - intros e He E. exists (linesCell (work (fst e))). split; [now apply Hcov|]. intros k' Hk'. apply (Hdis t); auto.
        - repeat split; auto. }
      pose proof (proj1 A k Hk) as E. cbn [memOf cellRow] in E. rewrite E, events_of, (Hev t Ht).
      rewrite (thread_lines t (work t) cells bufs L Hc HL k).
      destruct (in_split t threads Ht) as (T1 & T2 & ET). subst threads. rewrite flat_map_app. cbn [flat_map]. rewrite !flat_map_app, !fold_left_app.
      set (L1 := fold_left stepE (flat_map (lineOps dims) (flat_map work T1)) L).
      assert (Hother : forall T, incl T (T1 ++ t :: T2) -> ~ In t T -> forall k', linesCell (work t) k' -> ~ linesCell (flat_map work T) k').
      { intros T HT Hn k' Hk' (yz & Hyz & Hb). apply in_flat_map in Hyz as (t' & Ht' & Hyz).
        apply (Hdis t t' k'); auto; [intros ->; contradiction|]. exists yz. now split. }
      apply NoDup_remove_2 in Hnd.
      assert (N1 : ~ In t T1) by (intros H; apply Hnd; apply in_app_iff; now left).
      assert (N2 : ~ In t T2) by (intros H; apply Hnd; apply in_app_iff; now right).
      assert (I1 : incl T1 (T1 ++ t :: T2)) by (intros v Hv; apply in_app_iff; now left).
      assert (I2 : incl T2 (T1 ++ t :: T2)) by (intros v Hv; apply in_app_iff; right; now right).
      rewrite (proj2 (lines_local (flat_map work T2) _ _ (fun k' _ => eq_refl)) k) by now apply Hother.
      apply (proj1 (lines_local (work t) L L1 ltac:(intros k' Hk'; symmetry; apply (proj2 (lines_local (flat_map work T1) L L (fun k' _ => eq_refl))); now apply Hother))).
      exact Hk.
    - rewrite run_keeps.
      + cbn [fst]. rewrite (proj2 (lines_local (flat_map work threads) L L (fun k' _ => eq_refl)) k); [apply Hc|].
        intros (yz & Hyz & Hb). apply in_flat_map in Hyz as (t & Ht & Hyz). apply (Hno t Ht). exists yz. now split.
      + intros e He. exists (linesCell (work (fst e))). split; [now apply Hcov|]. apply Hno. now apply Hin.
  Qed.

  Lemma colours_run : forall cols evss cells bufs (L : Z -> list (Row P)), (forall c, In c cols -> 0 <= c < 4) ->
    Forall2 (executes dims) (map (c04cColor one dims) cols) evss ->
    (forall k, cells k = L k) -> (forall k, length (L k) = size k) ->
    exists lines, Permutation lines (concat (map (c04cColor one dims) cols)) /\
      forall k, fst (run (cells, bufs) (concat evss)) k = fold_left stepE (flat_map (lineOps dims) lines) L k.
  Proof.
    induction cols as [|c cols IH]; intros evss cells bufs L Hcols HF Hc HL; cbn [map] in HF; inversion HF as [|? evs ? evss' H1 H2]; subst.
    - exists []. split; [reflexivity|]. exact Hc.
    - destruct (colour_run c evs cells bufs L (Hcols c (or_introl eq_refl)) H1 Hc HL) as (l1 & P1 & E1).
      destruct (run (cells, bufs) evs) as [cells1 bufs1] eqn:Er. cbn [fst] in E1.
      destruct (IH evss' cells1 bufs1 (fold_left stepE (flat_map (lineOps dims) l1) L)) as (l2 & P2 & E2); auto.
      { intros c' Hc'. apply Hcols. now right. }
      { intros k. rewrite length_steps. apply HL. }
      exists (l1 ++ l2). split; [cbn [map concat]; now rewrite P1, P2|].
      intros k. cbn [concat]. unfold c04cEvents in *. rewrite fold_left_app, Er, E2. now rewrite flat_map_app, fold_left_app.
  Qed.
End Run.
