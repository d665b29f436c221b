From Coq Require Import List Bool Arith Lia Permutation.
From Verif.Utils Require Import SoAModel SoASpec.
Import ListNotations.

Lemma pair_dec (x y : nat * nat) : {x = y} + {x <> y}.
Proof. decide equality; apply Nat.eq_dec. Qed.

Section P.
  Variable V : Type.
  Variable zero : V.
  Notation Particle := (Particle V).
  Notation Soa := (Soa V).

  Lemma resize_length n l : length (resizeList V zero n l) = n.
  Proof. unfold resizeList. rewrite app_length, firstn_length, repeat_length. lia. Qed.
  Lemma resize_nth n l i v : i < n -> nth_error l i = Some v -> nth_error (resizeList V zero n l) i = Some v.
  Proof.
    intros H E. unfold resizeList. assert (i < length l) by (apply nth_error_Some; congruence).
    rewrite nth_error_app1 by (rewrite firstn_length; lia). revert n i H H0 E. induction l as [|x l IH]; intros [|n] [|i] H H0 E; cbn in *; try lia; auto. apply IH; auto; lia.
  Qed.
  Lemma setNth_length i v (l : list V) : i < length l -> length (setNth V i v l) = length l.
  Proof. intros H. unfold setNth. rewrite app_length, firstn_length. cbn [length]. rewrite skipn_length. lia. Qed.
  Lemma setNth_nth i v (l : list V) j : i < length l -> nth_error (setNth V i v l) j = if Nat.eqb j i then Some v else nth_error l j.
  Proof.
    unfold setNth. revert i j. induction l as [|x l IH]; intros i j H; [cbn in H; lia|]. destruct i as [|i], j as [|j]; cbn in *; auto. apply IH. lia.
  Qed.

  (** * Writes in any order *)
  Definition inBounds (s : Soa) (ws : list (Write V)) : Prop := forall w, In w ws -> wPos w < length (s (wAttr w)).
  Definition consistent (ws : list (Write V)) : Prop := forall w w', In w ws -> In w' ws -> wAttr w = wAttr w' -> wPos w = wPos w' -> wVal w = wVal w'.
  Lemma doWrites_spec ws : forall s, inBounds s ws -> consistent ws -> exists s', doWrites V s ws = Some s' /\
    (forall a, length (s' a) = length (s a)) /\
    (forall w, In w ws -> nth_error (s' (wAttr w)) (wPos w) = Some (wVal w)) /\
    (forall a i, (forall w, In w ws -> ~ (wAttr w = a /\ wPos w = i)) -> nth_error (s' a) i = nth_error (s a) i).
  Proof.
    induction ws as [|w ws IH]; intros s B C.
    - exists s. cbn. repeat split; auto. intros w [].
    - cbn [doWrites]. unfold doWrite at 1. pose proof (B w (or_introl eq_refl)) as BW. rewrite (proj2 (Nat.ltb_lt _ _) BW).
      set (s1 := fun a => if Nat.eqb a (wAttr w) then setNth V (wPos w) (wVal w) (s a) else s a).
      assert (L1 : forall a, length (s1 a) = length (s a)).
      { intros a. unfold s1. destruct (Nat.eqb_spec a (wAttr w)) as [->|]; [now apply setNth_length|reflexivity]. }
      destruct (IH s1) as (s' & E & L & D & K).
      + intros w' W. rewrite L1. apply B. now right.
      + intros w1 w2 A1 A2. apply C; now right.
      + exists s'. split; [exact E|]. split; [intros a; rewrite L; apply L1|]. split.
        * intros w' [<-|W]; [|now apply D].
          destruct (in_dec pair_dec (wAttr w, wPos w) (map (fun w => (wAttr w, wPos w)) ws)) as [I|I].
          -- apply in_map_iff in I as (w2 & E2 & I2). injection E2 as E2 E3. rewrite (C w w2 (or_introl eq_refl) (or_intror I2)) by congruence. rewrite <- E2, <- E3. now apply D.
          -- rewrite K.
             ++ unfold s1. rewrite Nat.eqb_refl. rewrite setNth_nth by exact BW. now rewrite Nat.eqb_refl.
             ++ intros w2 I2 [E2 E3]. apply I. apply in_map_iff. exists w2. split; [congruence|exact I2].
        * intros a i N. rewrite K by (intros w2 I2; apply N; now right). unfold s1. destruct (Nat.eqb_spec a (wAttr w)) as [->|]; [|reflexivity].
          rewrite setNth_nth by exact BW. destruct (Nat.eqb_spec i (wPos w)) as [->|]; [|reflexivity]. destruct (N w (or_introl eq_refl)). auto.
  Qed.

  Lemma loader_writes needed cell : forall i w, In w (loaderWrites V needed i cell) <-> exists j p a, nth_error cell j = Some p /\ In a needed /\ w = mkWrite a (i + j) (p a).
  Proof.
    induction cell as [|p cell IH]; intros i w; cbn [loaderWrites].
    - split; [intros []|]. intros (j & p & a & E & _). destruct j; discriminate.
    - rewrite in_app_iff, in_map_iff, IH. split.
      + intros [(a & <- & A)|(j & q & a & E & A & ->)]; [exists 0, p, a; rewrite Nat.add_0_r; auto|exists (S j), q, a; rewrite <- plus_n_Sm; auto].
      + intros (j & q & a & E & A & ->). destruct j as [|j]; [injection E as ->; left; exists a; rewrite Nat.add_0_r; auto|right; exists j, q, a; rewrite <- plus_n_Sm; auto].
  Qed.

  Theorem loader needed cell s offset skip : (skip = true -> forall a, In a needed -> offset + length cell <= length (s a)) ->
    exists s', soaLoader V zero needed cell s offset skip = Some s' /\ holds V needed cell s' offset /\
      (skip = false -> forall a, length (s' a) = offset + length cell) /\
      (forall a i v, i < offset -> nth_error (s a) i = Some v -> nth_error (s' a) i = Some v) /\
      (skip = true -> forall a i, (i < offset \/ offset + length cell <= i \/ ~ In a needed) -> nth_error (s' a) i = nth_error (s a) i).
  Proof.
    intros H. unfold soaLoader. set (s0 := if skip then s else resizeArrays V zero (offset + length cell) s).
    destruct (doWrites_spec (loaderWrites V needed offset cell) s0) as (s' & E & L & D & K).
    - intros w W. apply loader_writes in W as (j & p & a & J & A & ->). cbn [wPos wAttr]. assert (j < length cell) by (apply nth_error_Some; congruence).
      unfold s0. destruct skip; [specialize (H eq_refl a A); lia|]. unfold resizeArrays. rewrite resize_length. lia.
    - intros w w' W W'. apply loader_writes in W as (j & p & a & J & A & ->). apply loader_writes in W' as (j' & p' & a' & J' & A' & ->). cbn. intros -> Q. assert (j = j') by lia. subst. congruence.
    - exists s'. split; [exact E|]. split; [|split; [|split]].
      + intros i p a I A. apply (D (mkWrite a (offset + i) (p a))). apply loader_writes. exists i, p, a. auto.
      + intros ->. intros a. rewrite L. unfold s0, resizeArrays. now rewrite resize_length.
      + intros a i v I N. rewrite K.
        * unfold s0. destruct skip; [exact N|]. apply resize_nth; [lia|exact N].
        * intros w W [_ Q]. apply loader_writes in W as (j & p & a' & J & A & ->). cbn in Q. lia.
      + intros -> a i C. rewrite K; [reflexivity|]. intros w W [Q1 Q2]. apply loader_writes in W as (j & p & a' & J & A & ->). cbn in Q1, Q2. subst.
        assert (j < length cell) by (apply nth_error_Some; congruence). destruct C as [C|[C|C]]; [lia|lia|contradiction].
  Qed.

  Lemma extract_particle computed s i : forall p, (forall a, In a computed -> i < length (s a)) -> exists p', extractParticle V computed s i p = Some p' /\
    forall a, (In a computed -> nth_error (s a) i = Some (p' a)) /\ (~ In a computed -> p' a = p a).
  Proof.
    induction computed as [|a r IH]; intros p H; cbn [extractParticle].
    - exists p. split; [reflexivity|]. intros a. split; [intros []|reflexivity].
    - destruct (nth_error (s a) i) as [v|] eqn:E; [|apply nth_error_None in E; specialize (H a (or_introl eq_refl)); lia].
      destruct (IH (setAttr V p a v)) as (p' & E' & Q); [intros b B; apply H; now right|]. exists p'. split; [exact E'|]. intros b. destruct (Q b) as [Q1 Q2]. split.
      + intros [->|B]; [|now apply Q1]. destruct (in_dec Nat.eq_dec b r) as [I|I]; [now apply Q1|]. rewrite (Q2 I). unfold setAttr. now rewrite Nat.eqb_refl.
      + intros N. rewrite Q2 by (intros B; apply N; now right). unfold setAttr. destruct (Nat.eqb_spec b a) as [->|]; [|reflexivity]. destruct N. now left.
  Qed.
  Theorem extractor computed s cell : forall offset, (forall a, In a computed -> offset + length cell <= length (s a)) ->
    exists cell', soaExtractor V computed cell s offset = Some cell' /\ takenFrom V computed s offset cell cell'.
  Proof.
    induction cell as [|p cell IH]; intros offset H; cbn [soaExtractor].
    - exists []. split; [reflexivity|]. split; [reflexivity|]. intros i p p' E. destruct i; discriminate.
    - cbn [length] in H. destruct (extract_particle computed s offset p) as (p' & E & Q); [intros a A; specialize (H a A); lia|]. rewrite E.
      destruct (IH (S offset)) as (cell' & E' & L & R); [intros a A; specialize (H a A); lia|]. rewrite E'. exists (p' :: cell'). split; [reflexivity|]. split; [cbn; now rewrite L|].
      intros i q q' I I' a. destruct i as [|i]; [injection I as <-; injection I' as <-; rewrite Nat.add_0_r; apply Q|]. specialize (R i q q' I I' a). now rewrite <- plus_n_Sm.
  Qed.
  Lemma taken_same attrs s offset c c' : takenFrom V attrs s offset c c' -> holds V attrs c s offset -> sameParticles V c c'.
  Proof.
    intros [L T] H. unfold sameParticles. revert offset c' L T H. induction c as [|p c IH]; intros offset [|p' c'] L T H; try discriminate; constructor.
    - intros a. destruct (T 0 p p' eq_refl eq_refl a) as [T1 T2]. destruct (in_dec Nat.eq_dec a attrs) as [I|I]; [|now apply T2].
      specialize (T1 I). rewrite (H 0 p a eq_refl I) in T1. congruence.
    - apply (IH (S offset)); [cbn in L; lia| |].
      + intros i q q' I I' a. specialize (T (S i) q q' I I' a). now rewrite <- plus_n_Sm in T.
      + intros i q a I A. specialize (H (S i) q a I A). now rewrite <- plus_n_Sm in H.
  Qed.
  Lemma holds_length attrs cell s offset a : holds V attrs cell s offset -> In a attrs -> cell <> [] -> offset + length cell <= length (s a).
  Proof.
    intros H A NE. destruct (nth_error cell (length cell - 1)) as [p|] eqn:E.
    - specialize (H _ p a E A). assert (offset + (length cell - 1) < length (s a)) by (apply nth_error_Some; congruence). lia.
    - apply nth_error_None in E. destruct cell; [congruence|cbn in E; lia].
  Qed.

  (** * All cells in one buffer *)
  Lemma all_writes needed cells : forall o w, In w (flat_map (fun oc => loaderWrites V needed (fst oc) (snd oc)) (combine (offsets V o cells) cells)) <->
    exists k c i p a, nth_error cells k = Some c /\ nth_error c i = Some p /\ In a needed /\ w = mkWrite a (o + total V (firstn k cells) + i) (p a).
  Proof.
    induction cells as [|c cells IH]; intros o w; cbn [offsets combine flat_map fst snd].
    - split; [intros []|]. intros (k & c & i & p & a & K & _). destruct k; discriminate.
    - rewrite in_app_iff, loader_writes, IH. split.
      + intros [(j & p & a & J & A & ->)|(k & c' & i & p & a & K & I & A & ->)].
        * exists 0, c, j, p, a. cbn. rewrite Nat.add_0_r. auto.
        * exists (S k), c', i, p, a. cbn [firstn]. unfold total. cbn [map list_sum fold_right]. repeat split; auto. f_equal. fold (list_sum (map (@length Particle) (firstn k cells))). lia.
      + intros (k & c' & i & p & a & K & I & A & ->). destruct k as [|k].
        * left. injection K as ->. exists i, p, a. cbn. rewrite Nat.add_0_r. auto.
        * right. exists k, c', i, p, a. cbn [firstn]. unfold total. cbn [map list_sum fold_right]. repeat split; auto. f_equal. fold (list_sum (map (@length Particle) (firstn k cells))). lia.
  Qed.
  Lemma total_prefix cells k c : nth_error cells k = Some c -> total V (firstn k cells) + length c <= total V cells.
  Proof.
    revert k. induction cells as [|c0 cells IH]; intros [|k] E; try discriminate; unfold total in *; cbn [firstn map list_sum fold_right] in *; [injection E as ->; lia|].
    specialize (IH k E). unfold list_sum in *. lia.
  Qed.
  Lemma total_mono (cells : list (list Particle)) k k' c : nth_error cells k = Some c -> k < k' -> total V (firstn k cells) + length c <= total V (firstn k' cells).
  Proof.
    revert k k'. induction cells as [|c0 cells IH]; intros [|k] [|k'] E L; try discriminate; try lia; unfold total in *; cbn [firstn map list_sum fold_right] in *; [injection E as ->; lia|].
    specialize (IH k k' E ltac:(lia)). unfold list_sum in *. lia.
  Qed.
  Theorem load_all needed cells s ws : Permutation ws (allWrites V needed cells) -> exists s',
    doWrites V (resizeArrays V zero (total V cells) s) ws = Some s' /\ (forall a, length (s' a) = total V cells) /\
    forall k c, nth_error cells k = Some c -> holds V needed c s' (total V (firstn k cells)).
  Proof.
    intros P. destruct (doWrites_spec ws (resizeArrays V zero (total V cells) s)) as (s' & E & L & D & K).
    - intros w W. rewrite P in W. apply all_writes in W as (k & c & i & p & a & KC & I & A & ->). cbn. unfold resizeArrays. rewrite resize_length.
      pose proof (total_prefix cells k c KC). assert (i < length c) by (apply nth_error_Some; congruence). lia.
    - intros w w' W W'. rewrite P in W, W'. apply all_writes in W as (k & c & i & p & a & KC & I & A & ->). apply all_writes in W' as (k' & c' & i' & p' & a' & KC' & I' & A' & ->).
      cbn. intros -> Q. assert (i < length c) by (apply nth_error_Some; congruence). assert (i' < length c') by (apply nth_error_Some; congruence).
      destruct (Nat.lt_trichotomy k k') as [G|[->|G]].
      + pose proof (total_mono cells k k' c KC G). lia.
      + rewrite KC in KC'. injection KC' as ->. assert (i = i') by lia. subst. congruence.
      + pose proof (total_mono cells k' k c' KC' G). lia.
    - exists s'. split; [exact E|]. split; [intros a; rewrite L; unfold resizeArrays; apply resize_length|].
      intros k c KC i p a I A. apply (D (mkWrite a (total V (firstn k cells) + i) (p a))). rewrite P. apply all_writes. exists k, c, i, p, a. auto.
  Qed.
  Theorem extract_all computed s cells : forall offset, (forall a, In a computed -> offset + total V cells <= length (s a)) -> exists cells',
    extractAll V computed cells s offset = Some cells' /\ length cells' = length cells /\
    forall k c c', nth_error cells k = Some c -> nth_error cells' k = Some c' -> takenFrom V computed s (offset + total V (firstn k cells)) c c'.
  Proof.
    induction cells as [|c cells IH]; intros offset H; cbn [extractAll].
    - exists []. split; [reflexivity|]. split; [reflexivity|]. intros k c c' E. destruct k; discriminate.
    - unfold total in H. cbn [map list_sum fold_right] in H. fold (list_sum (map (@length Particle) cells)) in H. fold (total V cells) in H.
      destruct (extractor computed s c offset) as (c1 & E1 & T1); [intros a A; specialize (H a A); lia|]. rewrite E1.
      destruct (IH (offset + length c)) as (r & E2 & L & T2); [intros a A; specialize (H a A); lia|]. rewrite E2.
      exists (c1 :: r). split; [reflexivity|]. split; [cbn; now rewrite L|]. intros [|k] d d' KD KD'.
      + injection KD as <-. injection KD' as <-. cbn. now rewrite Nat.add_0_r.
      + specialize (T2 k d d' KD KD'). cbn [firstn]. unfold total. cbn [map list_sum fold_right]. fold (list_sum (map (@length Particle) (firstn k cells))). fold (total V (firstn k cells)).
        now rewrite Nat.add_assoc.
  Qed.
End P.

Section Round.
  Variable V : Type.
  Variable zero : V.
  Theorem roundtrip_cell needed computed cell s offset : incl computed needed ->
    exists s1 cell', soaLoader V zero needed cell s offset false = Some s1 /\ soaExtractor V computed cell s1 offset = Some cell' /\ sameParticles V cell cell'.
  Proof.
    intros I. destruct (loader V zero needed cell s offset false) as (s1 & E & H & L & _); [discriminate|].
    destruct (extractor V computed s1 cell offset) as (cell' & E' & T); [intros a _; rewrite (L eq_refl); lia|].
    exists s1, cell'. split; [exact E|]. split; [exact E'|]. apply (taken_same V computed s1 offset); [exact T|]. intros i p a C A. apply H; auto.
  Qed.
  Theorem roundtrip_all needed computed cells s ws : incl computed needed -> Permutation ws (allWrites V needed cells) ->
    exists s1 cells', doWrites V (resizeArrays V zero (total V cells) s) ws = Some s1 /\ extractAll V computed cells s1 0 = Some cells' /\ Forall2 (sameParticles V) cells cells'.
  Proof.
    intros I P. destruct (load_all V zero needed cells s ws P) as (s1 & E & L & H).
    destruct (extract_all V computed s1 cells 0) as (cells' & E' & LC & T); [intros a _; rewrite L; cbn; lia|].
    exists s1, cells'. split; [exact E|]. split; [exact E'|].
    assert (G : forall k c c', nth_error cells k = Some c -> nth_error cells' k = Some c' -> sameParticles V c c').
    { intros k c c' K K'. apply (taken_same V computed s1 (0 + total V (firstn k cells))); [now apply T|]. intros i p a C A. cbn. apply (H k c K); auto. }
    clear -G LC. revert cells' G LC. induction cells as [|c cells IH]; intros [|c' cells'] G LC; try discriminate; constructor.
    - apply (G 0); reflexivity.
    - apply IH; [|cbn in LC; lia]. intros k d d' K K'. apply (G (S k)); assumption.
  Qed.
End Round.

(** Appending a buffer: the particles of both are there, those of the second behind
    the first. *)
Lemma append_holds V needed c1 c2 (s t : Soa V) o2 : (forall a, In a needed -> length (s a) = length c1) ->
  holds V needed c1 s 0 -> holds V needed c2 t o2 ->
  holds V needed c1 (append V s t) 0 /\ holds V needed c2 (append V s t) (length c1 + o2).
Proof.
  intros L H1 H2. split; intros i p a Hi Ha; unfold append.
  - specialize (H1 i p a Hi Ha). rewrite nth_error_app1; [exact H1|]. apply nth_error_Some. congruence.
  - rewrite nth_error_app2; rewrite (L a Ha); [|rewrite <- Nat.add_assoc; apply Nat.le_add_r].
    rewrite <- (H2 i p a Hi Ha). f_equal. rewrite <- Nat.add_assoc, Nat.add_comm. apply Nat.add_sub.
Qed.

(** Loading cells into buffers of their own and appending these is loading them into
    one buffer. *)
Lemma append_loaded V zero needed cells : forall s0 c0, (forall a, In a needed -> length (s0 a) = length c0) -> holds V needed c0 s0 0 ->
  exists bufs, Forall2 (fun c s => soaLoader V zero needed c (fun _ => []) 0 false = Some s) cells bufs /\
    let s := fold_left (append V) bufs s0 in
    holds V needed (c0 ++ concat cells) s 0 /\ (forall a, In a needed -> length (s a) = length (c0 ++ concat cells)).
Proof.
  induction cells as [|c cells IH]; intros s0 c0 L H.
  - exists []. cbn [fold_left concat]. rewrite app_nil_r. repeat split; auto.
  - destruct (loader V zero needed c (fun _ => []) 0 false) as (s & Es & Hs & Hl & _); [discriminate|].
    specialize (Hl eq_refl).
    destruct (append_holds V needed c0 c s0 s 0 L H Hs) as [A1 A2]. rewrite Nat.add_0_r in A2.
    destruct (IH (append V s0 s) (c0 ++ c)) as (bufs & F & R).
    + intros a Ha. unfold append. rewrite !app_length, (L a Ha), (Hl a). reflexivity.
    + intros i p a Hi Ha. destruct (Nat.lt_ge_cases i (length c0)) as [K|K].
      * rewrite nth_error_app1 in Hi by exact K. now apply A1.
      * rewrite nth_error_app2 in Hi by exact K. specialize (A2 _ p a Hi Ha). rewrite Nat.add_comm, Nat.sub_add in A2 by exact K. exact A2.
    + exists (s :: bufs). split; [now constructor|]. cbn [fold_left concat]. rewrite app_assoc. exact R.
Qed.

Lemma append_all V zero needed cells : exists bufs,
  Forall2 (fun c s => soaLoader V zero needed c (fun _ => []) 0 false = Some s) cells bufs /\
  let s := fold_left (append V) bufs (fun _ => []) in
  holds V needed (concat cells) s 0 /\ (forall a, In a needed -> length (s a) = length (concat cells)).
Proof.
  apply (append_loaded V zero needed cells (fun _ => []) []); [reflexivity|]. intros i p a Hi. destruct i; discriminate.
Qed.
