(** getParticle and the scan of the additional vectors find the next matching
    particle of a thread. *)
From Verif.Base Require Import ZRange.
From Verif.Container Require Import IteratorModel IteratorLemmas.

Section Search.
  Context {P : Type}.
  Variable cf : Conf P.
  Hypothesis Hstride : 0 < stride cf.
  Hypothesis Hstart : 0 <= startCell cf.
  Hypothesis Hthread : 0 <= threadNum cf.

  Definition cellAt (cs : list (list P)) (c : Z) : list P := match at_ cs c with Some l => l | None => [] end.
  Definition matches (cs : list (list P)) (c : Z) : list P := filter (ful cf) (cellAt cs c).
  (** Matching particles at or after position ([c], [p]) in the cells of the thread. *)
  Definition rest (cs : list (list P)) (c p : Z) : list P :=
    filter (ful cf) (skipn (Z.to_nat p) (cellAt cs c)) ++
    flat_map (matches cs) (zsteps (c + stride cf) (endCell cf + 1) (stride cf)).

  Definition goodCells (cs : list (list P)) : Prop :=
    endCell cf <= lastCell cf < size cs /\ size cs < sizeMax /\
    forall c l, at_ cs c = Some l -> size l < sizeMax /\
      forall x, In x l -> ful cf x = true -> relevant cf c = true /\ startCell cf <= c <= endCell cf.

  Variable cs : list (list P).
  Hypothesis G : goodCells cs.

  Lemma cellAt_some c l : at_ cs c = Some l -> cellAt cs c = l.
  Proof. unfold cellAt. now intros ->. Qed.
  Lemma cellAt_out c : size cs <= c -> cellAt cs c = [].
  Proof. unfold cellAt. intros H. now rewrite at_none. Qed.

  Lemma cell_nil c l p : at_ cs c = Some l ->
    negb (relevant cf c) || (size l <=? p) = true -> filter (ful cf) (skipn (Z.to_nat p) l) = [].
  Proof.
    intros E H. apply orb_true_iff in H. destruct H as [H|H].
    - apply filter_nil. intros x Hx. destruct (ful cf x) eqn:F; [|reflexivity].
      destruct G as (_ & _ & Gc). destruct (Gc c l E) as [_ Gx].
      destruct (Gx x) as [Hr _]; [|exact F|now rewrite Hr in H].
      rewrite <- (firstn_skipn (Z.to_nat p) l). apply in_or_app. now right.
    - rewrite skipn_all_Z; [reflexivity|lia].
  Qed.

  Lemma rest_next c : c + stride cf <= endCell cf ->
    flat_map (matches cs) (zsteps (c + stride cf) (endCell cf + 1) (stride cf)) = rest cs (c + stride cf) 0.
  Proof. intros H. rewrite zsteps_cons by lia. reflexivity. Qed.

  Definition own (c0 c : Z) : Prop := c0 <= c /\ (c - c0) mod stride cf = 0.
  Lemma own_refl c : own c c.
  Proof. split; [lia|]. now rewrite Z.sub_diag. Qed.
  Lemma own_step c c' : own (c + stride cf) c' -> own c c'.
  Proof.
    intros [H1 H2]. split; [lia|].
    replace (c' - c) with (c' - (c + stride cf) + 1 * stride cf) by ring. rewrite Z.mod_add by lia. exact H2.
  Qed.
  Lemma own_trans a b c : own a b -> own b c -> own a c.
  Proof.
    intros [H1 H2] [H3 H4]. split; [lia|].
    replace (c - a) with ((c - b) + (b - a)) by ring. rewrite Zplus_mod, H2, H4. cbn. reflexivity.
  Qed.

  Lemma skipCells_spec : forall fuel c p, 0 <= c < size cs -> 0 <= p -> size cs - c < Z.of_nat fuel ->
    exists r, skipCells cf fuel cs c p = Some r /\
      match r with
      | None => rest cs c p = []
      | Some (c', p') => exists l, at_ cs c' = Some l /\ 0 <= p' < size l /\ own c c' /\
          rest cs c p = rest cs c' p' /\ ((c' = c /\ p' = p) \/ (c < c' /\ p' = 0))
      end.
  Proof.
    induction fuel as [|f IH]; intros c p Hc Hp Hf; [lia|].
    destruct (at_lt cs c Hc) as [l E]. cbn [skipCells]. rewrite E.
    destruct (negb (relevant cf c) || (size l <=? p)) eqn:B.
    - assert (Hn : filter (ful cf) (skipn (Z.to_nat p) (cellAt cs c)) = []).
      { rewrite (cellAt_some c l E). now apply (cell_nil c). }
      destruct (Z.ltb_spec (endCell cf) (c + stride cf)).
      + exists None. split; [reflexivity|]. unfold rest. rewrite Hn, zsteps_nil by lia. reflexivity.
      + destruct (IH (c + stride cf) 0) as (r & Er & Hr); [destruct G as ((? & ?) & _); lia|lia|lia|].
        exists r. split; [exact Er|].
        assert (Hrest : rest cs c p = rest cs (c + stride cf) 0).
        { unfold rest at 1. rewrite Hn. cbn [app]. now apply rest_next. }
        destruct r as [[c' p']|]; [|congruence].
        destruct Hr as (l' & E' & Hp' & Ho & Hr & Hd). exists l'. repeat split; try tauto.
        * destruct (own_step _ _ Ho). assumption.
        * destruct (own_step _ _ Ho). assumption.
        * congruence.
        * right. destruct Ho. lia.
    - exists (Some (c, p)). split; [reflexivity|]. exists l. apply orb_false_iff in B.
      repeat split; try lia; try (now rewrite Z.sub_diag); auto. 
  Qed.

  (** Number of particles at or after a position. *)
  Definition mu (c p : Z) : nat := (length (skipn (Z.to_nat p) (cellAt cs c)) + length (concat (skipn (Z.to_nat (c + 1)) cs)))%nat.

  Lemma mu_le_total c p : 0 <= c -> (mu c p <= length (concat cs))%nat.
  Proof.
    intros Hc. unfold mu, cellAt. rewrite skipn_length. destruct (at_ cs c) as [l|] eqn:E; cbn [length].
    - apply at_some in E. destruct E as [Hr E].
      replace (Z.to_nat (c + 1)) with (S (Z.to_nat c)) by lia.
      destruct (setAt_split cs (Z.to_nat c) l l E) as [E1 _].
      rewrite E1 at 2. rewrite concat_app, app_length. cbn [concat]. rewrite app_length. lia.
    - rewrite <- (firstn_skipn (Z.to_nat (c + 1)) cs) at 2. rewrite concat_app, app_length. lia.
  Qed.

  Lemma mu_zero c : 0 <= c < size cs -> mu c 0 = length (concat (skipn (Z.to_nat c) cs)).
  Proof.
    intros Hc. destruct (at_lt cs c Hc) as [l E]. unfold mu. rewrite (cellAt_some c l E), (skipn_at _ _ _ E).
    cbn [concat]. rewrite app_length. reflexivity.
  Qed.

  Lemma mu_later c p c' : 0 <= c < c' -> c' < size cs -> (mu c' 0 <= mu c p)%nat.
  Proof.
    intros Hc Hl. rewrite mu_zero by lia. unfold mu.
    replace (Z.to_nat c') with (Z.to_nat (c' - (c + 1)) + Z.to_nat (c + 1))%nat by lia.
    rewrite <- skipn_skipn.
    rewrite <- (firstn_skipn (Z.to_nat (c' - (c + 1))) (skipn (Z.to_nat (c + 1)) cs)) at 2.
    rewrite concat_app, app_length. lia.
  Qed.

  Lemma mu_step c p l : at_ cs c = Some l -> 0 <= p < size l -> (mu c (p + 1) < mu c p)%nat.
  Proof.
    intros E Hp. unfold mu. rewrite (cellAt_some c l E). destruct (at_lt l p Hp) as [x Ex].
    rewrite (skipn_at _ _ _ Ex). cbn [length]. lia.
  Qed.

  (** A found position. *)
  Definition found (c p : Z) (x : P) (c' p' : Z) : Prop :=
    exists l, at_ cs c' = Some l /\ at_ l p' = Some x /\ ful cf x = true /\ own c c' /\ startCell cf <= c' <= endCell cf.

  Lemma found_rest c p x : (exists l, at_ cs c = Some l /\ at_ l p = Some x) -> ful cf x = true ->
    rest cs c p = x :: rest cs c (p + 1).
  Proof.
    intros (l & E & Ex) F. unfold rest. rewrite (cellAt_some c l E), (skipn_at _ _ _ Ex). cbn [filter]. now rewrite F.
  Qed.

  Lemma good_end c l p x : at_ cs c = Some l -> at_ l p = Some x -> ful cf x = true ->
    startCell cf <= c <= endCell cf /\ 0 <= p < sizeMax - 1.
  Proof.
    intros E Ex F. destruct G as (_ & _ & Gc). destruct (Gc c l E) as [Hs Gx].
    apply at_some in Ex. destruct Ex as [Hr Ex]. split; [|lia].
    destruct (Gx x) as [_ H]; [eapply nth_error_In, Ex|exact F|exact H].
  Qed.

  Lemma advance_spec : forall fuel c p, 0 <= c < size cs -> 0 <= p < sizeMax -> (mu c (p + 1) < fuel)%nat ->
    exists c' p', advance cf fuel cs c p = Some (c', p') /\
      ((c' = sizeMax /\ rest cs c (p + 1) = []) \/
       exists x, found c p x c' p' /\ rest cs c (p + 1) = x :: rest cs c' (p' + 1)).
  Proof.
    induction fuel as [|f IH]; intros c p Hc Hp Hf; [lia|]. cbn [advance].
    rewrite incr_small by exact Hp.
    destruct (skipCells_spec (S (length cs)) c (p + 1)) as (r & Er & Hr); [lia|lia|unfold size in *; lia|].
    rewrite Er. destruct r as [[c1 p1]|].
    - destruct Hr as (l & E & Hp1 & Ho & Hrest & Hd). rewrite E. destruct (at_lt l p1 Hp1) as [x Ex]. rewrite Ex.
      assert (Hc1 : 0 <= c1 < size cs) by (apply at_some in E; tauto).
      destruct (ful cf x) eqn:F.
      + exists c1, p1. split; [reflexivity|]. right. exists x. split.
        * exists l. repeat split; try tauto; try apply Ho; apply (good_end c1 l p1 x E Ex F).
        * rewrite Hrest. apply found_rest; [eauto|exact F].
      + assert (Hm : (mu c1 (p1 + 1) < mu c (p + 1))%nat).
        { apply Nat.lt_le_trans with (mu c1 p1); [now apply (mu_step c1 p1 l)|].
          destruct Hd as [[-> ->]|[Hlt ->]]; [lia|]. apply mu_later; lia. }
        assert (Hs : size l < sizeMax) by (destruct G as (_ & _ & Gc); apply (Gc c1 l E)).
        destruct (IH c1 p1) as (c' & p' & Ea & Hres); [lia|lia|lia|].
        exists c', p'. split; [exact Ea|].
        assert (Hr2 : rest cs c1 p1 = rest cs c1 (p1 + 1)).
        { unfold rest. rewrite (cellAt_some c1 l E), (skipn_at _ _ _ Ex). cbn [filter]. now rewrite F. }
        rewrite Hrest, Hr2. destruct Hres as [Hres|(y & (l' & E1 & E2 & E3 & E4 & E5) & Hy)]; [now left|right].
        exists y. split; [|exact Hy]. exists l'. repeat split; try tauto; apply (own_trans _ _ _ Ho E4).
    - exists sizeMax, sizeMax. split; [reflexivity|]. now left.
  Qed.

  Definition startOf (c p : Z) : Z := if (c =? 0) && (p =? 0) then startCell cf + threadNum cf else c.

  Lemma getParticle_spec c p : 0 <= c -> 0 <= p < sizeMax ->
    exists r c' p', getParticle cf cs c p = Some (r, c', p') /\
      match r with
      | None => c' = 0 /\ p' = 0 /\ rest cs (startOf c p) p = []
      | Some x => found (startOf c p) p x c' p' /\ rest cs (startOf c p) p = rest cs c' p'
      end.
  Proof.
    intros Hc Hp. unfold getParticle. fold (startOf c p). set (c1 := startOf c p).
    assert (Hc1 : 0 <= c1) by (unfold c1, startOf; destruct ((c =? 0) && (p =? 0)); lia).
    clearbody c1. cbv zeta. destruct G as (Ge & Gs & Gc).
    destruct (Z.leb_spec (size cs) c1) as [Hout|Hin].
    { exists None, 0, 0. split; [reflexivity|]. repeat split. unfold rest.
      rewrite cellAt_out, skipn_nil by lia. rewrite zsteps_nil by lia. reflexivity. }
    destruct (at_lt cs c1) as [l E]; [lia|]. rewrite E.
    assert (Hadv : filter (ful cf) (skipn (Z.to_nat p) l) = filter (ful cf) (skipn (Z.to_nat (p + 1)) l) ->
      exists r c' p', match advance cf (S (length (concat cs))) cs c1 p with
        | None => None
        | Some (c', p') => if lastCell cf <? c' then Some (None, 0, 0)
            else match at_ cs c' with None => None
                | Some cell' => match at_ cell' p' with Some x => Some (Some x, c', p') | None => None end end
        end = Some (r, c', p') /\
      match r with
      | None => c' = 0 /\ p' = 0 /\ rest cs c1 p = []
      | Some x => found c1 p x c' p' /\ rest cs c1 p = rest cs c' p'
      end).
    { intros Hskip.
      assert (Hr : rest cs c1 p = rest cs c1 (p + 1)) by (unfold rest; now rewrite (cellAt_some c1 l E), Hskip).
      destruct (advance_spec (S (length (concat cs))) c1 p) as (c' & p' & Ea & Hd);
        [lia|lia|pose proof (mu_le_total c1 (p + 1)); lia|].
      rewrite Ea. destruct Hd as [[-> Hn]|(x & Hf & Hx)].
      - exists None, 0, 0. destruct (Z.ltb_spec (lastCell cf) sizeMax); [|lia]. repeat split. now rewrite Hr.
      - destruct Hf as (l' & E1 & E2 & F & Ho & He). exists (Some x), c', p'.
        destruct (Z.ltb_spec (lastCell cf) c'); [lia|]. rewrite E1, E2. split; [reflexivity|].
        split; [exists l'; tauto|]. rewrite Hr, Hx. symmetry. apply found_rest; [eauto|exact F]. }
    destruct (Z.leb_spec (size l) p) as [Hbig|Hsmall].
    - apply Hadv. rewrite !skipn_all_Z by lia. reflexivity.
    - destruct (at_lt l p) as [x Ex]; [lia|]. rewrite Ex. destruct (ful cf x) eqn:F.
      + pose proof (good_end c1 l p x E Ex F) as [He _]. destruct (Z.ltb_spec (lastCell cf) c1); [lia|].
        rewrite E, Ex. exists (Some x), c1, p. split; [reflexivity|]. split; [|reflexivity].
        exists l. split; [exact E|]. split; [exact Ex|]. split; [exact F|]. split; [apply own_refl|exact He].
      + apply Hadv. rewrite (skipn_at _ _ _ Ex). cbn [filter]. now rewrite F.
  Qed.
End Search.

Section Scan.
  Context {P : Type}.
  Variable cf : Conf P.
  Hypothesis Hstride : 0 < stride cf.

  Definition vecAt (bufs : list (list P)) (vs : list nat) (v : Z) : list P :=
    match at_ vs v with Some b => nth b bufs [] | None => [] end.
  Definition vmatches bufs vs v : list P := filter (ful cf) (vecAt bufs vs v).
  Definition vrest (bufs : list (list P)) (vs : list nat) (v i : Z) : list P :=
    filter (ful cf) (skipn (Z.to_nat i) (vecAt bufs vs v)) ++
    flat_map (vmatches bufs vs) (zsteps (v + stride cf) (size vs) (stride cf)).
  Definition goodVecs (bufs : list (list P)) (vs : list nat) : Prop :=
    size vs < sizeMax /\ (forall b, In b vs -> (b < length bufs)%nat) /\
    (forall l, In l bufs -> size l < sizeMax).

  Variable bufs : list (list P).
  Variable vs : list nat.
  Hypothesis G : goodVecs bufs vs.

  Lemma firstMatch_spec : forall l i,
    match firstMatch cf l i with
    | None => filter (ful cf) l = []
    | Some (i', x) => i <= i' < i + size l /\ ful cf x = true /\ nth_error l (Z.to_nat (i' - i)) = Some x /\
        filter (ful cf) l = filter (ful cf) (skipn (Z.to_nat (i' - i)) l)
    end.
  Proof.
    induction l as [|x l IH]; intros i; cbn [firstMatch]; [reflexivity|].
    destruct (ful cf x) eqn:F.
    - repeat split; try (unfold size; cbn [length]; lia); auto.
      + now rewrite Z.sub_diag.
      + now rewrite Z.sub_diag.
    - specialize (IH (i + 1)). destruct (firstMatch cf l (i + 1)) as [[i' y]|].
      + destruct IH as (H1 & H2 & H3 & H4). replace (Z.to_nat (i' - i)) with (S (Z.to_nat (i' - (i + 1)))) by lia.
        cbn [filter nth_error skipn]. rewrite F. unfold size in *; cbn [length]. repeat split; auto; lia.
      + cbn [filter]. now rewrite F.
  Qed.

  Definition vfound (v i : Z) (x : P) (v' i' : Z) : Prop :=
    exists b, at_ vs v' = Some b /\ at_ (nth b bufs []) i' = Some x /\ (b < length bufs)%nat /\
      ful cf x = true /\ own cf v v' /\ 0 <= i'.

  Lemma vfound_rest b v i x : at_ vs v = Some b -> at_ (nth b bufs []) i = Some x -> ful cf x = true ->
    vrest bufs vs v i = x :: vrest bufs vs v (i + 1).
  Proof.
    intros E Ex F. assert (Ev : vecAt bufs vs v = nth b bufs []) by (unfold vecAt; now rewrite E).
    unfold vrest. rewrite Ev, (skipn_at _ _ _ Ex). cbn [filter]. now rewrite F.
  Qed.

  Lemma scan_spec : forall fuel v i, 0 <= v -> 0 <= i -> Z.max 0 (size vs - v) < Z.of_nat fuel ->
    exists r, scanVectors cf fuel bufs vs v i = Some r /\
      match r with
      | None => vrest bufs vs v i = []
      | Some (v', i', x) => vfound v i x v' i' /\ vrest bufs vs v i = vrest bufs vs v' i'
      end.
  Proof.
    induction fuel as [|f IH]; intros v i Hv Hi Hf; [lia|]. cbn [scanVectors].
    destruct (Z.ltb_spec v (size vs)) as [Hlt|Hge].
    - destruct (at_lt vs v) as [b E]; [lia|]. rewrite E.
      assert (Hb : (b < length bufs)%nat).
      { destruct G as (_ & Gb & _). apply Gb. apply at_some in E. eapply nth_error_In, E. }
      assert (En : nth_error bufs b = Some (nth b bufs [])) by now apply nth_error_nth'.
      rewrite En.
      pose proof (firstMatch_spec (skipn (Z.to_nat i) (nth b bufs [])) i) as Hm.
      destruct (firstMatch cf (skipn (Z.to_nat i) (nth b bufs [])) i) as [[i' x]|].
      + destruct Hm as (H1 & H2 & H3 & H4). exists (Some (v, i', x)). split; [reflexivity|].
        assert (Es : forall n, skipn n (skipn (Z.to_nat i) (nth b bufs [])) = skipn (n + Z.to_nat i) (nth b bufs [])) by (intros; apply skipn_skipn).
        split.
        * exists b. split; [exact E|]. split; [|split; [exact Hb|split; [exact H2|split; [apply own_refl|lia]]]].
          unfold at_. destruct (Z.ltb_spec i' 0); [lia|].
          replace (Z.to_nat i') with (Z.to_nat i + Z.to_nat (i' - i))%nat by lia.
          rewrite <- H3. clear. generalize (Z.to_nat i), (Z.to_nat (i' - i)), (nth b bufs []). clear.
          induction n as [|n IH]; intros m [|x l]; cbn; auto; now destruct m.
        * unfold vrest. f_equal. unfold vecAt. rewrite E, H4, Es. do 2 f_equal. lia.
      + destruct (IH (v + stride cf) 0) as (r & Er & Hr); [lia|lia|lia|].
        exists r. split; [exact Er|].
        assert (Hrest : vrest bufs vs v i = vrest bufs vs (v + stride cf) 0).
        { unfold vrest at 1. unfold vecAt at 1. rewrite E, Hm. cbn [app].
          destruct (Z.ltb_spec (v + stride cf) (size vs)).
          - rewrite zsteps_cons by lia. reflexivity.
          - rewrite zsteps_nil by lia. unfold vrest. rewrite zsteps_nil by lia. unfold vecAt. rewrite at_none by lia.
            rewrite skipn_nil. reflexivity. }
        destruct r as [[[v' i'] x]|]; [|congruence].
        destruct Hr as [(b' & A & B & C & D & F & I) Hr]. split; [|congruence].
        exists b'. repeat split; auto; apply (own_step cf Hstride _ _ F).
    - exists None. split; [reflexivity|]. unfold vrest. rewrite zsteps_nil by lia.
      unfold vecAt. rewrite at_none by lia. rewrite skipn_nil. reflexivity.
  Qed.
End Scan.
