(** One axis of the octree: intervals that are halved again and again. *)
From Coq Require Import Reals Lra.
From Verif.Base Require Import ZRange.
Local Open Scope Z_scope.

(** Sides of a box along an axis: below, neither, above. *)
Inductive Side := Below | Same | Above.
Definition sideZ (e : Side) : Z := match e with Below => -1 | Same => 0 | Above => 1 end.

Definition bitZ (b : bool) : Z := if b then 1 else 0.

(** Bit lists, the last bit first, as numbers. *)
Fixpoint val (l : list bool) : Z := match l with [] => 0 | b :: r => bitZ b + 2 * val r end.
Definition pow2 (n : nat) : Z := 2 ^ Z.of_nat n.

Lemma pow2_S n : pow2 (S n) = 2 * pow2 n.
Proof. unfold pow2. rewrite Nat2Z.inj_succ, Z.pow_succ_r; lia. Qed.
Lemma pow2_pos n : 0 < pow2 n.
Proof. unfold pow2. apply Z.pow_pos_nonneg; lia. Qed.
Lemma pow2_add n m : pow2 (n + m) = pow2 n * pow2 m.
Proof. unfold pow2. rewrite Nat2Z.inj_add, Z.pow_add_r; lia. Qed.

Lemma val_range l : 0 <= val l < pow2 (length l).
Proof.
  induction l as [|b l IH]; cbn [val length]; [unfold pow2; cbn; lia|]. rewrite pow2_S. destruct b; cbn [bitZ]; lia.
Qed.

Lemma val_app m r : val (m ++ r) = val m + pow2 (length m) * val r.
Proof.
  induction m as [|b m IH]; cbn [val length app]; [unfold pow2; cbn [Z.of_nat]; lia|].
  rewrite pow2_S, IH. lia.
Qed.

Lemma val_inj l l' : length l = length l' -> val l = val l' -> l = l'.
Proof.
  revert l'. induction l as [|b l IH]; intros [|b' l'] L V; try discriminate L; [reflexivity|].
  cbn in V, L. injection L as L. destruct b, b'; cbn [bitZ] in V; try lia; f_equal; apply IH; auto; lia.
Qed.

Lemma val_repeat_true n : val (repeat true n) = pow2 n - 1.
Proof. induction n as [|n IH]; [reflexivity|]. cbn [repeat val bitZ]. rewrite IH, pow2_S. lia. Qed.
Lemma val_repeat_false n : val (repeat false n) = 0.
Proof. induction n as [|n IH]; [reflexivity|]. cbn [repeat val bitZ]. rewrite IH. reflexivity. Qed.

Lemma val_all_false l : val l = 0 <-> Forall (fun b => b = false) l.
Proof.
  split.
  - intros H. rewrite <- (val_repeat_false (length l)) in H. apply val_inj in H; [|now rewrite repeat_length].
    rewrite H. apply Forall_forall. intros b. apply repeat_spec.
  - intros H. induction H as [|b l -> _ IH]; [reflexivity|]. cbn [val bitZ]. lia.
Qed.
Lemma val_all_true l : val l = pow2 (length l) - 1 <-> Forall (fun b => b = true) l.
Proof.
  split.
  - intros H. rewrite <- (val_repeat_true (length l)) in H. apply val_inj in H; [|now rewrite repeat_length].
    rewrite H. apply Forall_forall. intros b. apply repeat_spec.
  - intros H. induction H as [|b l -> _ IH]; [reflexivity|]. cbn [val bitZ length]. rewrite pow2_S. lia.
Qed.

(** The neighbour on the same level: flip the bit, carry on if necessary. *)
Definition carry (e : Side) (b : bool) : Side :=
  match e, b with Below, false => Below | Above, true => Above | _, _ => Same end.
Definition flip (e : Side) (b : bool) : bool := match e with Same => b | _ => negb b end.
Fixpoint step1 (e : Side) (l : list bool) : option (list bool) :=
  match l with
  | [] => match e with Same => Some [] | _ => None end
  | b :: r => match step1 (carry e b) r with Some r' => Some (flip e b :: r') | None => None end
  end.

Lemma step1_same l : step1 Same l = Some l.
Proof. induction l as [|b l IH]; [reflexivity|]. cbn. destruct b; cbn; now rewrite IH. Qed.

Lemma step1_val e l l' : step1 e l = Some l' -> length l' = length l /\ val l' = val l + sideZ e.
Proof.
  revert e l'. induction l as [|b l IH]; intros e l' H; cbn in H.
  - destruct e; try discriminate. injection H as <-. cbn. lia.
  - destruct (step1 (carry e b) l) as [r|] eqn:E; [|discriminate]. injection H as <-.
    apply IH in E as [L V]. cbn [length val]. split; [lia|]. destruct e, b; cbn in *; lia.
Qed.

Lemma step1_some e l : 0 <= val l + sideZ e < pow2 (length l) -> exists l', step1 e l = Some l'.
Proof.
  revert e. induction l as [|b l IH]; intros e H; cbn [length val] in *.
  - destruct e; cbn in *; try (unfold pow2 in H; cbn in H; lia). eauto.
  - rewrite pow2_S in H. destruct (IH (carry e b)) as (r & E).
    + pose proof (val_range l). destruct e, b; cbn in *; lia.
    + cbn. rewrite E. eauto.
Qed.

Lemma step1_iff e l l' : step1 e l = Some l' <-> length l' = length l /\ val l' = val l + sideZ e.
Proof.
  split; [apply step1_val|]. intros [L V]. destruct (step1_some e l) as (r & E).
  - rewrite <- V, <- L. apply val_range.
  - rewrite E. f_equal. apply step1_val in E as [L' V']. apply val_inj; lia.
Qed.

(** Intervals.  [mid] is whatever the code computes as centre. *)
Section Interval.
  Variable mid : R -> R -> R.
  Local Open Scope R_scope.

  (** The interval reached by the bits, the first bit first. *)
  Fixpoint ivalF (lo hi : R) (l : list bool) : R * R :=
    match l with
    | [] => (lo, hi)
    | b :: r => if b then ivalF (mid lo hi) hi r else ivalF lo (mid lo hi) r
    end.
  (** The same for bits with the last one first. *)
  Fixpoint ival (lo hi : R) (l : list bool) : R * R :=
    match l with
    | [] => (lo, hi)
    | b :: r => let i := ival lo hi r in if b then (mid (fst i) (snd i), snd i) else (fst i, mid (fst i) (snd i))
    end.

  Lemma ivalF_app lo hi l r : ivalF lo hi (l ++ r) = ivalF (fst (ivalF lo hi l)) (snd (ivalF lo hi l)) r.
  Proof. revert lo hi. induction l as [|b l IH]; intros lo hi; cbn; [reflexivity|]. destruct b; apply IH. Qed.

  Lemma ival_F lo hi l : ival lo hi l = ivalF lo hi (rev l).
  Proof.
    induction l as [|b l IH]; [reflexivity|]. cbn [ival rev]. rewrite ivalF_app, <- IH. cbn. now destruct b.
  Qed.

  (** All halvings on the way give two intervals that are not empty. *)
  Fixpoint strictF (lo hi : R) (l : list bool) : Prop :=
    lo < hi /\ match l with
    | [] => True
    | b :: r => lo < mid lo hi < hi /\ (if b then strictF (mid lo hi) hi r else strictF lo (mid lo hi) r)
    end.

  Lemma strictF_nonempty lo hi l : strictF lo hi l -> lo < hi.
  Proof. destruct l; cbn; tauto. Qed.

  Lemma ivalF_inside lo hi l : strictF lo hi l -> lo <= fst (ivalF lo hi l) < snd (ivalF lo hi l) /\ snd (ivalF lo hi l) <= hi.
  Proof.
    revert lo hi. induction l as [|b l IH]; intros lo hi H; cbn in *; [lra|].
    destruct H as (H & M & S). destruct b; apply IH in S; lra.
  Qed.

  Lemma lo_eq lo hi l : strictF lo hi l -> (fst (ivalF lo hi l) <= lo <-> Forall (fun b => b = false) l).
  Proof.
    revert lo hi. induction l as [|b l IH]; intros lo hi H; cbn in *.
    - split; [constructor|intros; lra].
    - destruct H as (H & M & S). destruct b.
      + apply ivalF_inside in S. split; [lra|]. intros F. inversion F. discriminate.
      + rewrite (IH _ _ S). split; [now constructor|]. intros F. now inversion F.
  Qed.
  Lemma hi_eq lo hi l : strictF lo hi l -> (hi <= snd (ivalF lo hi l) <-> Forall (fun b => b = true) l).
  Proof.
    revert lo hi. induction l as [|b l IH]; intros lo hi H; cbn in *.
    - split; [constructor|intros; lra].
    - destruct H as (H & M & S). destruct b.
      + rewrite (IH _ _ S). split; [now constructor|]. intros F. now inversion F.
      + apply ivalF_inside in S. split; [lra|]. intros F. inversion F. discriminate.
  Qed.

  (** Bits as a number, first bit first. *)
  Definition valF (l : list bool) : Z := val (rev l).

  Lemma valF_cons b l : (valF (b :: l) = bitZ b * pow2 (length l) + valF l)%Z.
  Proof. unfold valF. cbn [rev]. rewrite val_app, rev_length. cbn [val]. lia. Qed.
  Lemma valF_range l : (0 <= valF l < pow2 (length l))%Z.
  Proof. unfold valF. rewrite <- (rev_length l). apply val_range. Qed.
  Lemma valF_all_false l : valF l = 0%Z <-> Forall (fun b => b = false) l.
  Proof. unfold valF. rewrite val_all_false. split; intros H; apply Forall_rev in H; [rewrite rev_involutive in H|]; exact H. Qed.
  Lemma valF_all_true l : valF l = (pow2 (length l) - 1)%Z <-> Forall (fun b => b = true) l.
  Proof.
    unfold valF. rewrite <- (rev_length l), val_all_true.
    split; intros H; apply Forall_rev in H; [rewrite rev_involutive in H|]; exact H.
  Qed.

  (** The lower end of one interval compared to the upper end of another. *)
  Lemma lo_le_hi lo hi u v : strictF lo hi u -> strictF lo hi v ->
    (fst (ivalF lo hi u) <= snd (ivalF lo hi v) <-> (valF u * pow2 (length v) <= (valF v + 1) * pow2 (length u))%Z).
  Proof.
    revert lo hi v. induction u as [|b u IH]; intros lo hi v Su Sv.
    - cbn [ivalF fst]. pose proof (ivalF_inside _ _ _ Sv) as I. split; intros _; [|lra].
      cbn [length]. change (valF []) with 0%Z. pose proof (valF_range v). unfold pow2 at 2. cbn. nia.
    - destruct v as [|c v].
      + cbn [ivalF snd]. pose proof (ivalF_inside _ _ _ Su) as I. cbn [ivalF] in I. split; intros _; [|lra].
        change (valF []) with 0%Z. unfold pow2 at 1. cbn [length Z.of_nat]. rewrite Z.pow_0_r.
        pose proof (valF_range (b :: u)). cbn [length] in *. lia.
      + rewrite !valF_cons. cbn [length]. rewrite !pow2_S. cbn [ivalF strictF] in *.
        destruct Su as (H & M & Su). destruct Sv as (_ & _ & Sv).
        pose proof (pow2_pos (length u)) as Pu. pose proof (pow2_pos (length v)) as Pv.
        pose proof (valF_range u) as Ru. pose proof (valF_range v) as Rv.
        destruct b, c; cbn [bitZ].
        * rewrite (IH _ _ _ Su Sv). split; intros; nia.
        * transitivity (fst (ivalF (mid lo hi) hi u) <= mid lo hi /\ mid lo hi <= snd (ivalF lo (mid lo hi) v)).
          { apply ivalF_inside in Su, Sv. split; intros; lra. }
          rewrite (lo_eq _ _ _ Su), (hi_eq _ _ _ Sv), <- valF_all_false, <- valF_all_true.
          split; [intros [-> ->]; nia|]. intros E. split; nia.
        * apply ivalF_inside in Su, Sv. split; intros _; [nia|lra].
        * rewrite (IH _ _ _ Su Sv). split; intros; nia.
  Qed.

  (** Closed intervals that meet, in terms of the neighbours on the same level. *)
  Definition meet (i j : R * R) : Prop := fst i <= snd j /\ fst j <= snd i.

  Definition strict lo hi l := strictF lo hi (rev l).

  Lemma meet_val lo hi u v : strict lo hi u -> strict lo hi v ->
    (meet (ival lo hi u) (ival lo hi v) <->
     (val u * pow2 (length v) <= (val v + 1) * pow2 (length u) /\ val v * pow2 (length u) <= (val u + 1) * pow2 (length v))%Z).
  Proof.
    intros Su Sv. unfold meet. rewrite !ival_F, (lo_le_hi _ _ _ _ Su Sv), (lo_le_hi _ _ _ _ Sv Su).
    unfold valF. rewrite !rev_involutive, !rev_length. reflexivity.
  Qed.

  (** [u] is at least as deep as [v]: the part of [u] at the level of [v] is a neighbour
      [e] of [v], and the rest of [u] stays at the side of [v]. *)
  Definition towards (e : Side) (m : list bool) : Prop :=
    match e with Same => True | Above => Forall (fun b => b = false) m | Below => Forall (fun b => b = true) m end.

  Lemma meet_deeper lo hi m c v : length c = length v -> strict lo hi (m ++ c) -> strict lo hi v ->
    (meet (ival lo hi (m ++ c)) (ival lo hi v) <-> exists e, step1 e v = Some c /\ towards e m).
  Proof.
    intros L Su Sv. rewrite (meet_val _ _ _ _ Su Sv). clear Su Sv. rewrite val_app, app_length, pow2_add, L.
    pose proof (val_range m) as Rm. pose proof (pow2_pos (length v)) as Pv. pose proof (pow2_pos (length m)) as Pm.
    set (k := pow2 (length m)) in *. set (n := pow2 (length v)) in *.
    transitivity ((val m + k * val c <= (val v + 1) * k /\ val v * k <= val m + k * val c + 1)%Z).
    { split; intros [A B]; (split; [clear B|clear A]); nia. }
    split.
    - intros [A B]. assert (C : (val c <= val v + 1 /\ val v - 1 <= val c)%Z) by (split; nia).
      assert (D : (val c = val v - 1 \/ val c = val v \/ val c = val v + 1)%Z) by lia.
      destruct D as [D|[D|D]].
      + exists Below. rewrite step1_iff. cbn [sideZ towards]. rewrite <- val_all_true. fold k. rewrite D in B. repeat split; (lia || nia).
      + exists Same. rewrite step1_iff. cbn [sideZ towards]. repeat split; lia.
      + exists Above. rewrite step1_iff. cbn [sideZ towards]. rewrite <- val_all_false. rewrite D in A. repeat split; (lia || nia).
    - intros (e & S & T). apply step1_iff in S as [_ S]. destruct e; cbn [sideZ towards] in *.
      + rewrite <- val_all_true in T. fold k in T. rewrite S, T. nia.
      + assert (E : val c = val v) by lia. rewrite E. nia.
      + rewrite <- val_all_false in T. rewrite S, T. nia.
  Qed.

  (** [u] is above [v]: [u] contains a neighbour [e] of [v] on the level of [v]. *)
  Lemma meet_higher lo hi (m u v : list bool) : (length m + length u = length v)%nat -> strict lo hi u -> strict lo hi v ->
    (meet (ival lo hi u) (ival lo hi v) <-> exists e m', step1 e v = Some (m' ++ u)).
  Proof.
    intros L Su Sv. rewrite (meet_val _ _ _ _ Su Sv). clear Su Sv. rewrite <- L, pow2_add.
    pose proof (val_range u) as Ru. pose proof (val_range v) as Rv. rewrite <- L, pow2_add in Rv.
    pose proof (pow2_pos (length m)) as Pm. pose proof (pow2_pos (length u)) as Pu.
    set (k := pow2 (length m)) in *. set (n := pow2 (length u)) in *.
    transitivity ((val u * k <= val v + 1 /\ val v <= (val u + 1) * k)%Z).
    { split; intros [A B]; (split; [clear B|clear A]); nia. }
    assert (Ex : forall x, (0 <= x < k)%Z -> exists m', length m' = length m /\ val m' = x).
    { subst k. clear. induction m as [|a m IH]; intros x H; cbn [length] in *.
      - exists []. unfold pow2 in H. cbn in H. split; [reflexivity|cbn; lia].
      - rewrite pow2_S in H. destruct (IH (x / 2)%Z) as (m' & L & V); [split; [apply Z.div_pos|apply Z.div_lt_upper_bound]; lia|].
        exists ((x mod 2 =? 1)%Z :: m'). cbn [length val]. split; [lia|]. rewrite V.
        pose proof (Z.mod_pos_bound x 2 ltac:(lia)). pose proof (Z.div_mod x 2 ltac:(lia)).
        destruct (x mod 2 =? 1)%Z eqn:E; cbn [bitZ]; lia. }
    split.
    - intros [A B].
      assert (D : ((val v + 1 = val u * k) \/ (val v = (val u + 1) * k) \/ (val u * k <= val v < (val u + 1) * k))%Z) by lia.
      destruct D as [D|[D|D]].
      + exists Above. destruct (Ex 0%Z ltac:(lia)) as (m' & L' & V'). exists m'. rewrite step1_iff, val_app, app_length, L', V'. fold k. cbn [sideZ]. split; [lia|nia].
      + exists Below. destruct (Ex (k - 1)%Z ltac:(lia)) as (m' & L' & V'). exists m'. rewrite step1_iff, val_app, app_length, L', V'. fold k. cbn [sideZ]. split; [lia|nia].
      + exists Same. destruct (Ex (val v - val u * k)%Z ltac:(nia)) as (m' & L' & V'). exists m'. rewrite step1_iff, val_app, app_length, L', V'. fold k. cbn [sideZ]. split; [lia|nia].
    - intros (e & m' & S). apply step1_iff in S as [L' S]. rewrite app_length in L'. rewrite val_app in S.
      assert (E : length m' = length m) by lia. pose proof (val_range m') as Rm. rewrite E in *. fold k in S, Rm.
      destruct e; cbn [sideZ] in S; nia.
  Qed.
End Interval.
