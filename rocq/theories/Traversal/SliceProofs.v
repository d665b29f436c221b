From Verif.Base Require Import ZRange Occ.
From Verif.Grid Require Import IndexModel IndexSpec IndexProofs.
From Verif.Traversal Require Import CellSpec CellLemmas C08Model C08Proofs C04Model C08Bases SliceModel SliceSpec.

Lemma thick_cons m m' t t' l : thick m m' (t :: t' :: l) <-> m <= t /\ thick m m' (t' :: l).
Proof. reflexivity. Qed.

Lemma thick_all m l : Forall (fun t => m <= t) l -> thick m m l.
Proof.
  induction l as [|t [|t' l] IH]; intros H.
  - exact I.
  - now inversion H.
  - inversion H; subst. apply thick_cons. auto.
Qed.

Lemma thick_shrink m l ov : thick m m l -> thick m (m - ov) (shrinkLast ov l).
Proof.
  induction l as [|t [|t' l] IH]; intros H.
  - exact I.
  - simpl in *. lia.
  - apply thick_cons in H as [H1 H2]. specialize (IH H2).
    change (shrinkLast ov (t :: t' :: l)) with (t :: shrinkLast ov (t' :: l)).
    destruct (shrinkLast ov (t' :: l)) eqn:E; [destruct l; discriminate|]. apply thick_cons. auto.
Qed.

Lemma zsum_shrink l ov : l <> [] -> zsum (shrinkLast ov l) = zsum l - ov.
Proof.
  induction l as [|t [|t' l] IH]; intros H; [congruence|simpl; lia|].
  change (shrinkLast ov (t :: t' :: l)) with (t :: shrinkLast ov (t' :: l)).
  unfold zsum in *. cbn [fold_right]. rewrite IH by congruence. cbn [fold_right]. lia.
Qed.

Lemma distribute_sum r rest l : 0 <= rest -> (r <= length l)%nat -> (r = 0%nat -> rest = 0) ->
  zsum (distribute r rest l) = zsum l + rest.
Proof.
  revert rest l. induction r as [|r IH]; intros rest l Hr Hl H0.
  - simpl. destruct l; rewrite (H0 eq_refl); lia.
  - destruct l as [|t l]; [simpl in Hl; lia|]. cbn [distribute]. cbv zeta.
    unfold zsum. cbn [fold_right]. fold (zsum l). 
    set (q := rest / Z.of_nat (S r)).
    assert (Hq : 0 <= q <= rest) by (unfold q; split; [apply Z.div_pos; lia|apply Z.div_le_upper_bound; nia]).
    fold (zsum (distribute r (rest - q) l)). rewrite IH; [lia|lia|simpl in Hl; lia|].
    intros ->. unfold q. rewrite Z.div_1_r. lia.
Qed.

Lemma distribute_ge m r rest l : 0 <= rest -> Forall (fun t => m <= t) l -> Forall (fun t => m <= t) (distribute r rest l).
Proof.
  revert rest l. induction r as [|r IH]; intros rest l Hr H; [destruct l; assumption|].
  destruct l as [|t l]; [constructor|]. inversion H; subst. cbn [distribute]. cbv zeta.
  set (q := rest / Z.of_nat (S r)).
  assert (Hq : 0 <= q <= rest) by (unfold q; split; [apply Z.div_pos; lia|apply Z.div_le_upper_bound; nia]).
  constructor; [lia|]. apply IH; [lia|assumption].
Qed.

Lemma distribute_length r rest l : length (distribute r rest l) = length l.
Proof. revert rest l. induction r as [|r IH]; intros rest [|t l]; simpl; auto. Qed.

Lemma zsum_repeat m n : zsum (repeat m n) = m * Z.of_nat n.
Proof. induction n as [|n IH]; [simpl; lia|]. cbn [repeat]. unfold zsum in *. cbn [fold_right]. lia. Qed.

Lemma init_thickness len m ov fwd : 0 < m -> m <= len -> 0 <= ov ->
  let t := initSliceThickness len m ov fwd in
  let o := if fwd then ov else 0 in
  t <> [] /\ zsum t = len - o /\ thick m (m - o) t.
Proof.
  intros Hm Hl Hov. cbv zeta. unfold initSliceThickness. cbv zeta.
  assert (Hn : 1 <= len / m) by (apply Z.div_le_lower_bound; lia).
  destruct (Z.ltb_spec (len / m) 1) as [|_]; [lia|].
  set (n := len / m) in *. set (rest := len - m * n).
  assert (Hr : 0 <= rest < m) by (unfold rest, n; pose proof (Z.div_mod len m ltac:(lia)); pose proof (Z.mod_pos_bound len m Hm); lia).
  set (l := distribute _ _ _).
  assert (Hlen : length l = Z.to_nat n) by (unfold l; rewrite distribute_length, repeat_length; reflexivity).
  assert (Hne : l <> []) by (intros E; rewrite E in Hlen; simpl in Hlen; lia).
  assert (Hs : zsum l = len).
  { unfold l. rewrite distribute_sum; [rewrite zsum_repeat; unfold rest; lia|lia|rewrite repeat_length; lia|lia]. }
  assert (Ht : thick m m l).
  { apply thick_all. apply distribute_ge; [lia|]. apply Forall_forall. intros x Hx. apply repeat_spec in Hx. lia. }
  destruct fwd.
  - split; [|split].
    + intros E. pose proof (zsum_shrink l ov Hne). destruct l as [|a [|b l]]; simpl in E; congruence.
    + rewrite zsum_shrink by assumption. lia.
    + now apply thick_shrink.
  - rewrite !Z.sub_0_r. auto.
Qed.

(** balanced *)
Lemma growSlice_bounds grow len fuel s total th :
  th <= growSlice grow len fuel s total th /\
  (growSlice grow len fuel s total th = th \/ total + growSlice grow len fuel s total th < len).
Proof.
  revert th. induction fuel as [|f IH]; intros th; cbn [growSlice]; [lia|].
  destruct (Z.ltb_spec (total + th + 1) len) as [Hlt|Hlt]; cbn [andb]; [|lia].
  destruct (grow s total th); [|lia]. destruct (IH (th + 1)) as [A B]. split; [lia|].
  right. destruct B as [->|B]; lia.
Qed.

Lemma zsum_rev l : zsum (rev l) = zsum l.
Proof.
  induction l as [|a l IH]; [reflexivity|]. simpl. unfold zsum in *. rewrite fold_right_app. cbn [fold_right].
  rewrite <- IH. clear IH. induction (rev l) as [|b l' IH]; cbn [fold_right]; [lia|]. rewrite IH. lia.
Qed.

Lemma Forall_rev' {A} (P : A -> Prop) l : Forall P l -> Forall P (rev l).
Proof. rewrite !Forall_forall. intros H x Hx. apply H. now apply in_rev. Qed.

Lemma balancedLoop_spec grow m len left s total acc : 0 < m ->
  zsum acc = total -> total <= len -> Forall (fun t => m <= t) acc ->
  (acc = [] -> m <= len) -> (0 < left)%nat -> 
  exists l, balancedLoop grow m len left s total acc = Some l /\ l <> [] /\ zsum l = len /\ Forall (fun t => m <= t) l.
Proof.
  intros Hm. revert s total acc. induction left as [|left IH]; intros s total acc Hs Ht Ha H0 Hpos; [lia|].
  cbn [balancedLoop]. cbv zeta.
  set (th := match left with O => _ | _ => _ end).
  destruct ((len <? total + th) || (th <? m)) eqn:E.
  - destruct acc as [|t acc].
    + exfalso. simpl in Hs. specialize (H0 eq_refl).
      assert (th = m \/ m <= th <= len - total) as C.
      { unfold th. destruct left; [right; lia|].
        destruct (growSlice_bounds grow len (Z.to_nat len) s total m) as [A [B|B]]; [left; assumption|right; lia]. }
      apply orb_true_iff in E. rewrite !Z.ltb_lt in E. lia.
    + eexists; split; [reflexivity|]. split; [|split].
      * intros E'. apply (f_equal (@length _)) in E'. rewrite rev_length in E'. discriminate.
      * rewrite zsum_rev. unfold zsum in *. cbn [fold_right] in *. lia.
      * apply Forall_rev'. inversion Ha; subst. constructor; [lia|assumption].
  - apply orb_false_iff in E as [E1 E2]. apply Z.ltb_ge in E1, E2.
    destruct left as [|left].
    + cbn [balancedLoop]. eexists; split; [reflexivity|]. unfold th in *. split; [|split].
      * intros E'. apply (f_equal (@length _)) in E'. rewrite rev_length in E'. discriminate.
      * rewrite zsum_rev. unfold zsum in *. cbn [fold_right]. lia.
      * apply Forall_rev'. constructor; assumption.
    + apply IH; [unfold zsum in *; cbn [fold_right]; lia|lia|constructor; assumption|discriminate|lia].
Qed.

Lemma balanced_thickness grow len m ov fwd threads : 0 < m -> m <= len -> 0 <= ov -> (0 < threads)%nat ->
  exists t, balancedSliceThickness grow m len threads ov fwd = Some t /\
  let o := if fwd then ov else 0 in
  t <> [] /\ zsum t = len - o /\ thick m (m - o) t.
Proof.
  intros Hm Hl Hov Hth. unfold balancedSliceThickness.
  destruct (balancedLoop_spec grow m len threads 0 0 [] Hm eq_refl ltac:(lia) (Forall_nil _) ltac:(auto) Hth)
    as (l & -> & Hne & Hs & Hf).
  eexists; split; [reflexivity|]. cbv zeta. apply thick_all in Hf. destruct fwd.
  - split; [|split].
    + intros E. destruct l as [|a [|b l]]; simpl in E; congruence.
    + rewrite zsum_shrink by assumption. lia.
    + now apply thick_shrink.
  - rewrite !Z.sub_0_r. auto.
Qed.

(** slices as intervals *)
Lemma sliceStart_0 t : sliceStart t 0 = 0.
Proof. reflexivity. Qed.

Lemma sliceStart_succ t s : 0 <= s < Z.of_nat (length t) -> sliceStart t (s + 1) = sliceStart t s + thicknessOf t s.
Proof.
  intros Hs. unfold sliceStart, thicknessOf. fold (zsum).
  replace (Z.to_nat (s + 1)) with (S (Z.to_nat s)) by lia.
  assert (Hk : (Z.to_nat s < length t)%nat) by lia. revert Hk. generalize (Z.to_nat s). clear.
  intros k. revert t. induction k as [|k IH]; intros [|a t] Hk; cbn [length] in Hk; try lia.
  - simpl. lia.
  - cbn [firstn fold_right nth]. cbn [firstn] in IH. rewrite <- Z.add_assoc. f_equal. apply IH. lia.
Qed.

Lemma sliceStart_end t : sliceStart t (Z.of_nat (length t)) = zsum t.
Proof. unfold sliceStart. rewrite Nat2Z.id, firstn_all. reflexivity. Qed.

Lemma thick_nth m m' t s : thick m m' t -> 0 <= s < Z.of_nat (length t) - 1 -> m <= thicknessOf t s.
Proof.
  intros Ht Hs. unfold thicknessOf. assert (Hk : (Z.to_nat s + 1 < length t)%nat) by lia. revert Hk. generalize (Z.to_nat s).
  clear Hs. intros k. revert t Ht. induction k as [|k IH]; intros [|a [|b t]] Ht Hk; cbn [length] in Hk; try lia.
  - apply thick_cons in Ht as [Ht _]. exact Ht.
  - change (nth (S k) (a :: b :: t) 0) with (nth k (b :: t) 0). apply thick_cons in Ht as [_ Ht]. apply IH; [exact Ht|cbn [length]; lia].
Qed.

Lemma thick_nth_last m m' t s : thick m m' t -> s = Z.of_nat (length t) - 1 -> 0 <= s -> m' <= thicknessOf t s.
Proof.
  intros Ht -> Hs. unfold thicknessOf. 
  induction t as [|a [|b t] IH]; cbn [length] in *; [lia|simpl in *; assumption|].
  apply thick_cons in Ht as [_ Ht].
  replace (Z.to_nat (Z.of_nat (S (S (length t))) - 1)) with (S (length t)) by lia.
  replace (Z.to_nat (Z.of_nat (S (length t)) - 1)) with (length t) in IH by lia.
  cbn [nth]. apply IH; [assumption|lia].
Qed.

Lemma zrange_split a b c : a <= b <= c -> zrange a c = zrange a b ++ zrange b c.
Proof.
  intros H. unfold zrange. 
  replace (Z.to_nat (c - a)) with (Z.to_nat (b - a) + Z.to_nat (c - b))%nat by lia.
  rewrite seq_app, map_app. f_equal. simpl.
  generalize (Z.to_nat (c - b)). intros n.
  assert (E : forall st, map (fun k => a + Z.of_nat k) (seq (Z.to_nat (b - a) + st) n) = map (fun k => b + Z.of_nat k) (seq st n)).
  { induction n as [|n IH]; intros st; [reflexivity|]. cbn [seq map]. f_equal; [lia|].
    replace (S (Z.to_nat (b - a) + st)) with (Z.to_nat (b - a) + S st)%nat by lia. apply IH. }
  specialize (E 0%nat). rewrite Nat.add_0_r in E. exact E.
Qed.

Lemma zrange_cons a b : a < b -> zrange a b = a :: zrange (a + 1) b.
Proof.
  intros H. rewrite (zrange_split a (a + 1) b) by lia.
  unfold zrange at 1. replace (Z.to_nat (a + 1 - a)) with 1%nat by lia. cbn [seq map]. rewrite Z.add_0_r. reflexivity.
Qed.

Lemma zrange_nil a b : b <= a -> zrange a b = [].
Proof. intros H. unfold zrange. replace (Z.to_nat (b - a)) with 0%nat by lia. reflexivity. Qed.

Lemma slices_partition t : (forall s, 0 <= s < Z.of_nat (length t) -> 0 <= thicknessOf t s) ->
  flat_map (c02SliceLayers t) (zrange 0 (Z.of_nat (length t))) = zrange 0 (zsum t).
Proof.
  intros Hpos. rewrite <- sliceStart_end.
  assert (G : forall k, (k <= length t)%nat ->
     0 <= sliceStart t (Z.of_nat k) /\ flat_map (c02SliceLayers t) (zrange 0 (Z.of_nat k)) = zrange 0 (sliceStart t (Z.of_nat k))).
  { induction k as [|k IH]; intros Hk; [split; reflexivity|].
    destruct (IH ltac:(lia)) as [P E].
    replace (Z.of_nat (S k)) with (Z.of_nat k + 1) by lia. rewrite sliceStart_succ by lia.
    pose proof (Hpos (Z.of_nat k) ltac:(lia)) as Hp. split; [lia|].
    rewrite (zrange_split 0 (Z.of_nat k)) by lia. rewrite flat_map_app, E.
    rewrite (zrange_cons (Z.of_nat k)) by lia. rewrite (zrange_nil (Z.of_nat k + 1)) by lia. cbn [flat_map]. rewrite app_nil_r.
    unfold c02SliceLayers. symmetry. apply zrange_split. lia. }
  apply G. lia.
Qed.

Lemma sliceStart_mono t a b : (forall s, 0 <= s < Z.of_nat (length t) -> 0 <= thicknessOf t s) ->
  0 <= a -> a <= b -> b <= Z.of_nat (length t) -> sliceStart t a <= sliceStart t b.
Proof.
  intros Hpos Ha Hab Hb. replace b with (a + Z.of_nat (Z.to_nat (b - a))) in * by lia.
  clear Hab. induction (Z.to_nat (b - a)) as [|k IH]; [replace (a + Z.of_nat 0) with a by lia; lia|].
  replace (a + Z.of_nat (S k)) with (a + Z.of_nat k + 1) in * by lia. rewrite sliceStart_succ by lia.
  pose proof (Hpos (a + Z.of_nat k) ltac:(lia)). specialize (IH ltac:(lia)). lia.
Qed.
