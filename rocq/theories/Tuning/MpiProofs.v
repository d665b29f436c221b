From Coq Require Import ZArith List Bool Lia Reals Lra Permutation.
From Verif.Tuning Require Import MpiModel MpiSpec.
Import ListNotations.
Local Open Scope Z_scope.

(** * Serialisation *)
Lemma bytes_roundtrip n : forall z, 0 <= z < 256 ^ Z.of_nat n -> ofBytes (toBytes n z) = z.
Proof.
  induction n as [|n IH]; intros z H; [cbn in *; lia|]. cbn [toBytes ofBytes].
  rewrite Nat2Z.inj_succ, Z.pow_succ_r in H by lia.
  rewrite IH. { pose proof (Z.div_mod z 256 ltac:(lia)). lia. }
  split; [apply Z.div_pos; lia|]. apply Z.div_lt_upper_bound; lia.
Qed.
Lemma toBytes_length n : forall z, length (toBytes n z) = n.
Proof. induction n as [|n IH]; intros z; cbn; auto. Qed.
Lemma cast_byte z : isByte z -> castToByte z = z.
Proof. intros H. apply Z.mod_small. exact H. Qed.
Lemma serialize_length c : length (serialize c) = 14%nat.
Proof. unfold serialize. rewrite app_length, toBytes_length. reflexivity. Qed.
Lemma serialize_roundtrip c : programConf c -> deserialize (serialize c) = Some c.
Proof.
  destruct c as [a b c d e f g]. intros (A & B & C & D & E & F & G). cbn [container traversal loadEstimator dataLayout newton3 interactionType csfBits] in *.
  unfold serialize, deserialize. cbn [container traversal loadEstimator dataLayout newton3 interactionType csfBits List.app]. rewrite !cast_byte by assumption.
  rewrite (firstn_all2 (n := 8)) by (rewrite toBytes_length; lia). rewrite bytes_roundtrip; [reflexivity|]. exact G.
Qed.
Lemma serializeAll_length l : length (serializeAll l) = (14 * length l)%nat.
Proof. induction l as [|c l IH]; [reflexivity|]. unfold serializeAll in *. cbn [flat_map length]. rewrite app_length, serialize_length, IH. lia. Qed.
Lemma deserialize_loop l : Forall programConf l -> forall fuel pre, (length l <= fuel)%nat ->
  deserializeLoop fuel (pre ++ serializeAll l) (length pre) = Some l.
Proof.
  induction 1 as [|c l H HF IH]; intros fuel pre L.
  - cbn. rewrite app_nil_r. destruct fuel; cbn [deserializeLoop]; now rewrite Nat.ltb_irrefl.
  - destruct fuel as [|fuel]; [cbn in L; lia|]. cbn [deserializeLoop]. change (serializeAll (c :: l)) with (serialize c ++ serializeAll l).
    assert (LS : length (pre ++ serialize c ++ serializeAll l) = (length pre + 14 + 14 * length l)%nat) by (rewrite !app_length, serialize_length, serializeAll_length; lia).
    assert (X : (length pre <? length (pre ++ serialize c ++ serializeAll l))%nat = true) by (apply Nat.ltb_lt; lia). rewrite X.
    assert (Y : (length pre + serializedSize <=? length (pre ++ serialize c ++ serializeAll l))%nat = true) by (apply Nat.leb_le; unfold serializedSize; lia). rewrite Y.
    assert (Z1 : firstn serializedSize (skipn (length pre) (pre ++ serialize c ++ serializeAll l)) = serialize c).
    { rewrite skipn_app, skipn_all, Nat.sub_diag. cbn [skipn List.app]. rewrite <- (serialize_length c) at 1. now rewrite firstn_app, firstn_all, Nat.sub_diag, app_nil_r. }
    rewrite Z1, (serialize_roundtrip c H). rewrite app_assoc. replace (length pre + serializedSize)%nat with (length (pre ++ serialize c)) by (rewrite app_length, serialize_length; reflexivity).
    rewrite IH by (cbn in L; lia). reflexivity.
Qed.
Theorem roundtrip l : Forall programConf l -> deserializeAll (serializeAll l) = Some l.
Proof. intros H. apply (deserialize_loop l H _ []). rewrite serializeAll_length. lia. Qed.

Lemma gatherv_concat data : forall pre buf, length buf = (length pre + length (concat data))%nat -> firstn (length pre) buf = pre ->
  gatherv buf (displacements (length pre) (map (@length Z) data)) data = Some (pre ++ concat data).
Proof.
  induction data as [|xs data IH]; intros pre buf L F.
  - cbn in *. rewrite app_nil_r. rewrite firstn_all2 in F by lia. now rewrite F.
  - cbn [map displacements gatherv concat] in *. unfold writeAt. rewrite app_length in L.
    assert (X : (length pre + length xs <=? length buf)%nat = true) by (apply Nat.leb_le; lia). rewrite X, F.
    replace (length pre + length xs)%nat with (length (pre ++ xs)) by apply app_length.
    rewrite IH; [now rewrite app_assoc| |].
    + rewrite !app_length, skipn_length. lia.
    + rewrite (app_assoc pre xs). now rewrite firstn_app, firstn_all, Nat.sub_diag, app_nil_r.
Qed.
Lemma list_sum_concat (data : list (list Z)) : list_sum (map (@length Z) data) = length (concat data).
Proof. induction data as [|x d IH]; [reflexivity|]. cbn. rewrite app_length. unfold list_sum in IH. now rewrite IH. Qed.
Theorem gather local root rank : Forall (Forall programConf) local ->
  gatherConfigurations local root rank = Some (if Nat.eqb rank root then concat local else []).
Proof.
  intros H. unfold gatherConfigurations. destruct (Nat.eqb rank root); [|reflexivity].
  rewrite list_sum_concat. rewrite (gatherv_concat (map serializeAll local) []); [|rewrite repeat_length; reflexivity|reflexivity]. cbn [List.app].
  assert (E : concat (map serializeAll local) = serializeAll (concat local)).
  { clear. induction local as [|l r IH]; [reflexivity|]. cbn [map concat]. rewrite IH. unfold serializeAll. now rewrite flat_map_app. }
  rewrite E. apply roundtrip. clear -H. induction H as [|l r A B IH]; [constructor|]. cbn. now apply Forall_app.
Qed.

Lemma minloc_spec times : forall r, match minloc r times with
  | None => times = []
  | Some (t, k) => exists i, k = (r + i)%nat /\ nth_error times i = Some t /\ Forall (fun t' => t <= t') times
  end.
Proof.
  induction times as [|t0 times IH]; intros r; [reflexivity|]. cbn [minloc]. specialize (IH (S r)).
  destruct (minloc (S r) times) as [[t k]|].
  - destruct IH as (i & -> & E & F). destruct (t <? t0) eqn:C; [apply Z.ltb_lt in C|apply Z.ltb_ge in C].
    + exists (S i). split; [lia|]. split; [exact E|]. constructor; [lia|exact F].
    + exists O. split; [lia|]. split; [reflexivity|]. constructor; [lia|]. eapply Forall_impl; [|exact F]. cbn. intros. lia.
  - rewrite IH. exists O. split; [lia|]. split; [reflexivity|]. constructor; [lia|constructor].
Qed.
Theorem globally_best confs times : confs <> [] -> length confs = length times -> Forall programConf confs ->
  exists r c t, findGloballyBest confs times = Some c /\ nth_error confs r = Some c /\ nth_error times r = Some t /\ Forall (fun t' => t <= t') times.
Proof.
  intros NE L F. unfold findGloballyBest. pose proof (minloc_spec times 0) as M. destruct (minloc 0 times) as [[t k]|].
  - destruct M as (i & -> & E & G). cbn [Nat.add]. destruct (nth_error confs i) as [c|] eqn:C.
    + exists i, c, t. split; [|auto]. apply serialize_roundtrip. rewrite Forall_forall in F. apply F. eapply nth_error_In, C.
    + apply nth_error_None in C. assert (i < length times)%nat by (apply nth_error_Some; rewrite E; discriminate). lia.
  - rewrite M in L. destruct confs; [congruence|discriminate].
Qed.

(** * Buckets *)
Local Open Scope R_scope.
Inductive sortedR : list R -> Prop :=
| sorted_nil : sortedR []
| sorted_cons x l : Forall (fun y => x <= y) l -> sortedR l -> sortedR (x :: l).
Lemma insertR_perm x l : Permutation (insertR x l) (x :: l).
Proof. induction l as [|y l IH]; cbn; [reflexivity|]. destruct (Rle_dec x y); [reflexivity|]. rewrite IH. apply perm_swap. Qed.
Lemma sortR_perm l : Permutation (sortR l) l.
Proof. induction l as [|x l IH]; cbn; [reflexivity|]. rewrite insertR_perm. now apply perm_skip. Qed.
Lemma insertR_sorted x l : sortedR l -> sortedR (insertR x l).
Proof.
  induction 1 as [|y l F S IH]; cbn; [repeat constructor|]. destruct (Rle_dec x y) as [H|H].
  - constructor; [|now constructor]. constructor; [exact H|]. eapply Forall_impl; [|exact F]. cbn. intros. lra.
  - constructor; [|exact IH]. apply Forall_forall. intros z Z. rewrite (insertR_perm x l) in Z. destruct Z as [<-|Z]; [lra|]. rewrite Forall_forall in F. now apply F.
Qed.
Lemma sortR_sorted l : sortedR (sortR l).
Proof. induction l as [|x l IH]; cbn; [constructor|now apply insertR_sorted]. Qed.

Section B.
  Variables (rnd : R -> R) (t : R).
  Hypothesis rnd0 : rnd 0 = 0.
  Hypothesis Ht : 0 <= t.
  Let ex x y := exceeds rnd t (rnd (y - x)) y.
  (** Gaps up to a value. *)
  Fixpoint cnt (p : R) (l : list R) (v : R) : nat :=
    match l with
    | [] => 0
    | s :: l' => if Rle_dec s v then ((if ex p s then 1 else 0) + cnt s l' v)%nat else 0%nat
    end.
  Lemma cnt_high p l v : sortedR l -> (forall y, In y l -> v < y) -> cnt p l v = 0%nat.
  Proof. intros S H. destruct l as [|s l]; [reflexivity|]. cbn. destruct (Rle_dec s v) as [X|X]; [|reflexivity]. specialize (H s (or_introl eq_refl)). lra. Qed.
  Lemma loop_cnt l : forall p cur mine v, sortedR l -> In v l -> bucketLoop rnd t p l cur mine v = (cur + cnt p l v)%nat.
  Proof.
    induction l as [|s l IH]; intros p cur mine v S I; [destruct I|]. inversion S as [|x l' F S']; subst. cbn [bucketLoop cnt].
    assert (SV : s <= v). { destruct I as [->|I]; [lra|]. rewrite Forall_forall in F. now apply F. }
    destruct (Rle_dec s v) as [_|X]; [|lra]. fold (ex p s).
    destruct (in_dec Req_EM_T v l) as [J|J].
    - rewrite IH by assumption. destruct (ex p s); lia.
    - destruct I as [->|I]; [|contradiction]. destruct (Req_EM_T v v) as [_|X]; [|congruence].
      assert (G : forall m c, bucketLoop rnd t v l c m v = m).
      { clear -J. intros m. generalize v at 1. induction l as [|y l IH]; intros q c; [reflexivity|]. cbn [bucketLoop].
        destruct (Req_EM_T y v) as [->|_]; [destruct J; now left|]. apply IH. intros K. apply J. now right. }
      rewrite G. rewrite cnt_high; [destruct (ex p v); lia|exact S'|]. intros y Y. rewrite Forall_forall in F. specialize (F y Y).
      destruct (Req_dec v y) as [->|NEQ]; [contradiction|lra].
  Qed.

  (** Pairs of neighbours in a list. *)
  Inductive nbr : R -> list R -> R -> R -> Prop :=
  | nbr_here p s l : nbr p (s :: l) p s
  | nbr_later p s l x y : nbr s l x y -> nbr p (s :: l) x y.
  Lemma cnt_mono l : forall p a b, a <= b -> (cnt p l a <= cnt p l b)%nat.
  Proof. induction l as [|s l IH]; intros p a b H; cbn; [lia|]. destruct (Rle_dec s a), (Rle_dec s b); try lra; try lia. specialize (IH s a b H). lia. Qed.
  Lemma cnt_same l : forall p a b, sortedR l -> a <= b ->
    (cnt p l a = cnt p l b <-> forall x y, nbr p l x y -> a < y <= b -> ex x y = false).
  Proof.
    induction l as [|s l IH]; intros p a b S H; [split; [intros _ x y N; inversion N|reflexivity]|].
    inversion S as [|x l' F S']; subst. cbn [cnt]. destruct (Rle_dec s a) as [A|A], (Rle_dec s b) as [B|B]; try lra.
    - split.
      + intros E x y N Y. inversion N; subst; [lra|]. apply (proj1 (IH s a b S' H)); [lia|assumption|exact Y].
      + intros E. f_equal. apply (IH s a b S' H). intros x y N Y. apply E; [now apply nbr_later|exact Y].
    - split.
      + intros E x y N Y. inversion N; subst; [destruct (ex x y); [lia|reflexivity]|].
        assert (C0 : cnt s l b = 0%nat) by lia. apply (proj1 (IH s a b S' H)); [|assumption|exact Y].
        pose proof (cnt_mono l s a b H). lia.
      + intros E. rewrite (E p s (nbr_here _ _ _)) by lra. cbn. rewrite <- (proj2 (IH s a b S' H)).
        * symmetry. apply cnt_high; [exact S'|]. intros y Y. rewrite Forall_forall in F. specialize (F y Y). lra.
        * intros x y N Y. apply E; [now apply nbr_later|exact Y].
    - split; [|reflexivity]. intros _ x y N Y. exfalso. assert (Q : In y (s :: l)). { clear -N. induction N; [now left|now right]. }
      destruct Q as [<-|Q]; [lra|]. rewrite Forall_forall in F. specialize (F y Q). lra.
  Qed.
  Lemma nbr_in p l x y : nbr p l x y -> In x (p :: l) /\ In y l.
  Proof. induction 1 as [|p s l x y N [I J]]; [split; now left|split; [now right|now right]]. Qed.
  Lemma nbr_between p l x y : nbr p l x y -> sortedR (p :: l) -> x <= y /\ forall z, In z (p :: l) -> ~ x < z < y.
  Proof.
    induction 1 as [p s l|p s l x y N IH]; intros S; inversion S as [|q l' F S']; subst.
    - inversion F as [|q l' A B]; subst. split; [exact A|]. intros z [<-|[<-|Z]]; [lra|lra|]. inversion S' as [|q l' F' S'']; subst. rewrite Forall_forall in F'. specialize (F' z Z). lra.
    - destruct (IH S') as [A B]. split; [exact A|]. intros z [<-|Z]; [|now apply B]. apply nbr_in in N as [I _]. rewrite Forall_forall in F. specialize (F x I). lra.
  Qed.
  Lemma nbr_consecutive p l : sortedR (p :: l) -> forall x y, In x (p :: l) -> In y (p :: l) -> x < y -> (forall z, In z (p :: l) -> ~ x < z < y) -> nbr p l x y.
  Proof.
    revert p. induction l as [|s l IH]; intros p S x y X Y H N.
    - destruct X as [<-|[]], Y as [<-|[]]. lra.
    - inversion S as [|q l' F S']; subst. assert (YI : In y (s :: l)). { destruct Y as [<-|Y]; [|exact Y]. destruct X as [<-|X]; [lra|]. rewrite Forall_forall in F. specialize (F x X). lra. }
      destruct (in_dec Req_EM_T x (s :: l)) as [XI|XI].
      + apply nbr_later. apply IH; auto. intros z Z. apply N. now right.
      + destruct X as [<-|X]; [|contradiction]. assert (ys : y = s).
        { destruct YI as [<-|YI]; [reflexivity|]. inversion S' as [|q l' F' S'']; subst. rewrite Forall_forall in F'. specialize (F' y YI).
          assert (PS : p <= s) by (rewrite Forall_forall in F; apply F; now left). destruct (Req_dec p s) as [->|E1]; [destruct XI; now left|].
          specialize (N s (or_intror (or_introl eq_refl))). destruct (Req_dec s y); [congruence|]. exfalso. apply N. lra. }
        subst. constructor.
  Qed.
  Lemma ex_gap x y : 0 <= x <= y -> (ex x y = true <-> x < y /\ gap rnd t x y).
  Proof.
    intros H. unfold ex, exceeds, gap. destruct (Req_dec x y) as [->|NE].
    - rewrite Rminus_diag_eq by reflexivity. rewrite rnd0. destruct (Req_EM_T y 0); [destruct (Rlt_dec 0 0); [lra|]; split; [discriminate|intros []; lra]|].
      unfold Rdiv. rewrite Rmult_0_l, rnd0. destruct (Rlt_dec t 0); [lra|]. split; [discriminate|intros []; lra].
    - destruct (Req_EM_T y 0) as [E|E]; [lra|]. destruct (Rlt_dec t (rnd (rnd (y - x) / y))) as [G|G]; split; try discriminate; try (intros [A B]; lra); auto.
      intros _. split; [lra|exact G].
  Qed.

  Lemma bucket_le ms a b : Forall (fun m => 0 <= m) ms -> In a ms -> In b ms -> a <= b ->
    (bucketOf rnd t ms a = bucketOf rnd t ms b <-> ~ separated rnd t ms a b).
  Proof.
    intros F A B H. unfold bucketOf. pose proof (sortR_sorted ms) as S. pose proof (sortR_perm ms) as PM. rewrite <- PM in A, B.
    assert (F' : Forall (fun m => 0 <= m) (sortR ms)) by (rewrite PM; exact F).
    assert (SEP : separated rnd t ms a b <-> separated rnd t (sortR ms) a b).
    { unfold separated, consecutive. split; intros (x & y & (X & Y & L & N) & R).
      - exists x, y. split; [|exact R]. rewrite PM. split; [exact X|]. split; [exact Y|]. split; [exact L|]. intros z Z. rewrite PM in Z. now apply N.
      - exists x, y. split; [|exact R]. rewrite PM in X, Y. split; [exact X|]. split; [exact Y|]. split; [exact L|]. intros z Z. rewrite <- PM in Z. now apply N. }
    rewrite SEP. clear SEP PM F. destruct (sortR ms) as [|s l]; [destruct A|]. inversion S as [|q l' G S']; subst.
    assert (EQ : forall v, In v (s :: l) -> bucketLoop rnd t s l (if exceeds rnd t s s then 1%nat else 0%nat) (if Req_EM_T s v then (if exceeds rnd t s s then 1%nat else 0%nat) else 0%nat) v = ((if exceeds rnd t s s then 1 else 0) + cnt s l v)%nat).
    { intros v V. destruct (in_dec Req_EM_T v l) as [J|J]; [apply loop_cnt; assumption|]. destruct V as [<-|V]; [|contradiction].
      destruct (Req_EM_T s s) as [_|X]; [|congruence].
      assert (K : forall m c, bucketLoop rnd t s l c m s = m).
      { clear -J. intros m. generalize s at 1. induction l as [|y l IH]; intros q c; [reflexivity|]. cbn [bucketLoop].
        destruct (Req_EM_T y s) as [->|_]; [destruct J; now left|]. apply IH. intros K. apply J. now right. }
      rewrite K. rewrite cnt_high; [lia|exact S'|]. intros y Y. rewrite Forall_forall in G. specialize (G y Y). destruct (Req_dec s y) as [->|NEQ]; [contradiction|lra]. }
    rewrite !EQ by assumption. clear EQ.
    assert (X : ((if exceeds rnd t s s then 1 else 0) + cnt s l a = (if exceeds rnd t s s then 1 else 0) + cnt s l b <-> cnt s l a = cnt s l b)%nat) by lia. rewrite X. clear X.
    rewrite (cnt_same l s a b S' H). rewrite Forall_forall in F'. unfold separated. rewrite (Rmin_left a b H), (Rmax_right a b H). split.
    - intros E (x & y & (XI & YI & L & N) & AX & YB & GP). pose proof (nbr_consecutive s l S x y XI YI L N) as NB. specialize (E x y NB ltac:(lra)).
      assert (T : ex x y = true) by (apply ex_gap; [split; [now apply F'|lra]|auto]). congruence.
    - intros E x y N Y. destruct (ex x y) eqn:Q; [|reflexivity]. exfalso. apply E. destruct (nbr_between _ _ _ _ N S) as [LE BT]. destruct (nbr_in _ _ _ _ N) as [XI YI].
      apply ex_gap in Q as [L GP]; [|split; [now apply F'|exact LE]]. exists x, y. split; [split; [exact XI|split; [now right|split; assumption]]|].
      split; [|split; [lra|exact GP]]. specialize (BT a A). lra.
  Qed.
  Lemma separated_sym ms a b : separated rnd t ms a b <-> separated rnd t ms b a.
  Proof. unfold separated. rewrite Rmin_comm, Rmax_comm. reflexivity. Qed.
  Theorem same_bucket ms a b : Forall (fun m => 0 <= m) ms -> In a ms -> In b ms ->
    (bucketOf rnd t ms a = bucketOf rnd t ms b <-> ~ separated rnd t ms a b).
  Proof.
    intros F A B. destruct (Rle_or_lt a b) as [H|H]; [now apply bucket_le|]. rewrite separated_sym. rewrite <- (bucket_le ms b a F B A ltac:(lra)). split; intros E; now rewrite E.
  Qed.
End B.

Theorem ranks_buckets rnd weight t ranks : rnd 0 = 0 -> (forall x, 0 <= x -> 0 <= rnd x) -> 0 <= t -> 0 <= weight -> ranks <> [] ->
  Forall (fun hd => 0 <= fst hd /\ 0 <= snd hd) ranks ->
  let ms := map (fun hd => metric rnd weight (fst hd) (snd hd)) ranks in
  exists colors, buckets rnd weight t ranks = Some colors /\ length colors = length ranks /\
    forall i j mi mj, nth_error ms i = Some mi -> nth_error ms j = Some mj ->
      (nth_error colors i = nth_error colors j <-> ~ separated rnd t ms mi mj).
Proof.
  intros R0 RP Ht Hw NE F ms. unfold buckets.
  assert (V : forall hd, In hd ranks -> invalid hd = false).
  { intros hd I. rewrite Forall_forall in F. destruct (F hd I). unfold invalid. destruct (Rlt_dec (fst hd) 0); [lra|]. destruct (Rlt_dec (snd hd) 0); [lra|reflexivity]. }
  assert (A : forallb invalid ranks = false). { destruct ranks as [|hd r]; [congruence|]. cbn. now rewrite (V hd (or_introl eq_refl)). }
  assert (B : existsb invalid ranks = false). { clear -V. induction ranks as [|hd r IH]; [reflexivity|]. cbn. rewrite (V hd (or_introl eq_refl)). apply IH. intros h I. apply V. now right. }
  rewrite A, B. fold ms. exists (map (bucketOf rnd t ms) ms). split; [reflexivity|]. split; [unfold ms; now rewrite !map_length|].
  assert (FM : Forall (fun m => 0 <= m) ms).
  { apply Forall_forall. intros m M. apply in_map_iff in M as (hd & <- & I). rewrite Forall_forall in F. destruct (F hd I). unfold metric. apply RP.
    assert (0 <= rnd (weight * snd hd)) by (apply RP; now apply Rmult_le_pos). lra. }
  intros i j mi mj I J. rewrite (map_nth_error _ _ _ I), (map_nth_error _ _ _ J). rewrite <- (same_bucket rnd t R0 Ht ms mi mj FM); [|eapply nth_error_In; eassumption|eapply nth_error_In; eassumption].
  split; [intros E; now injection E|intros E; now rewrite E].
Qed.
(** For every threshold and all metrics, equal metrics share a bucket. *)
Theorem equal_metrics rnd weight t ranks colors i j hi hj : buckets rnd weight t ranks = Some colors -> existsb invalid ranks = false ->
  nth_error ranks i = Some hi -> nth_error ranks j = Some hj ->
  metric rnd weight (fst hi) (snd hi) = metric rnd weight (fst hj) (snd hj) -> nth_error colors i = nth_error colors j.
Proof.
  intros B V I J E. unfold buckets in B. rewrite V in B. destruct (forallb invalid ranks) eqn:A.
  - exfalso. assert (X : existsb invalid ranks = true); [|congruence]. rewrite forallb_forall in A. apply existsb_exists. exists hi. split; [eapply nth_error_In; exact I|apply A; eapply nth_error_In; exact I].
  - injection B as <-. rewrite !map_map. rewrite (map_nth_error _ _ _ I), (map_nth_error _ _ _ J). now rewrite E.
Qed.
