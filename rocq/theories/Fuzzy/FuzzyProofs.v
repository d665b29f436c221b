(** Proofs about the fuzzy controller. *)
From Coq Require Import Reals List Arith Lia Lra.
From Verif.Fuzzy Require Import FuzzyModel FuzzySpec.
Import ListNotations.
Open Scope R_scope.

Lemma quot_unit a b : 0 <= a -> a <= b -> 0 < b -> 0 <= a / b <= 1.
Proof.
  intros A B C. split; [apply Rmult_le_pos; [exact A|left; apply Rinv_0_lt_compat, C]|].
  apply (Rmult_le_reg_r b); [exact C|]. replace (a / b * b) with a by (field; lra). lra.
Qed.
Lemma triangle_unit min peak max x : unitInterval (triangle min peak max x).
Proof.
  unfold unitInterval, triangle. destruct (Rle_dec x min); [lra|]. destruct (Rle_dec max x); [lra|].
  destruct (Rle_dec x peak); apply quot_unit; lra.
Qed.
Lemma trapezoid_unit a b c e x : unitInterval (trapezoid a b c e x).
Proof.
  unfold unitInterval, trapezoid. destruct (Rle_dec x a); [lra|]. destruct (Rle_dec e x); [lra|].
  destruct (Rle_dec x b); [apply quot_unit; lra|]. destruct (Rle_dec x c); [lra|apply quot_unit; lra].
Qed.
Lemma gaussian_unit mean sigma x : unitInterval (gaussian mean sigma x).
Proof.
  unfold unitInterval, gaussian. split; [left; apply exp_pos|]. set (t := (x - mean) / sigma).
  assert (0 <= t ^ 2) by apply pow2_ge_0.
  destruct (Rle_lt_or_eq_dec (- (1 / 2) * t ^ 2) 0) as [L|L]; [lra|left; rewrite <- exp_0 at 2; apply exp_increasing, L|rewrite L, exp_0; lra].
Qed.
Lemma sigmoid_unit c s x : unitInterval (sigmoid c s x).
Proof. unfold unitInterval, sigmoid. pose proof (exp_pos (- s * (x - c))). apply quot_unit; lra. Qed.
Lemma sq_unit t : 0 <= t <= 1 -> 0 <= t ^ 2 <= 1.
Proof.
  intros [A B]. replace (t ^ 2) with (t * t) by ring. split; [apply Rmult_le_pos; assumption|].
  assert (t * t <= 1 * t) by (apply Rmult_le_compat_r; assumption). lra.
Qed.
Lemma sShape_unit x l c u : unitInterval (sShape x l c u).
Proof.
  unfold unitInterval, sShape. destruct (Rle_dec x l); [lra|]. destruct (Rle_dec x c).
  - pose proof (sq_unit ((x - l) / (c - l)) ltac:(apply quot_unit; lra)). lra.
  - destruct (Rle_dec x u); [|lra].
    replace ((x - u) / (c - u)) with ((u - x) / (u - c)) by (field; split; lra).
    pose proof (sq_unit ((u - x) / (u - c)) ltac:(apply quot_unit; lra)). lra.
Qed.
Lemma sigmoidFinite_unit l c u x : unitInterval (sigmoidFinite l c u x).
Proof.
  unfold sigmoidFinite. destruct (Rlt_dec u l); [|apply sShape_unit]. pose proof (sShape_unit x u c l). unfold unitInterval in *. lra.
Qed.

Lemma evaluate_unit data s : proper s -> forall m, evaluate data s = Some m -> unitInterval m.
Proof.
  induction s as [c f|a IHa b IHb|a IHa b IHb|a IHa|cut a IHa]; cbn [proper evaluate]; intros P m E.
  - destruct c as [|[d r] [|]]; try discriminate. destruct (data d); [|discriminate]. injection E as <-. apply P.
  - destruct (evaluate data a) as [x|]; [|discriminate]. destruct (evaluate data b) as [y|]; [|discriminate]. injection E as <-.
    pose proof (IHa (proj1 P) x eq_refl). pose proof (IHb (proj2 P) y eq_refl). unfold Rmax. destruct (Rle_dec x y); assumption.
  - destruct (evaluate data a) as [x|]; [|discriminate]. destruct (evaluate data b) as [y|]; [|discriminate]. injection E as <-.
    pose proof (IHa (proj1 P) x eq_refl). pose proof (IHb (proj2 P) y eq_refl). unfold Rmin. destruct (Rle_dec x y); assumption.
  - destruct (evaluate data a) as [x|]; [|discriminate]. injection E as <-. pose proof (IHa P x eq_refl). unfold unitInterval in *. lra.
  - destruct (evaluate data a) as [x|]; [|discriminate]. injection E as <-. pose proof (IHa (proj2 P) x eq_refl).
    unfold Rmin. destruct (Rle_dec cut x); [exact (proj1 P)|assumption].
Qed.

Lemma de_morgan_or data a b : evaluate data (Not (Or a b)) = evaluate data (And (Not a) (Not b)).
Proof.
  cbn. destruct (evaluate data a) as [x|], (evaluate data b) as [y|]; cbn; try reflexivity. f_equal.
  unfold Rmax, Rmin. destruct (Rle_dec x y), (Rle_dec (1 - x) (1 - y)); lra.
Qed.
Lemma de_morgan_and data a b : evaluate data (Not (And a b)) = evaluate data (Or (Not a) (Not b)).
Proof.
  cbn. destruct (evaluate data a) as [x|], (evaluate data b) as [y|]; cbn; try reflexivity. f_equal.
  unfold Rmax, Rmin. destruct (Rle_dec x y), (Rle_dec (1 - x) (1 - y)); lra.
Qed.
Lemma double_not data a : evaluate data (Not (Not a)) = evaluate data a.
Proof. cbn. destruct (evaluate data a); cbn; [f_equal; ring|reflexivity]. Qed.

(** The union of the cut consequents. *)
Lemma cut_suggests data d r x t : applyRule data r = Some t -> forall m, evaluate (single d x) t = Some m <-> suggests data d r x m.
Proof.
  unfold applyRule, suggests. destruct (evaluate data (fst r)) as [cut|]; [|discriminate]. intros E m. injection E as <-. cbn.
  destruct (evaluate (single d x) (snd r)) as [y|]; cbn.
  - split; [intros E; injection E as <-; exists cut, y; auto|intros [c [z [A [B ->]]]]; injection A as <-; injection B as <-; reflexivity].
  - split; [discriminate|intros [c [z [_ [B _]]]]; discriminate].
Qed.
Lemma fold_none data rs : fold_left (combine2 data) rs None = None.
Proof. induction rs; [reflexivity|exact IHrs]. Qed.
Lemma fold_union data d x : forall rs acc u m, fold_left (combine2 data) rs (Some acc) = Some u -> evaluate (single d x) u = Some m ->
  exists m0, evaluate (single d x) acc = Some m0 /\ m0 <= m /\ (forall r m', In r rs -> suggests data d r x m' -> m' <= m) /\
    (m = m0 \/ exists r, In r rs /\ suggests data d r x m).
Proof.
  induction rs as [|r rs IH]; intros acc u m F E; cbn [fold_left] in F.
  - injection F as <-. exists m. split; [exact E|]. split; [lra|]. split; [intros ? ? []|auto].
  - unfold combine2 at 2 in F. destruct (applyRule data r) as [t|] eqn:T; [|rewrite fold_none in F; discriminate].
    destruct (IH (Or acc t) u m F E) as [m0 [A [B [C D]]]]. cbn in A.
    destruct (evaluate (single d x) acc) as [a|]; [|discriminate]. destruct (evaluate (single d x) t) as [b|] eqn:TE; [|discriminate].
    injection A as <-. pose proof (Rmax_l a b). pose proof (Rmax_r a b). exists a. split; [reflexivity|]. split; [lra|]. split.
    + intros r' m' [<-|I] S; [|exact (C r' m' I S)]. apply (cut_suggests data d r x t T) in S. rewrite TE in S. injection S as <-. lra.
    + destruct D as [D|[r' [I S]]]; [|right; exists r'; split; [right; exact I|exact S]].
      unfold Rmax in D. destruct (Rle_dec a b); [|auto]. right. exists r. split; [left; reflexivity|].
      apply (cut_suggests data d r x t T). rewrite TE, D. reflexivity.
Qed.
Lemma union_strongest data d rules u x m : applyRules data rules = Some u -> evaluate (single d x) u = Some m -> strongest data d rules x m.
Proof.
  destruct rules as [|r rs]; [discriminate|]. cbn [applyRules]. intros F E.
  destruct (applyRule data r) as [t|] eqn:T; [|rewrite fold_none in F; discriminate].
  destruct (fold_union data d x rs t u m F E) as [m0 [A [B [C D]]]]. apply (cut_suggests data d r x t T) in A. split.
  - destruct D as [->|[r' [I S]]]; [exists r; cbn; auto|exists r'; cbn; auto].
  - intros r' m' [<-|I] S; [|exact (C r' m' I S)].
    apply (cut_suggests data d r x t T) in A. apply (cut_suggests data d r x t T) in S. rewrite A in S. injection S as <-. exact B.
Qed.

Lemma product_same d rg : product [(d, rg)] [(d, rg)] = [(d, rg)].
Proof. unfold product, insertDim. cbn. rewrite Nat.eqb_refl. reflexivity. Qed.
Lemma union_defined data d lo hi : forall rs acc,
  (forall r, In r rs -> evaluate data (fst r) <> None /\ crispSet (snd r) = [(d, (lo, hi))] /\ forall x, evaluate (single d x) (snd r) <> None) ->
  crispSet acc = [(d, (lo, hi))] -> (forall x, evaluate (single d x) acc <> None) ->
  exists u, fold_left (combine2 data) rs (Some acc) = Some u /\ crispSet u = [(d, (lo, hi))] /\ forall x, evaluate (single d x) u <> None.
Proof.
  induction rs as [|r rs IH]; intros acc H C E; cbn [fold_left]; [exists acc; auto|].
  destruct (H r (or_introl eq_refl)) as [A [B D]]. unfold combine2 at 2, applyRule. destruct (evaluate data (fst r)) as [cut|]; [|congruence]. cbn [option_map].
  apply IH; [intros q Q; apply H; right; exact Q|cbn; rewrite C, B; apply product_same|].
  intros x. specialize (E x). specialize (D x). cbn. destruct (evaluate (single d x) acc), (evaluate (single d x) (snd r)); cbn; congruence.
Qed.
Lemma rules_defined data d lo hi rules : usable data d lo hi rules ->
  exists u, applyRules data rules = Some u /\ crispSet u = [(d, (lo, hi))] /\ forall x, evaluate (single d x) u <> None.
Proof.
  intros [N H]. destruct rules as [|r rs]; [congruence|]. cbn [applyRules]. destruct (H r (or_introl eq_refl)) as [_ [_ [A [B D]]]].
  unfold applyRule. destruct (evaluate data (fst r)) as [cut|]; [|congruence]. cbn [option_map]. apply union_defined.
  - intros q Q. apply H. right. exact Q.
  - exact B.
  - intros x. specialize (D x). cbn. destruct (evaluate (single d x) (snd r)); cbn; congruence.
Qed.
Lemma suggests_unit data d lo hi rules r x m : usable data d lo hi rules -> In r rules -> suggests data d r x m -> unitInterval m.
Proof.
  intros [_ H] I [c [y [A [B ->]]]]. destruct (H r I) as [P [Q _]].
  pose proof (evaluate_unit _ _ P _ A). pose proof (evaluate_unit _ _ Q _ B). unfold Rmin. destruct (Rle_dec c y); assumption.
Qed.

(** The samples. *)
Lemma INR_below k n : (k < n)%nat -> INR k <= INR n - 1.
Proof. intros H. apply (le_INR (S k) n) in H. rewrite S_INR in H. lra. Qed.
Lemma loop_grid lo hi n : lo < hi -> (2 <= n)%nat -> forall m k fuel, (k + m = n)%nat -> (m < fuel)%nat ->
  sampleLoop fuel (grid lo hi n k) ((hi - lo) / (INR n - 1)) hi = Some (map (grid lo hi n) (seq k m)).
Proof.
  intros L N. assert (N1 : 1 < INR n) by (apply (lt_INR 1 n); lia).
  set (step := (hi - lo) / (INR n - 1)). assert (S0 : 0 < step) by (apply Rdiv_lt_0_compat; lra).
  assert (E : (INR n - 1) * step = hi - lo) by (unfold step; field; lra).
  induction m as [|m IH]; intros k fuel K F; (destruct fuel as [|fuel]; [lia|]); cbn [sampleLoop].
  - assert (k = n) by lia. subst k. destruct (Rle_dec (grid lo hi n n) hi) as [C|C]; [|reflexivity]. unfold grid in C. fold step in C. lra.
  - destruct (Rle_dec (grid lo hi n k) hi) as [C|C].
    + replace (grid lo hi n k + step) with (grid lo hi n (S k)) by (unfold grid; fold step; rewrite S_INR; ring).
      rewrite IH by lia. reflexivity.
    + exfalso. apply C. unfold grid. fold step. assert (INR k <= INR n - 1) by (apply INR_below; lia).
      assert (INR k * step <= (INR n - 1) * step) by (apply Rmult_le_compat_r; lra). lra.
Qed.
Lemma samples_grid lo hi n fuel : lo < hi -> (2 <= n < fuel)%nat -> sampleXs fuel n lo hi = Some (map (grid lo hi n) (seq 0 n)).
Proof.
  intros L [N F]. unfold sampleXs. rewrite <- (loop_grid lo hi n L N n 0 fuel eq_refl F). f_equal. unfold grid. cbn. ring.
Qed.
Lemma grid_range lo hi n k : lo < hi -> (2 <= n)%nat -> (k < n)%nat -> lo <= grid lo hi n k <= hi.
Proof.
  intros L N K. assert (N1 : 1 < INR n) by (apply (lt_INR 1 n); lia). unfold grid. set (step := (hi - lo) / (INR n - 1)).
  assert (S0 : 0 < step) by (apply Rdiv_lt_0_compat; lra). assert (E : (INR n - 1) * step = hi - lo) by (unfold step; field; lra).
  assert (INR k <= INR n - 1) by (apply INR_below; lia). pose proof (pos_INR k).
  assert (INR k * step <= (INR n - 1) * step) by (apply Rmult_le_compat_r; lra). assert (0 <= INR k * step) by (apply Rmult_le_pos; lra). lra.
Qed.
Lemma memberships_map u d mu : (forall x, evaluate (single d x) u = Some (mu x)) -> forall xs, memberships u d xs = Some (map (fun x => (x, mu x)) xs).
Proof. intros H. induction xs as [|x xs IH]; [reflexivity|]. cbn. rewrite H, IH. reflexivity. Qed.

Definition sumR (l : list R) : R := fold_right Rplus 0 l.
Lemma gravity_fold ps : forall n e, fold_left (fun '(n, e) '(x, m) => (n + x * m, e + m)) ps (n, e) =
  (n + sumR (map (fun p => fst p * snd p) ps), e + sumR (map snd ps)).
Proof. induction ps as [|[x m] ps IH]; intros n e; cbn [fold_left map sumR fold_right fst snd]; [f_equal; unfold sumR; cbn; ring|]. rewrite IH. f_equal; unfold sumR; ring. Qed.
Lemma sum_zero l : (forall x, In x l -> 0 <= x) -> 0 <= sumR l /\ (sumR l = 0 -> forall x, In x l -> x = 0).
Proof.
  induction l as [|y l IH]; intros H; cbn; [split; [lra|intros _ ? []]|].
  destruct IH as [A B]; [intros; apply H; right; assumption|]. pose proof (H y (or_introl eq_refl)). fold (sumR l) in *. split; [lra|].
  intros E x [<-|I]; [lra|]. apply B; [lra|exact I].
Qed.
Lemma weighted lo hi ps : (forall p, In p ps -> lo <= fst p <= hi /\ 0 <= snd p) ->
  lo * sumR (map snd ps) <= sumR (map (fun p => fst p * snd p) ps) <= hi * sumR (map snd ps).
Proof.
  induction ps as [|[x m] ps IH]; intros H; cbn; [lra|]. destruct IH as [A B]; [intros; apply H; right; assumption|].
  destruct (H (x, m) (or_introl eq_refl)) as [[C D] E]. cbn in *. fold (sumR (map snd ps)) in *. fold (sumR (map (fun p => fst p * snd p) ps)) in *.
  assert (lo * m <= x * m) by (apply Rmult_le_compat_r; assumption). assert (x * m <= hi * m) by (apply Rmult_le_compat_r; assumption). lra.
Qed.
Lemma gravity_ok lo hi ps : (forall p, In p ps -> lo <= fst p <= hi /\ 0 <= snd p) ->
  ((forall p, In p ps -> snd p = 0) /\ gravity ps = 0) \/
  (0 < sumR (map snd ps) /\ gravity ps * sumR (map snd ps) = sumR (map (fun p => fst p * snd p) ps) /\ lo <= gravity ps <= hi).
Proof.
  intros H. unfold gravity. rewrite gravity_fold, !Rplus_0_l.
  destruct (sum_zero (map snd ps)) as [A B]; [intros x I; apply in_map_iff in I; destruct I as [p [<- I]]; apply (H p I)|].
  destruct (Req_EM_T (sumR (map snd ps)) 0) as [E|E].
  - left. split; [|reflexivity]. intros p I. apply (B E). apply in_map. exact I.
  - right. destruct (weighted lo hi ps H) as [C D]. set (e := sumR (map snd ps)) in *. set (n := sumR (map (fun p => fst p * snd p) ps)) in *.
    assert (P : 0 < e) by lra. split; [exact P|]. split; [field; lra|].
    split; apply (Rmult_le_reg_r e); try exact P; replace (n / e * e) with n by (field; lra); lra.
Qed.

(** The mean of the maximum. *)
Lemma near_refl a : isNear a a.
Proof. unfold isNear. rewrite Rminus_eq_0, Rabs_R0. pose proof (Rabs_pos a). pose proof (Rmax_l (Rabs a) (Rabs a)). apply Rmult_le_pos; lra. Qed.
Lemma maximum_spec ps : forall M xs seen, 0 <= M ->
  (forall q, In q seen -> snd q <= M) -> (M = 0 \/ exists q, In q seen /\ snd q = M) ->
  (forall x, In x xs -> exists m, In (x, m) seen /\ isNear m M) -> (forall x m, In (x, m) seen -> m = M -> In x xs) ->
  let r := fold_left maximumStep ps (M, xs) in
  0 <= fst r /\ (forall q, In q (seen ++ ps) -> snd q <= fst r) /\ (fst r = 0 \/ exists q, In q (seen ++ ps) /\ snd q = fst r) /\
  (forall x, In x (snd r) -> exists m, In (x, m) (seen ++ ps) /\ isNear m (fst r)) /\ (forall x m, In (x, m) (seen ++ ps) -> m = fst r -> In x (snd r)).
Proof.
  induction ps as [|[x m] ps IH]; intros M xs seen P A B C D; cbn [fold_left]; cbv zeta.
  - rewrite app_nil_r. cbn. auto.
  - set (st := maximumStep (M, xs) (x, m)). rewrite (surjective_pairing st).
    replace (seen ++ (x, m) :: ps) with ((seen ++ [(x, m)]) ++ ps) by (rewrite <- app_assoc; reflexivity).
    assert (IN : forall q, In q (seen ++ [(x, m)]) <-> In q seen \/ q = (x, m)).
    { intros q. rewrite in_app_iff. cbn. split; intros [H|H]; auto. destruct H as [H|[]]; auto. }
    apply IH; unfold st, maximumStep; cbn [fst snd]; destruct (Rlt_dec M m) as [L|L]; cbn [fst snd].
    + destruct (isNear_dec m m) as [_|N]; [cbn; lra|destruct (N (near_refl m))].
    + destruct (isNear_dec m M); cbn; exact P.
    + intros q Q. apply IN in Q. destruct (isNear_dec m m); cbn; (destruct Q as [Q| ->]; [specialize (A q Q); lra|cbn; lra]).
    + intros q Q. apply IN in Q. destruct (isNear_dec m M); cbn; (destruct Q as [Q| ->]; [exact (A q Q)|cbn; lra]).
    + right. exists (x, m). split; [apply IN; auto|]. destruct (isNear_dec m m); reflexivity.
    + assert (G : M = 0 \/ exists q, In q (seen ++ [(x, m)]) /\ snd q = M) by (destruct B as [B|[q [Q B]]]; [auto|right; exists q; split; [apply IN; auto|exact B]]).
      destruct (isNear_dec m M); exact G.
    + destruct (isNear_dec m m) as [N|N]; [|destruct (N (near_refl m))]. cbn. intros y [<-|[]]. exists m. split; [apply IN; auto|exact N].
    + destruct (isNear_dec m M) as [N|N]; cbn; intros y Y.
      * apply in_app_iff in Y. destruct Y as [Y|[<-|[]]]; [destruct (C y Y) as [z [Z W]]; exists z; split; [apply IN; auto|exact W]|exists m; split; [apply IN; auto|exact N]].
      * destruct (C y Y) as [z [Z W]]; exists z; split; [apply IN; auto|exact W].
    + destruct (isNear_dec m m) as [N|N]; [|destruct (N (near_refl m))]. cbn. intros y z Y E. apply IN in Y. destruct Y as [Y|Y].
      * specialize (A _ Y). cbn in A. lra.
      * injection Y as -> _. auto.
    + destruct (isNear_dec m M) as [N|N]; cbn; intros y z Y E; apply IN in Y; destruct Y as [Y|Y].
      * apply in_app_iff. left. exact (D y z Y E).
      * injection Y as -> _. apply in_app_iff. right. left. reflexivity.
      * exact (D y z Y E).
      * injection Y as -> ->. subst M. destruct (N (near_refl m)).
Qed.
Lemma fold_plus l : forall a, fold_left Rplus l a = a + sumR l.
Proof. induction l as [|x l IH]; intros a; cbn; [ring|]. rewrite IH. unfold sumR. ring. Qed.
Lemma mean_range lo hi l : l <> [] -> (forall x, In x l -> lo <= x <= hi) -> lo <= sumR l / INR (length l) <= hi.
Proof.
  intros N H. assert (P : 0 < INR (length l)) by (apply lt_0_INR; destruct l; [congruence|cbn; lia]).
  assert (B : lo * INR (length l) <= sumR l <= hi * INR (length l)).
  { clear N P. induction l as [|x l IH]; [cbn; lra|]. destruct IH as [A B]; [intros; apply H; right; assumption|].
    pose proof (H x (or_introl eq_refl)). change (sumR (x :: l)) with (x + sumR l). cbn [length]. rewrite S_INR. lra. }
  split; apply (Rmult_le_reg_r (INR (length l))); try exact P; replace (sumR l / INR (length l) * INR (length l)) with (sumR l) by (field; lra); lra.
Qed.
Lemma mean_maximum_ok ps : ps <> [] -> (forall p, In p ps -> 0 <= snd p) ->
  exists M xs, (exists q, In q ps /\ snd q = M) /\ (forall q, In q ps -> snd q <= M) /\ xs <> [] /\
    (forall x, In x xs -> exists m, In (x, m) ps /\ isNear m M) /\ (forall x m, In (x, m) ps -> m = M -> In x xs) /\
    meanMaximum ps = sumR xs / INR (length xs).
Proof.
  intros N H. pose proof (maximum_spec ps 0 [] [] (Rle_refl 0)) as X. cbv zeta in X. cbn [app] in X.
  destruct X as [A [B [C [D E]]]]; [intros ? []|auto|intros ? []|intros ? ? []|].
  unfold meanMaximum. destruct (fold_left maximumStep ps (0, [])) as [M xs]. cbn [fst snd] in *.
  assert (G : exists q, In q ps /\ snd q = M).
  { destruct C as [->|C]; [|exact C]. destruct ps as [|q ps]; [congruence|]. exists q. split; [left; reflexivity|].
    pose proof (B q (or_introl eq_refl)). pose proof (H q (or_introl eq_refl)). lra. }
  exists M, xs. split; [exact G|]. split; [exact B|].
  assert (NE : xs <> []) by (destruct G as [[x m] [I J]]; specialize (E x m I J); destruct xs; [destruct E|discriminate]).
  split; [exact NE|]. split; [exact D|]. split; [exact E|]. destruct xs as [|x xs]; [congruence|]. rewrite fold_plus, Rplus_0_l. reflexivity.
Qed.

(** The prediction. *)
Lemma predict_ok fuel method n rules data d lo hi : usable data d lo hi rules -> lo < hi -> (2 <= n < fuel)%nat ->
  exists mu, (forall x, strongest data d rules x (mu x)) /\ (forall x, unitInterval (mu x)) /\
    predict fuel method n rules data =
      Some ((match method with CoG => gravity | MoM => meanMaximum end) (map (fun x => (x, mu x)) (map (grid lo hi n) (seq 0 n)))).
Proof.
  intros U L N. destruct (rules_defined data d lo hi rules U) as [u [A [B C]]].
  exists (fun x => match evaluate (single d x) u with Some m => m | None => 0 end).
  assert (E : forall x, evaluate (single d x) u = Some (match evaluate (single d x) u with Some m => m | None => 0 end)).
  { intros x. specialize (C x). destruct (evaluate (single d x) u); congruence. }
  assert (G : forall x, strongest data d rules x (match evaluate (single d x) u with Some m => m | None => 0 end)) by (intros x; exact (union_strongest data d rules u x _ A (E x))).
  split; [exact G|]. split.
  - intros x. destruct (G x) as [[r [I S]] _]. exact (suggests_unit data d lo hi rules r x _ U I S).
  - unfold predict, defuzzify. rewrite A, B, (samples_grid lo hi n fuel L N), (memberships_map u d _ E). destruct method; reflexivity.
Qed.

Lemma total_map n (f : nat -> R) : total n f = sumR (map f (seq 0 n)).
Proof. reflexivity. Qed.

Theorem predict_gravity fuel n rules data d lo hi : usable data d lo hi rules -> lo < hi -> (2 <= n < fuel)%nat ->
  exists mu v, (forall x, strongest data d rules x (mu x)) /\ predict fuel CoG n rules data = Some v /\
    (((forall k, (k < n)%nat -> mu (grid lo hi n k) = 0) /\ v = 0) \/
     (0 < total n (fun k => mu (grid lo hi n k)) /\
      v * total n (fun k => mu (grid lo hi n k)) = total n (fun k => grid lo hi n k * mu (grid lo hi n k)) /\ lo <= v <= hi)).
Proof.
  intros U L N. destruct (predict_ok fuel CoG n rules data d lo hi U L N) as [mu [A [B C]]]. exists mu. eexists. split; [exact A|]. split; [exact C|].
  rewrite !total_map. set (ps := map (fun x => (x, mu x)) (map (grid lo hi n) (seq 0 n))).
  assert (E1 : map snd ps = map (fun k => mu (grid lo hi n k)) (seq 0 n)) by (unfold ps; rewrite !map_map; reflexivity).
  assert (E2 : map (fun p => fst p * snd p) ps = map (fun k => grid lo hi n k * mu (grid lo hi n k)) (seq 0 n)) by (unfold ps; rewrite !map_map; reflexivity).
  rewrite <- E1, <- E2. destruct (gravity_ok lo hi ps) as [[H1 H2]|H1].
  - intros p I. unfold ps in I. rewrite map_map in I. apply in_map_iff in I. destruct I as [k [<- I]]. apply in_seq in I. cbn.
    split; [apply grid_range; [exact L|lia|lia]|apply B].
  - left. split; [|exact H2]. intros k K. apply (H1 (grid lo hi n k, mu (grid lo hi n k))). unfold ps. rewrite map_map. apply in_map_iff.
    exists k. split; [reflexivity|apply in_seq; lia].
  - right. exact H1.
Qed.

Theorem predict_maximum fuel n rules data d lo hi : usable data d lo hi rules -> lo < hi -> (2 <= n < fuel)%nat ->
  exists mu v M xs, (forall x, strongest data d rules x (mu x)) /\ predict fuel MoM n rules data = Some v /\
    (exists k, (k < n)%nat /\ mu (grid lo hi n k) = M) /\ (forall k, (k < n)%nat -> mu (grid lo hi n k) <= M) /\
    (forall x, In x xs -> (exists k, (k < n)%nat /\ x = grid lo hi n k) /\ Rabs (mu x - M) <= / 100000 * Rmax (Rabs (mu x)) (Rabs M)) /\
    (forall k, (k < n)%nat -> mu (grid lo hi n k) = M -> In (grid lo hi n k) xs) /\
    xs <> [] /\ v = fold_right Rplus 0 xs / INR (length xs) /\ lo <= v <= hi.
Proof.
  intros U L N. destruct (predict_ok fuel MoM n rules data d lo hi U L N) as [mu [A [B C]]].
  set (ps := map (fun x => (x, mu x)) (map (grid lo hi n) (seq 0 n))) in *.
  assert (I : forall x m, In (x, m) ps <-> exists k, (k < n)%nat /\ x = grid lo hi n k /\ m = mu x).
  { intros x m. unfold ps. rewrite map_map, in_map_iff. split.
    - intros [k [E K]]. apply in_seq in K. injection E as <- <-. exists k. repeat split. lia.
    - intros [k [K [-> ->]]]. exists k. split; [reflexivity|apply in_seq; lia]. }
  destruct (mean_maximum_ok ps) as [M [xs [H1 [H2 [H3 [H4 [H5 H6]]]]]]].
  - unfold ps. destruct n; [lia|discriminate].
  - intros [x m] P. apply I in P. destruct P as [k [_ [_ ->]]]. apply B.
  - exists mu, (meanMaximum ps), M, xs. split; [exact A|]. split; [exact C|]. split.
    { destruct H1 as [[x m] [P Q]]. cbn in Q. subst m. apply I in P. destruct P as [k [K [-> ->]]]. exists k. auto. }
    split; [intros k K; apply (H2 (grid lo hi n k, mu (grid lo hi n k))); apply I; exists k; auto|].
    split; [intros x X; destruct (H4 x X) as [m [P Q]]; apply I in P; destruct P as [k [K [E ->]]]; split; [exists k; auto|exact Q]|].
    split; [intros k K E; apply (H5 _ (mu (grid lo hi n k))); [apply I; exists k; auto|exact E]|].
    split; [exact H3|]. split; [exact H6|]. rewrite H6. apply mean_range; [exact H3|].
    intros x X. destruct (H4 x X) as [m [P _]]. apply I in P. destruct P as [k [K [-> _]]]. apply grid_range; [exact L|lia|exact K].
Qed.

(** A range of one point: the loop does not end. *)
Lemma loop_endless n lo : forall fuel, sampleXs fuel n lo lo = None.
Proof.
  intros fuel. unfold sampleXs. replace ((lo - lo) / (INR n - 1)) with 0 by (unfold Rdiv; ring).
  induction fuel as [|fuel IH]; [reflexivity|]. cbn [sampleLoop]. destruct (Rle_dec lo lo) as [_|C]; [|lra]. rewrite Rplus_0_r, IH. reflexivity.
Qed.

Lemma silent_zero fuel n rules data d lo hi : usable data d lo hi rules -> lo < hi -> (2 <= n < fuel)%nat ->
  (forall r, In r rules -> evaluate data (fst r) = Some 0) -> predict fuel CoG n rules data = Some 0.
Proof.
  intros U L N Z. destruct (predict_gravity fuel n rules data d lo hi U L N) as [mu [v [A [B [[_ ->]|[C _]]]]]]; [exact B|exfalso].
  assert (M : forall x, mu x = 0).
  { intros x. destruct (A x) as [[r [I [c [y [P [Q R]]]]]] _]. rewrite (Z r I) in P. injection P as <-.
    destruct U as [_ U]. destruct (U r I) as [_ [PR _]]. pose proof (evaluate_unit _ _ PR _ Q) as Y. unfold unitInterval in Y.
    rewrite R. unfold Rmin. destruct (Rle_dec 0 y); lra. }
  assert (T : forall l : list nat, fold_right Rplus 0 (map (fun k => mu (grid lo hi n k)) l) = 0).
  { induction l as [|k l IH]; [reflexivity|]. cbn. rewrite M, IH. ring. }
  unfold total in C. rewrite T in C. lra.
Qed.
Lemma point_endless method n rules data d lo : usable data d lo lo rules -> forall fuel, predict fuel method n rules data = None.
Proof. intros U fuel. destruct (rules_defined data d lo lo rules U) as [u [A [B C]]]. unfold predict, defuzzify. rewrite A, B, loop_endless. reflexivity. Qed.

Lemma shapes : (forall a b c, a < b < c -> triangle a b c b = 1) /\ (forall a b c x, x <= a \/ c <= x -> triangle a b c x = 0) /\
  (forall a b c e x, a < b -> b <= x <= c -> c < e -> trapezoid a b c e x = 1) /\ (forall a b c e x, x <= a \/ e <= x -> trapezoid a b c e x = 0) /\
  (forall m s, gaussian m s m = 1) /\ (forall c s, sigmoid c s c = 1 / 2) /\
  (forall l c u, l < c < u -> sigmoidFinite l c u c = 1 / 2 /\ (forall x, x <= l -> sigmoidFinite l c u x = 0) /\ (forall x, u <= x -> sigmoidFinite l c u x = 1)) /\
  (forall l c u, u < c < l -> sigmoidFinite l c u c = 1 / 2 /\ (forall x, x <= u -> sigmoidFinite l c u x = 1) /\ (forall x, l <= x -> sigmoidFinite l c u x = 0)).
Proof.
  assert (SH : forall l c u, l < c < u -> sShape c l c u = 1 / 2 /\ (forall x, x <= l -> sShape x l c u = 0) /\ (forall x, u <= x -> sShape x l c u = 1)).
  { intros l c u H. unfold sShape. split; [|split].
    - destruct (Rle_dec c l); [lra|]. destruct (Rle_dec c c); [|lra]. field. lra.
    - intros x X. destruct (Rle_dec x l); [reflexivity|lra].
    - intros x X. destruct (Rle_dec x l); [lra|]. destruct (Rle_dec x c); [lra|]. destruct (Rle_dec x u); [|reflexivity].
      assert (x = u) by lra. subst. field. lra. }
  split; [|split; [|split; [|split; [|split; [|split; [|split]]]]]].
  - intros a b c H. unfold triangle. destruct (Rle_dec b a); [lra|]. destruct (Rle_dec c b); [lra|]. destruct (Rle_dec b b); [|lra]. field. lra.
  - intros a b c x H. unfold triangle. destruct (Rle_dec x a); [reflexivity|]. destruct (Rle_dec c x); [reflexivity|lra].
  - intros a b c e x H1 H2 H3. unfold trapezoid. destruct (Rle_dec x a); [lra|]. destruct (Rle_dec e x); [lra|].
    destruct (Rle_dec x b); [assert (x = b) by lra; subst; field; lra|]. destruct (Rle_dec x c); [reflexivity|lra].
  - intros a b c e x H. unfold trapezoid. destruct (Rle_dec x a); [reflexivity|]. destruct (Rle_dec e x); [reflexivity|lra].
  - intros m s. unfold gaussian. replace (- (1 / 2) * ((m - m) / s) ^ 2) with 0 by (unfold Rdiv; ring). apply exp_0.
  - intros c s. unfold sigmoid. replace (- s * (c - c)) with 0 by ring. rewrite exp_0. field.
  - intros l c u H. unfold sigmoidFinite. destruct (Rlt_dec u l); [lra|]. apply SH. exact H.
  - intros l c u H. unfold sigmoidFinite. destruct (Rlt_dec u l); [|lra]. destruct (SH u c l ltac:(lra)) as [A [B C]].
    split; [rewrite A; field|]. split; intros x X; [rewrite B by exact X|rewrite C by exact X]; ring.
Qed.
