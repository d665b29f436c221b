(** A container whose cells are all visited by the first thread, as cells of which every
    [T]th holds particles. *)
From Verif.Base Require Import ZRange.
From Verif.Container Require Import IteratorModel IteratorLemmas.

(** The first fulfilling element, and the first one in a list of lists from position [p] of the
    first list on; [i] is the number of the first list. *)
Fixpoint firstFul {P} (fulfilling : P -> bool) (l : list P) (p : Z) : option (Z * P) :=
  match l with [] => None | x :: r => if fulfilling x then Some (p, x) else firstFul fulfilling r (p + 1) end.
Fixpoint searchIdx {P} (fulfilling : P -> bool) (ls : list (list P)) (i : nat) (p : Z) : option (nat * Z * P) :=
  match ls with
  | [] => None
  | ps :: r =>
      match firstFul fulfilling (skipn (Z.to_nat p) ps) p with
      | Some (p', x) => Some (i, p', x)
      | None => searchIdx fulfilling r (S i) 0
      end
  end.

Lemma nth_error_skipn {A} (l : list A) n i : nth_error (skipn n l) i = nth_error l (n + i).
Proof. revert l. induction n as [|n IH]; intros l; [reflexivity|]. destruct l as [|y l]; cbn; [now destruct i|apply IH]. Qed.
Lemma concat_skipn_length {A} (l : list (list A)) n : (length (concat (skipn n l)) <= length (concat l))%nat.
Proof. revert l. induction n as [|n IH]; intros [|y l]; cbn; auto. rewrite app_length. specialize (IH l). lia. Qed.

Lemma firstFul_some {P} (f : P -> bool) l p q x : firstFul f l p = Some (q, x) ->
  p <= q /\ nth_error l (Z.to_nat (q - p)) = Some x /\ f x = true.
Proof.
  revert p. induction l as [|y l IH]; intros p H; [discriminate|]. cbn in H. destruct (f y) eqn:F.
  - injection H as <- <-. rewrite Z.sub_diag. repeat split; auto. lia.
  - destruct (IH _ H) as (A & B & C). split; [lia|]. split; [|exact C]. replace (Z.to_nat (q - p)) with (S (Z.to_nat (q - (p + 1)))) by lia. exact B.
Qed.

Lemma searchIdx_some {P} (f : P -> bool) ls i p j q x : 0 <= p -> searchIdx f ls i p = Some (j, q, x) ->
  (i <= j)%nat /\ exists l, nth_error ls (j - i) = Some l /\ at_ l q = Some x /\ f x = true.
Proof.
  revert i p. induction ls as [|l ls IH]; intros i p Hp H; [discriminate|]. cbn [searchIdx] in H.
  destruct (firstFul f (skipn (Z.to_nat p) l) p) as [[q' x']|] eqn:F.
  - injection H as -> -> ->. split; [lia|]. exists l. rewrite Nat.sub_diag. split; [reflexivity|].
    apply firstFul_some in F. destruct F as (A & B & C). split; [|exact C]. unfold at_. destruct (Z.ltb_spec q 0); [lia|].
    rewrite <- B, nth_error_skipn. f_equal. lia.
  - destruct (IH (S i) 0 ltac:(lia) H) as (A & l' & B & C). split; [lia|]. exists l'. split; [|exact C].
    replace (j - i)%nat with (S (j - S i)) by lia. exact B.
Qed.

Section Padded.
  Context {P : Type}.
  Variable T : nat.
  Hypothesis HT : (0 < T)%nat.

  Definition pad (ls : list (list P)) : list (list P) := flat_map (fun l => l :: repeat [] (T - 1)) ls.

  Lemma pad_length ls : length (pad ls) = (T * length ls)%nat.
  Proof.
    induction ls as [|l ls IH]; cbn [pad flat_map]; [now rewrite Nat.mul_0_r|]. fold (pad ls). rewrite app_length, IH. cbn [length]. rewrite repeat_length. nia.
  Qed.
  Lemma pad_concat ls : concat (pad ls) = concat ls.
  Proof.
    induction ls as [|l ls IH]; [reflexivity|]. cbn [pad flat_map]. fold (pad ls). rewrite concat_app, IH. cbn [concat]. rewrite <- app_assoc. f_equal.
    assert (E : forall n, concat (repeat (@nil P) n) = []) by (induction n; auto). now rewrite E.
  Qed.
  Lemma pad_nth ls i : nth_error (pad ls) (T * i) = nth_error ls i.
  Proof.
    revert i. induction ls as [|l ls IH]; intros [|i]; cbn [pad flat_map]; try fold (pad ls).
    - now rewrite Nat.mul_0_r.
    - now destruct (T * S i)%nat.
    - now rewrite Nat.mul_0_r.
    - rewrite nth_error_app2; cbn [length]; rewrite repeat_length; [|nia]. replace (T * S i - S (T - 1))%nat with (T * i)%nat by nia. apply IH.
  Qed.
  Lemma pad_gap ls i u l : (0 < u < T)%nat -> nth_error (pad ls) (T * i + u) = Some l -> l = [].
  Proof.
    intros Hu. revert i. induction ls as [|y ls IH]; intros i E; cbn [pad flat_map] in E; try fold (pad ls) in E.
    - now destruct (T * i + u)%nat.
    - destruct i as [|i].
      + rewrite Nat.mul_0_r, Nat.add_0_l, nth_error_app1 in E by (cbn [length]; rewrite repeat_length; lia).
        destruct u as [|u]; [lia|]. cbn in E. now apply nth_error_In, repeat_spec in E.
      + rewrite nth_error_app2 in E; cbn [length] in *; rewrite repeat_length in *; [|nia].
        apply (IH i). rewrite <- E. f_equal. nia.
  Qed.
  Lemma pad_setAt ls i y : setAt (pad ls) (T * i) y = pad (setAt ls i y).
  Proof.
    revert i. induction ls as [|l ls IH]; intros [|i]; cbn [pad flat_map setAt]; try fold (pad ls).
    - reflexivity.
    - reflexivity.
    - now rewrite Nat.mul_0_r.
    - fold (pad (setAt ls i y)). rewrite <- IH.
      assert (G : forall (a b : list (list P)) n, setAt (a ++ b) (length a + n) y = a ++ setAt b n y).
      { induction a as [|u a IHa]; intros b n; [reflexivity|]. cbn. now rewrite IHa. }
      rewrite <- G. f_equal. cbn [length]. rewrite repeat_length. nia.
  Qed.
  Lemma pad_at ls i : at_ (pad ls) (Z.of_nat T * Z.of_nat i) = nth_error ls i.
  Proof.
    unfold at_. destruct (Z.ltb_spec (Z.of_nat T * Z.of_nat i) 0); [nia|]. rewrite <- Nat2Z.inj_mul, Nat2Z.id. apply pad_nth.
  Qed.
  Lemma pad_in ls l : In l (pad ls) -> l = [] \/ In l ls.
  Proof.
    intros H. apply in_flat_map in H. destruct H as (y & Y & [<-|H]); [now right|]. left. now apply repeat_spec in H.
  Qed.

  Variable ls : list (list P).
  Variable cf : Conf P.
  Variables i0 n : nat.
  Hypothesis Hn : (n <= length ls)%nat.
  Hypothesis Hrel : forall c, relevant cf c = true.
  Hypothesis Hstart : startCell cf = Z.of_nat T * Z.of_nat i0.
  Hypothesis Hend : endCell cf = Z.of_nat T * Z.of_nat n - 1.
  Hypothesis Hlast : lastCell cf = endCell cf.
  Hypothesis Hstride : stride cf = Z.of_nat T.
  Hypothesis Hmax : size (pad ls) < sizeMax.
  Hypothesis Hsmall : forall l, In l ls -> size l < sizeMax.
  Notation cell i := (Z.of_nat T * Z.of_nat i).
  Notation view := (firstn n ls).

  Lemma view_nth i : (i < n)%nat -> nth_error view i = nth_error ls i.
  Proof.
    clear -Hn. revert ls Hn i. induction n as [|m IH]; intros l Hl i Hi; [lia|]. destruct l as [|y l]; [reflexivity|]. destruct i as [|i]; [reflexivity|].
    cbn in *. apply IH; lia.
  Qed.

  (** The first cell from (i, p) on that is not exhausted. *)
  Fixpoint firstLeft (l : list (list P)) (i : nat) (p : Z) : option (nat * Z) :=
    match l with [] => None | ps :: r => if size ps <=? p then firstLeft r (S i) 0 else Some (i, p) end.

  Lemma skipCells_pad fuel : forall i p, (i < n)%nat -> (n - i < fuel)%nat ->
    skipCells cf fuel (pad ls) (cell i) p =
    Some (match firstLeft (skipn i view) i p with Some (j, q) => Some (cell j, q) | None => None end).
  Proof.
    induction fuel as [|f IH]; intros i p Hi Hf; [lia|]. cbn [skipCells]. rewrite pad_at.
    destruct (nth_error ls i) as [ps|] eqn:E; [|apply nth_error_None in E; lia].
    assert (Ev : nth_error view i = Some ps) by now rewrite view_nth.
    rewrite (skipn_nth i view ps Ev). cbn [firstLeft]. rewrite Hrel. cbn [negb orb]. destruct (Z.leb_spec (size ps) p) as [Hs|Hs]; [|reflexivity].
    rewrite Hend, Hstride. destruct (Z.ltb_spec (cell n - 1) (cell i + Z.of_nat T)) as [Hc|Hc].
    - assert (n = S i) by nia. rewrite skipn_all2 by (rewrite firstn_length; lia). reflexivity.
    - replace (cell i + Z.of_nat T) with (cell (S i)) by nia. apply IH; nia.
  Qed.

  Lemma firstLeft_some l i p j q : 0 <= p -> firstLeft l i p = Some (j, q) -> (i <= j)%nat /\ exists ps r, skipn (j - i) l = ps :: r /\ 0 <= q < size ps /\
    ((j = i /\ q = p) \/ ((i < j)%nat /\ q = 0)).
  Proof.
    revert i p. induction l as [|ps l IH]; intros i p Hp H; [discriminate|]. cbn in H. destruct (Z.leb_spec (size ps) p).
    - destruct (IH (S i) 0 ltac:(lia) H) as (A & y & r & B & C & D). split; [lia|]. exists y, r. replace (j - i)%nat with (S (j - S i)) by lia.
      split; [exact B|]. split; [exact C|]. right. lia.
    - injection H as <- <-. split; [lia|]. exists ps, l. rewrite Nat.sub_diag. repeat split; try lia.
  Qed.

  Lemma search_left l i p : 0 <= p -> searchIdx (ful cf) l i p =
    match firstLeft l i p with Some (j, q) => searchIdx (ful cf) (skipn (j - i) l) j q | None => None end.
  Proof.
    revert i p. induction l as [|ps l IH]; intros i p Hp; [reflexivity|]. cbn [searchIdx firstLeft]. destruct (Z.leb_spec (size ps) p).
    - rewrite skipn_all_Z by assumption. cbn [firstFul]. rewrite IH by lia. destruct (firstLeft l (S i) 0) as [[j q]|] eqn:F; [|reflexivity].
      apply firstLeft_some in F; [|lia]. destruct F as (A & _). replace (j - i)%nat with (S (j - S i)) by lia. reflexivity.
    - rewrite Nat.sub_diag. reflexivity.
  Qed.

  Lemma search_one l i p ps x r : l = ps :: r -> at_ ps p = Some x ->
    searchIdx (ful cf) l i p = if ful cf x then Some (i, p, x) else searchIdx (ful cf) l i (p + 1).
  Proof.
    intros -> E. cbn [searchIdx]. rewrite (skipn_at ps p x E). cbn [firstFul]. destruct (ful cf x); reflexivity.
  Qed.

  Definition left (i : nat) (p : Z) : nat :=
    match skipn i view with [] => O | ps :: r => (length (skipn (Z.to_nat p) ps) + length (concat r))%nat end.

  Lemma advance_pad fuel : forall i p, (i < n)%nat -> 0 <= p < sizeMax -> (left i (p + 1) < fuel)%nat ->
    advance cf fuel (pad ls) (cell i) p =
    Some (match searchIdx (ful cf) (skipn i view) i (p + 1) with Some (j, q, _) => (cell j, q) | None => (sizeMax, sizeMax) end).
  Proof.
    induction fuel as [|f IH]; intros i p Hi Hp Hf; [lia|]. cbn [advance]. rewrite incr_small by exact Hp.
    rewrite skipCells_pad; [|lia|rewrite pad_length; nia].
    rewrite search_left by lia. destruct (firstLeft (skipn i view) i (p + 1)) as [[j q]|] eqn:F; [|reflexivity].
    apply firstLeft_some in F; [|lia]. destruct F as (A & ps & r & B & C & D). rewrite skipn_skipn in B. rewrite skipn_skipn.
    replace (j - i + i)%nat with j in * by lia.
    assert (Hj : (j < n)%nat).
    { destruct (Nat.lt_ge_cases j n); [assumption|]. rewrite skipn_all2 in B by (rewrite firstn_length; lia). discriminate. }
    assert (Ev : nth_error ls j = Some ps).
    { rewrite <- view_nth by exact Hj. replace j with (j + 0)%nat by lia. rewrite <- nth_error_skipn, B. reflexivity. }
    rewrite pad_at, Ev. destruct (at_lt ps q C) as [x Ex]. rewrite Ex. rewrite (search_one _ j q ps x r B Ex). destruct (ful cf x) eqn:Fx; [reflexivity|].
    assert (size ps < sizeMax) by (apply Hsmall; now apply nth_error_In in Ev). apply IH; [exact Hj|lia|].
    unfold left in *. rewrite B. destruct D as [[-> ->]|[D ->]].
    - rewrite B in Hf. rewrite (skipn_at _ _ _ Ex) in Hf. cbn [length] in Hf. lia.
    - destruct (nth_error view i) as [ps0|] eqn:E0; [|apply nth_error_None in E0; rewrite firstn_length in E0; lia].
      rewrite (skipn_nth i view ps0 E0) in Hf. pose proof (concat_skipn_length (skipn (S i) view) (j - S i)) as K.
      rewrite skipn_skipn in K. replace (j - S i + S i)%nat with j in K by lia. rewrite B in K. cbn [concat] in K. rewrite app_length in K.
      rewrite skipn_length. unfold size in C. change (Z.to_nat (0 + 1)) with 1%nat. lia.
  Qed.

  Lemma left_total i p : (left i p <= length (concat (pad ls)))%nat.
  Proof.
    rewrite pad_concat. unfold left. destruct (skipn i view) as [|ps r] eqn:E; [lia|].
    pose proof (concat_skipn_length view i) as K. rewrite E in K. cbn [concat] in K. rewrite app_length in K. rewrite skipn_length.
    assert (length (concat view) <= length (concat ls))%nat; [|lia].
    rewrite <- (firstn_skipn n ls) at 2. rewrite concat_app, app_length. lia.
  Qed.

  (** What the first thread finds. *)
  Theorem get_pad i p : threadNum cf = 0 -> (i < n)%nat -> 0 <= p < sizeMax -> (i = 0%nat /\ p = 0 -> i0 = 0%nat) ->
    getParticle cf (pad ls) (cell i) p =
    Some (match searchIdx (ful cf) (skipn i view) i p with Some (j, q, x) => (Some x, cell j, q) | None => (None, 0, 0) end).
  Proof.
    intros Ht Hi Hp H0. unfold getParticle. cbv zeta.
    assert (Ec : (if (cell i =? 0) && (p =? 0) then startCell cf + threadNum cf else cell i) = cell i).
    { destruct (Z.eqb_spec (cell i) 0) as [Ei|]; [|reflexivity]. destruct (Z.eqb_spec p 0) as [Ep|]; [|reflexivity].
      cbn [andb]. rewrite Hstart, Ht. rewrite H0 by (split; nia). nia. }
    rewrite Ec. clear Ec H0. assert (Hsz : size (pad ls) = cell (length ls)) by (unfold size; rewrite pad_length; nia).
    destruct (Z.leb_spec (size (pad ls)) (cell i)) as [K|_]; [rewrite Hsz in K; nia|]. rewrite pad_at.
    destruct (nth_error ls i) as [ps|] eqn:E; [|apply nth_error_None in E; lia].
    assert (Ev : skipn i view = ps :: skipn (S i) view) by (apply skipn_nth; now rewrite view_nth).
    assert (Fin : forall j q x l, (i <= j)%nat -> nth_error (skipn i view) (j - i) = Some l -> at_ l q = Some x ->
      (if lastCell cf <? cell j then Some (None, 0, 0)
       else match at_ (pad ls) (cell j) with
            | None => None
            | Some cell' => match at_ cell' q with Some x => Some (Some x, cell j, q) | None => None end
            end) = Some (Some x, cell j, q)).
    { intros j q x l Hj El Ex. rewrite nth_error_skipn in El. replace (i + (j - i))%nat with j in El by lia.
      assert (Hjn : (j < n)%nat).
      { assert (j < length view)%nat by (apply nth_error_Some; congruence). rewrite firstn_length in *. lia. }
      rewrite view_nth in El by exact Hjn. rewrite Hlast, Hend. destruct (Z.ltb_spec (cell n - 1) (cell j)); [nia|]. rewrite pad_at, El, Ex. reflexivity. }
    assert (Adv : advance cf (S (length (concat (pad ls)))) (pad ls) (cell i) p =
      Some (match searchIdx (ful cf) (skipn i view) i (p + 1) with Some (j, q, _) => (cell j, q) | None => (sizeMax, sizeMax) end)).
    { apply advance_pad; auto. pose proof (left_total i (p + 1)). lia. }
    assert (Done : match advance cf (S (length (concat (pad ls)))) (pad ls) (cell i) p with
      | None => None
      | Some (c', p') =>
          if lastCell cf <? c' then Some (None, 0, 0)
          else match at_ (pad ls) c' with
            | None => None
            | Some cell' => match at_ cell' p' with Some x => Some (Some x, c', p') | None => None end
            end
      end = Some (match searchIdx (ful cf) (skipn i view) i (p + 1) with Some (j, q, x) => (Some x, cell j, q) | None => (None, 0, 0) end)).
    { rewrite Adv. destruct (searchIdx (ful cf) (skipn i view) i (p + 1)) as [[[j q] x]|] eqn:F.
      - apply searchIdx_some in F; [|lia]. destruct F as (A & l & B & C & _). now apply (Fin j q x l).
      - rewrite Hlast, Hend. destruct (Z.ltb_spec (cell n - 1) sizeMax); [reflexivity|]. rewrite Hsz in Hmax. nia. }
    destruct (Z.leb_spec (size ps) p) as [Hs|Hs].
    - rewrite Done. do 2 f_equal. rewrite Ev. cbn [searchIdx]. rewrite !skipn_all_Z by lia. reflexivity.
    - destruct (at_lt ps p) as [x Ex]; [lia|]. rewrite Ex. rewrite (search_one _ i p ps x _ Ev Ex). destruct (ful cf x).
      + apply (Fin i p x ps); auto. rewrite Nat.sub_diag, Ev. reflexivity.
      + exact Done.
  Qed.

  (** The other threads find nothing. *)
  Lemma skipCells_gap (u : nat) fuel : (0 < u < T)%nat -> forall i p, (i < n)%nat -> 0 <= p -> (n - i < fuel)%nat ->
    skipCells cf fuel (pad ls) (cell i + Z.of_nat u) p = Some None.
  Proof.
    intros Hu. induction fuel as [|f IH]; intros i p Hi Hp Hf; [lia|]. cbn [skipCells].
    assert (Hsz : size (pad ls) = cell (length ls)) by (unfold size; rewrite pad_length; nia).
    destruct (at_lt (pad ls) (cell i + Z.of_nat u)) as [l E]; [rewrite Hsz; nia|]. rewrite E.
    assert (l = []).
    { apply at_some in E. destruct E as [_ E]. replace (Z.to_nat (cell i + Z.of_nat u)) with (T * i + u)%nat in E by nia. now apply pad_gap in E. }
    subst l. change (size (@nil P)) with 0. destruct (Z.leb_spec 0 p); [|lia]. rewrite orb_true_r.
    rewrite Hend, Hstride. destruct (Z.ltb_spec (cell n - 1) (cell i + Z.of_nat u + Z.of_nat T)) as [Hc|Hc]; [reflexivity|].
    replace (cell i + Z.of_nat u + Z.of_nat T) with (cell (S i) + Z.of_nat u) by nia. apply IH; nia.
  Qed.

  Theorem get_pad_other (u : nat) : (0 < u < T)%nat -> threadNum cf = Z.of_nat u -> (i0 < n)%nat ->
    getParticle cf (pad ls) 0 0 = Some (None, 0, 0).
  Proof.
    intros Hu Ht Hi. unfold getParticle. cbn [Z.eqb andb]. rewrite Hstart, Ht.
    assert (Hsz : size (pad ls) = cell (length ls)) by (unfold size; rewrite pad_length; nia).
    destruct (Z.leb_spec (size (pad ls)) (cell i0 + Z.of_nat u)) as [K|_]; [rewrite Hsz in K; nia|].
    destruct (at_lt (pad ls) (cell i0 + Z.of_nat u)) as [l E]; [rewrite Hsz; nia|]. rewrite E.
    assert (l = []).
    { apply at_some in E. destruct E as [_ E]. replace (Z.to_nat (cell i0 + Z.of_nat u)) with (T * i0 + u)%nat in E by nia. now apply pad_gap in E. }
    subst l. change (size (@nil P) <=? 0) with true. cbv iota. cbn [advance].
    rewrite skipCells_gap; [|exact Hu|exact Hi|vm_compute; discriminate|rewrite pad_length; nia].
    rewrite Hlast, Hend. destruct (Z.ltb_spec (cell n - 1) sizeMax); [reflexivity|]. rewrite Hsz in Hmax. nia.
  Qed.
End Padded.
