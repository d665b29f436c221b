(** The grid of subdomains has as many subdomains as there are ranks. *)
From Coq Require Import List ZArith Lia Bool Permutation Znumtheory.
From Verif.Base Require Import OptionM ZRange.
From Verif.Grid Require Import IndexModel.
From Verif.Flex Require Import DomainModel DomainSpec.
Import ListNotations.
Local Open Scope Z_scope.

Definition prod (l : list Z) : Z := fold_right Z.mul 1 l.
Lemma prod_app l m : prod (l ++ m) = prod l * prod m.
Proof. induction l as [|x l IH]; [unfold prod; cbn [app fold_right]; ring|]. change (prod ((x :: l) ++ m)) with (x * prod (l ++ m)). change (prod (x :: l)) with (x * prod l). rewrite IH. ring. Qed.
Lemma prod_perm l m : Permutation l m -> prod l = prod m.
Proof. induction 1; [reflexivity|unfold prod in *; cbn [fold_right]; congruence|unfold prod; cbn [fold_right]; ring|congruence]. Qed.

Lemma divideOut_spec fuel i n : 2 <= i -> 1 <= n -> (Z.to_nat n <= fuel)%nat ->
  prod (fst (divideOut fuel i n)) * snd (divideOut fuel i n) = n /\ 1 <= snd (divideOut fuel i n) /\ Forall (fun x => 1 <= x) (fst (divideOut fuel i n)) /\
  ~ (i | snd (divideOut fuel i n)).
Proof.
  revert n. induction fuel as [|f IH]; intros n Hi Hn Hf; [lia|]. cbn [divideOut]. destruct (Z.eqb_spec (n mod i) 0) as [E|E].
  - apply Z.mod_divide in E; [|lia]. destruct E as [k E]. assert (Q : n / i = k) by (rewrite E; apply Z.div_mul; lia). rewrite Q. clear Q.
    assert (K : 1 <= k) by nia. specialize (IH k Hi K ltac:(nia)). cbn [fst snd]. destruct (divideOut f i k) as [l m]. cbn [fst snd] in *. destruct IH as (P1 & P2 & P3 & P4).
    split; [|split; [exact P2|split; [constructor; [lia|exact P3]|exact P4]]]. change (prod (i :: l)) with (i * prod l). nia.
  - cbn [fst snd]. split; [unfold prod; cbn [fold_right]; lia|]. split; [exact Hn|]. split; [constructor|]. intros D. apply E. apply Z.mod_divide; [lia|exact D].
Qed.

Lemma uneven_spec fuel i n : 3 <= i -> 1 <= n -> n < i + 2 * Z.of_nat fuel -> (forall k, 2 <= k < i -> ~ (k | n)) -> (exists h, i = 2 * h + 1) ->
  prod (fst (unevenFactors fuel i n)) = n /\ Forall (fun x => 1 <= x) (fst (unevenFactors fuel i n)).
Proof.
  revert i n. induction fuel as [|f IH]; intros i n Hi Hn Hf Nd Odd; cbn [unevenFactors].
  - cbn [fst]. destruct (Z.eq_dec n 1) as [->|N]; [split; [reflexivity|constructor]|]. exfalso. apply (Nd n); [lia|apply Z.divide_refl].
  - destruct (Z.leb_spec i n) as [L|L].
    + pose proof (divideOut_spec (Z.to_nat n) i n ltac:(lia) Hn ltac:(lia)) as (P1 & P2 & P3 & P4). destruct (divideOut (Z.to_nat n) i n) as [l m]. cbn [fst snd] in *.
      assert (Pl : 1 <= prod l) by (clear -P3; induction P3 as [|x l Hx F IH']; [unfold prod; cbn; lia|change (prod (x :: l)) with (x * prod l); nia]).
      assert (Dm : (m | n)) by (exists (prod l); lia).
      assert (Lm : m <= n) by nia.
      destruct (IH (i + 2) m) as [Q1 Q2]; [lia|exact P2|lia| | |].
      * intros k Hk D. destruct (Z.eq_dec k i) as [->|N1]; [contradiction|]. destruct (Z_lt_le_dec k i) as [Lk|Lk].
        -- apply (Nd k); [lia|]. now apply Z.divide_trans with m.
        -- assert (k = i + 1) by lia. subst k. destruct Odd as [h Oh]. apply (Nd 2); [lia|]. apply Z.divide_trans with m; [|exact Dm].
           apply Z.divide_trans with (i + 1); [exists (h + 1); lia|exact D].
      * destruct Odd as [h Oh]. exists (h + 1). lia.
      * split; [|apply Forall_app; split; assumption]. rewrite prod_app, Q1. exact P1.
    + cbn [fst]. destruct (Z.eq_dec n 1) as [->|N]; [split; [reflexivity|constructor]|]. exfalso. apply (Nd n); [lia|apply Z.divide_refl].
Qed.
Lemma factors_spec n : 1 <= n -> prod (primeFactors n) = n /\ Forall (fun x => 1 <= x) (primeFactors n).
Proof.
  intros Hn. unfold primeFactors. pose proof (divideOut_spec (Z.to_nat n) 2 n ltac:(lia) Hn ltac:(lia)) as (P1 & P2 & P3 & P4). destruct (divideOut (Z.to_nat n) 2 n) as [l m]. cbn [fst snd] in *.
  assert (Pl : 1 <= prod l) by (clear -P3; induction P3 as [|x l Hx F IH']; [unfold prod; cbn; lia|change (prod (x :: l)) with (x * prod l); nia]).
  destruct (uneven_spec (Z.to_nat n) 3 m) as [Q1 Q2]; [lia|exact P2|nia| |exists 1; lia|].
  - intros k Hk D. assert (k = 2) by lia. subst. contradiction.
  - rewrite prod_app, Q1. split; [exact P1|]. apply Forall_app. split; assumption.
Qed.

Lemma insertZ_perm x l : Permutation (insertZ x l) (x :: l).
Proof. induction l as [|y l IH]; cbn [insertZ]; [constructor; constructor|]. destruct (x <=? y); [reflexivity|]. rewrite IH. apply perm_swap. Qed.
Lemma sortZ_perm l : Permutation (sortZ l) l.
Proof. induction l as [|x l IH]; [constructor|]. change (sortZ (x :: l)) with (insertZ x (sortZ l)). rewrite insertZ_perm. now constructor. Qed.
Lemma merge_spec fuel dims l : (length l < fuel)%nat -> (1 <= dims)%nat -> Forall (fun x => 1 <= x) l ->
  exists m, mergeFactors fuel dims l = Some m /\ (length m <= dims)%nat /\ prod m = prod l /\ Forall (fun x => 1 <= x) m.
Proof.
  revert l. induction fuel as [|f IH]; intros l Lf Hd F; [lia|]. cbn [mergeFactors]. destruct (Nat.leb_spec (length l) dims) as [L|L].
  - exists l. repeat split; assumption.
  - pose proof (sortZ_perm l) as P. pose proof (Permutation_length P) as Pl. apply (Permutation_Forall (Permutation_sym P)) in F. rewrite <- (prod_perm _ _ P).
    destruct (sortZ l) as [|a [|b r]]; cbn [length] in Pl; [lia|lia|]. inversion F as [|? ? Ha F1]; subst. inversion F1 as [|? ? Hb F2]; subst.
    destruct (IH (b * a :: r)) as (m & E & Lm & Pm & Fm); [cbn [length]; lia|exact Hd|constructor; [nia|exact F2]|]. exists m. split; [exact E|]. split; [exact Lm|]. split; [|exact Fm].
    rewrite Pm. unfold prod. cbn [fold_right]. ring.
Qed.

Lemma decomposition_some n sx sy sz : 1 <= n -> sx || sy || sz = true -> exists d, generateDecomposition n sx sy sz = Some d /\ decomposes n sx sy sz d.
Proof.
  intros Hn Any. destruct (factors_spec n Hn) as [Pf Ff].
  destruct (merge_spec (S (length (primeFactors n))) (Nat.b2n sx + Nat.b2n sy + Nat.b2n sz) (primeFactors n)) as (l & E & Ll & Pl & Fl); [lia|destruct sx, sy, sz; cbn in *; (lia || discriminate)|exact Ff|].
  unfold generateDecomposition. rewrite E. eexists. split; [reflexivity|]. rewrite Pf in Pl. subst n. clear -Ll Fl.
  unfold decomposes. destruct sx, sy, sz; cbn [Nat.b2n Nat.add] in Ll; destruct l as [|x [|y [|z [|w l]]]]; cbn [length] in Ll; try lia;
    repeat match goal with H : Forall _ (_ :: _) |- _ => inversion H; subst; clear H end;
    cbn [takeFactor fst snd ix iy iz prod fold_right]; (split; [intros []; cbn [iat ix iy iz]; lia|]; repeat split; try discriminate; ring).
Qed.
Lemma decomposition_one sx sy sz : generateDecomposition 1 sx sy sz = Some (mkI3 1 1 1).
Proof. destruct sx, sy, sz; reflexivity. Qed.
Lemma decomposition_none n : 2 <= n -> generateDecomposition n false false false = None.
Proof.
  intros Hn. unfold generateDecomposition. cbn [Nat.b2n Nat.add]. destruct (factors_spec n ltac:(lia)) as [Pf _].
  assert (Q : forall fuel l, (length l < fuel)%nat -> l <> [] -> mergeFactors fuel 0 l = None).
  { induction fuel as [|f IH]; intros l Lf N; [lia|]. cbn [mergeFactors]. destruct l as [|x l]; [contradiction|]. cbn [length Nat.leb].
    pose proof (Permutation_length (sortZ_perm (x :: l))) as Pl. destruct (sortZ (x :: l)) as [|a [|b r]]; try reflexivity. apply IH; [cbn [length] in *; lia|discriminate]. }
  rewrite Q; [reflexivity|lia|]. intros E. rewrite E in Pf. unfold prod in Pf. cbn in Pf. lia.
Qed.
