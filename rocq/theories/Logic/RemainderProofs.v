From Coq Require Import Reals Lra Psatz.
From Verif.Base Require Import ZRange Lists Occ OptionM.
From Verif.Grid Require Import CellBlockSpec.
From Verif.Functor Require Import SortModel.
From Verif.Container Require Import IteratorModel IteratorContainers IteratorSpec IteratorRegion ParticleModel ForEachModel ForEachProofs.
From Verif.Logic Require Import BalanceModel BalanceProofs RemainderModel RemainderSpec.
Import ListNotations.
Local Open Scope Z_scope.

Lemma NoDup_flat_map' {A B} (f : A -> list B) l : NoDup l -> (forall x, In x l -> NoDup (f x)) ->
  (forall x y b, In x l -> In y l -> In b (f x) -> In b (f y) -> x = y) -> NoDup (flat_map f l).
Proof.
  induction l as [|a r IH]; intros N F D; [constructor|]. inversion N as [|? ? Na Nr]; subst. cbn [flat_map]. apply NoDup_app_intro.
  - apply F. left. reflexivity.
  - apply IH; [exact Nr|intros x Hx; apply F; right; exact Hx|]. intros x y b Hx Hy. apply D; right; assumption.
  - intros b Hb Hr. apply in_flat_map in Hr as (x & Hx & Hr). apply Na. rewrite (D a x b); auto; [left; reflexivity|right; exact Hx].
Qed.

Lemma flatM_some {A B} (f : A -> option (list B)) g l : (forall a, In a l -> f a = Some (g a)) -> flatM f l = Some (flat_map g l).
Proof. intros H. unfold flatM. rewrite (mapM_some f g l H), flat_map_concat_map. reflexivity. Qed.

(** Particles in two buffers. *)
Lemma concat_disjoint {A} (l : list (list A)) i j x : NoDup (concat l) -> In x (nth i l []) -> In x (nth j l []) -> i = j.
Proof.
  revert i j. induction l as [|a r IH]; intros i j N Hi Hj; [destruct i; destruct Hi|]. cbn [concat] in N.
  apply NoDup_app_inv in N as (N1 & N2 & D).
  assert (C : forall k, In x (nth k r []) -> In x (concat r)).
  { intros k H. destruct (Nat.lt_ge_cases k (length r)) as [L|L]; [|rewrite nth_overflow in H by exact L; destruct H].
    apply in_concat. exists (nth k r []). split; [apply nth_In; exact L|exact H]. }
  destruct i as [|i], j as [|j]; cbn [nth] in Hi, Hj; auto.
  - destruct (D x Hi (C j Hj)).
  - destruct (D x Hj (C i Hi)).
Qed.
Lemma in_nth_concat {A} (l : list (list A)) k x : In x (nth k l []) -> In x (concat l).
Proof.
  intros H. destruct (Nat.lt_ge_cases k (length l)) as [L|L]; [|rewrite nth_overflow in H by exact L; destruct H].
  apply in_concat. exists (nth k l []). split; [apply nth_In; exact L|exact H].
Qed.
Lemma in_concat_nth {A} (l : list (list A)) x : In x (concat l) -> exists k, (k < length l)%nat /\ In x (nth k l []).
Proof. intros H. apply in_concat in H as (c & Hc & H). apply In_nth with (d := []) in Hc as (k & Hk & <-). exists k. auto. Qed.
Lemma NoDup_concat_nth {A} (l : list (list A)) k : NoDup (concat l) -> NoDup (nth k l []).
Proof.
  revert k. induction l as [|a r IH]; intros [|k] N; cbn [nth]; try constructor; cbn [concat] in N; apply NoDup_app_inv in N as (N1 & N2 & D); auto.
Qed.

Lemma in_ordered l t s : NoDup l -> In (t, s) (ordered l) <-> In t l /\ In s l /\ t <> s.
Proof.
  induction l as [|p r IH]; intros N; cbn [ordered]; [cbn; tauto|]. inversion N as [|? ? Np Nr]; subst.
  rewrite !in_app_iff, !in_map_iff, (IH Nr). cbn [In]. split.
  - intros [(q & E & H)|[(q & E & H)|(A & B & C)]]; [injection E as <- <-|injection E as <- <-|]; repeat split; auto; intros ->; contradiction.
  - intros ([<-|A] & [<-|B] & C); [contradiction|left; eauto|right; left; eauto|right; right; auto].
Qed.
Lemma NoDup_ordered l : NoDup l -> NoDup (ordered l).
Proof.
  induction l as [|p r IH]; intros N; cbn [ordered]; [constructor|]. inversion N as [|? ? Np Nr]; subst. apply NoDup_app_intro; [|apply NoDup_app_intro|].
  - apply NoDup_map_inj; [intros x y _ _ E; congruence|exact Nr].
  - apply NoDup_map_inj; [intros x y _ _ E; congruence|exact Nr].
  - apply IH. exact Nr.
  - intros (t, s) H1 H2. apply in_map_iff in H1 as (q & E & H). injection E as <- <-. apply in_ordered in H2 as (A & B & C); auto.
  - intros (t, s) H1 H2. apply in_map_iff in H1 as (q & E & H). injection E as <- <-. apply in_app_or in H2 as [H2|H2].
    + apply in_map_iff in H2 as (q' & E' & H'). injection E' as E1 E2. subst. contradiction.
    + apply in_ordered in H2 as (A & B & C); auto.
Qed.

Lemma NoDup_list_prod {A B} (l : list A) (l' : list B) : NoDup l -> NoDup l' -> NoDup (list_prod l l').
Proof.
  induction l as [|a r IH]; intros N N'; cbn [list_prod]; [constructor|]. inversion N as [|? ? Na Nr]; subst. apply NoDup_app_intro.
  - apply NoDup_map_inj; [intros x y _ _ E; congruence|exact N'].
  - apply IH; assumption.
  - intros (x, y) H1 H2. apply in_map_iff in H1 as (q & E & H). injection E as <- <-. apply in_prod_iff in H2 as (H2 & _). contradiction.
Qed.

Lemma add_mod_inj n i a b : (a < n)%nat -> (b < n)%nat -> ((i + a) mod n = (i + b) mod n)%nat -> a = b.
Proof.
  intros Ha Hb E. assert (n <> 0)%nat by lia.
  pose proof (Nat.div_mod (i + a) n ltac:(lia)) as D1. pose proof (Nat.div_mod (i + b) n ltac:(lia)) as D2. rewrite E in D1.
  assert ((i + a) / n = (i + b) / n)%nat as Q by nia. lia.
Qed.
Lemma add_mod_surj n i j : (i < n)%nat -> (j < n)%nat -> exists a, (a < n)%nat /\ ((i + a) mod n = j)%nat.
Proof.
  intros Hi Hj. destruct (Nat.le_gt_cases i j).
  - exists (j - i)%nat. split; [lia|]. replace (i + (j - i))%nat with j by lia. apply Nat.mod_small. exact Hj.
  - exists (n + j - i)%nat. split; [lia|]. replace (i + (n + j - i))%nat with (j + 1 * n)%nat by lia. rewrite Nat.mod_add by lia. apply Nat.mod_small. exact Hj.
Qed.

Section BufferBuffer.
  Variable bufs : list (list Particle).
  Hypothesis N : NoDup (concat bufs).

  Let call (i jj : nat) : Call :=
    let j := ((i + jj) mod length bufs)%nat in
    if (i =? j)%nat then SoAFunctorSingle (nth i bufs []) true else SoAFunctorPair (nth i bufs []) (nth j bufs []) false.
  Lemma call_in i jj t s : In (t, s) (forces (call i jj)) <-> In t (nth i bufs []) /\ In s (nth ((i + jj) mod length bufs) bufs []) /\ t <> s.
  Proof.
    unfold call. cbv zeta. destruct (Nat.eqb_spec i ((i + jj) mod length bufs)) as [E|E]; cbn [forces].
    - rewrite <- E. apply in_ordered, NoDup_concat_nth, N.
    - rewrite app_nil_r, in_prod_iff. split; [|tauto]. intros (A & B). repeat split; auto. intros ->. apply E. apply (concat_disjoint bufs i _ s N A B).
  Qed.

  Lemma bufferBuffer_forces : flat_map forces (bufferBuffer bufs) = flat_map (fun i => flat_map (fun jj => forces (call i jj)) (seq 0 (length bufs))) (seq 0 (length bufs)).
  Proof.
    unfold bufferBuffer. cbv zeta. fold call. generalize (seq 0 (length bufs)) at 2 4. intros l. induction l as [|i r IH]; [reflexivity|].
    cbn [flat_map]. rewrite flat_map_app, IH. f_equal. rewrite !flat_map_concat_map, map_map. reflexivity.
  Qed.

  Lemma bufferBuffer_in t s : In (t, s) (flat_map forces (bufferBuffer bufs)) <-> In t (concat bufs) /\ In s (concat bufs) /\ t <> s.
  Proof.
    rewrite bufferBuffer_forces, in_flat_map. split.
    - intros (i & Hi & H). apply in_flat_map in H as (jj & Hj & H). apply call_in in H as (A & B & C). repeat split; auto; eapply in_nth_concat; eassumption.
    - intros (A & B & C). apply in_concat_nth in A as (i & Hi & A). apply in_concat_nth in B as (j & Hj & B). destruct (add_mod_surj _ i j Hi Hj) as (a & Ha & E).
      exists i. split; [apply in_seq; lia|]. apply in_flat_map. exists a. split; [apply in_seq; lia|]. apply call_in. rewrite E. auto.
  Qed.
  Lemma bufferBuffer_nodup : NoDup (flat_map forces (bufferBuffer bufs)).
  Proof.
    rewrite bufferBuffer_forces. apply NoDup_flat_map'; [apply seq_NoDup| |].
    - intros i Hi. apply NoDup_flat_map'; [apply seq_NoDup| |].
      + intros jj Hj. unfold call. cbv zeta. destruct (Nat.eqb_spec i ((i + jj) mod length bufs)); cbn [forces].
        * apply NoDup_ordered, NoDup_concat_nth, N.
        * rewrite app_nil_r. apply NoDup_list_prod; apply NoDup_concat_nth, N.
      + intros a c (t, s) Ha Hc H1 H2. apply in_seq in Ha, Hc. apply call_in in H1 as (A1 & A2 & _). apply call_in in H2 as (B1 & B2 & _).
        apply (add_mod_inj (length bufs) i); try lia. apply (concat_disjoint bufs _ _ s N A2 B2).
    - intros i j (t, s) Hi Hj H1 H2. apply in_flat_map in H1 as (a & _ & H1). apply in_flat_map in H2 as (c & _ & H2).
      apply call_in in H1 as (A1 & _). apply call_in in H2 as (B1 & _). apply (concat_disjoint bufs _ _ t N A1 B1).
  Qed.
End BufferBuffer.

Section BufferHalo.
  Variables bufs halos : list (list Particle).
  Hypothesis N : NoDup (concat bufs).
  Hypothesis NH : NoDup (concat halos).
  Hypothesis L : length bufs = length halos.

  Let pairs (o i : nat) := list_prod (nth i bufs []) (nth ((i + o) mod length halos) halos []).
  Lemma bufferHalo_forces : flat_map forces (bufferHaloBuffer bufs halos) = flat_map (fun o => flat_map (pairs o) (seq 0 (length bufs))) (seq 0 (length halos)).
  Proof.
    unfold bufferHaloBuffer. cbv zeta. generalize (seq 0 (length halos)) as l. induction l as [|o r IH]; [reflexivity|].
    cbn [flat_map]. rewrite flat_map_app, IH. f_equal. rewrite !flat_map_concat_map, map_map. f_equal. apply map_ext. intros i. cbn [forces]. apply app_nil_r.
  Qed.
  Lemma bufferHalo_in t s : In (t, s) (flat_map forces (bufferHaloBuffer bufs halos)) <-> In t (concat bufs) /\ In s (concat halos).
  Proof.
    rewrite bufferHalo_forces, in_flat_map. split.
    - intros (o & Ho & H). apply in_flat_map in H as (i & Hi & H). unfold pairs in H. apply in_prod_iff in H as (A & B). split; eapply in_nth_concat; eassumption.
    - intros (A & B). apply in_concat_nth in A as (i & Hi & A). apply in_concat_nth in B as (j & Hj & B). destruct (add_mod_surj (length halos) i j) as (a & Ha & E); try lia.
      exists a. split; [apply in_seq; lia|]. apply in_flat_map. exists i. split; [apply in_seq; lia|]. unfold pairs. rewrite E. apply in_prod_iff. auto.
  Qed.
  Lemma bufferHalo_nodup : NoDup (flat_map forces (bufferHaloBuffer bufs halos)).
  Proof.
    rewrite bufferHalo_forces. apply NoDup_flat_map'; [apply seq_NoDup| |].
    - intros o Ho. apply NoDup_flat_map'; [apply seq_NoDup| |].
      + intros i Hi. unfold pairs. apply NoDup_list_prod; apply NoDup_concat_nth; assumption.
      + intros i j (t, s) Hi Hj H1 H2. unfold pairs in *. apply in_prod_iff in H1 as (A1 & _). apply in_prod_iff in H2 as (B1 & _). apply (concat_disjoint bufs _ _ t N A1 B1).
    - intros a c (t, s) Ha Hc H1 H2. apply in_seq in Ha, Hc. apply in_flat_map in H1 as (i & Hi & H1). apply in_flat_map in H2 as (j & Hj & H2).
      unfold pairs in *. apply in_prod_iff in H1 as (A1 & A2). apply in_prod_iff in H2 as (B1 & B2).
      assert (i = j) by apply (concat_disjoint bufs _ _ t N A1 B1). subst j.
      apply (add_mod_inj (length halos) i); try lia. apply (concat_disjoint halos _ _ s NH A2 B2).
  Qed.
End BufferHalo.

Section Container.
  Variable newton3 : bool.
  Variable cutoff : R.
  Variable inRegion : Z -> R3 -> R3 -> option (list Particle).
  Variable contained : list Particle.
  Variables bufs halos : list (list Particle).
  Hypothesis Hall : NoDup (concat bufs ++ concat halos ++ contained).
  Hypothesis Hbufs : forall p, In p (concat bufs) -> pown p = 1.
  Hypothesis Hhalos : forall p, In p (concat halos) -> pown p = 2.
  Hypothesis Hlen : length bufs = length halos.
  Variable around : Z -> Particle -> list Particle.
  Hypothesis Haround : forall p b, In p (concat bufs ++ concat halos) -> (b = 1 \/ b = 3) ->
     inRegion b (low rndExact cutoff p) (high rndExact cutoff p) = Some (around b p) /\ NoDup (around b p) /\
     forall q, In q (around b p) <-> In q contained /\ wantedb b (pown q) = true /\ inCube cutoff (ppos p) (ppos q).
  Hypothesis Hvalid : forall q, In q contained -> validState (pown q).

  Let callsOf (p : Particle) : list Call := flat_map (fun p2 =>
        if newton3 then [AoSFunctor p p2 true]
        else AoSFunctor p p2 false :: (if negb (isHaloP p2) then [AoSFunctor p2 p false] else [])) (around bhOwnedOrHalo p).
  Let haloCallsOf (p : Particle) : list Call := map (fun p2 => AoSFunctor p2 p newton3) (around bhOwned p).

  Lemma all_inv : NoDup (concat bufs) /\ NoDup (concat halos) /\ (forall x, In x (concat bufs) -> In x (concat halos) -> False) /\
    (forall x, In x (concat bufs) -> In x contained -> False) /\ (forall x, In x (concat halos) -> In x contained -> False).
  Proof.
    apply NoDup_app_inv in Hall as (A & B & C). apply NoDup_app_inv in B as (B1 & B2 & B3). split; [exact A|]. split; [exact B1|].
    split; [intros x H1 H2; apply (C x H1), in_or_app; left; exact H2|]. split; [intros x H1 H2; apply (C x H1), in_or_app; right; exact H2|exact B3].
  Qed.

  Lemma bufferContainer_calls : exists calls, bufferContainer rndExact newton3 cutoff inRegion bufs halos = Some calls /\
    calls = flat_map (fun id => flat_map callsOf (nth id bufs []) ++ flat_map haloCallsOf (nth id halos [])) (seq 0 (length bufs)).
  Proof.
    eexists. split; [|reflexivity]. unfold bufferContainer. apply flatM_some. intros id Hid. apply in_seq in Hid.
    rewrite (nth_error_nth' bufs []) by lia. rewrite (nth_error_nth' halos []) by lia.
    rewrite (flatM_some (bufferParticle rndExact newton3 cutoff inRegion) callsOf), (flatM_some (haloBufferParticle rndExact newton3 cutoff inRegion) haloCallsOf); [reflexivity| |].
    - intros p Hp. unfold haloBufferParticle. destruct (Haround p bhOwned) as (E & _); [|left; reflexivity|rewrite E; reflexivity].
      apply in_or_app. right. eapply in_nth_concat; eassumption.
    - intros p Hp. unfold bufferParticle. destruct (Haround p bhOwnedOrHalo) as (E & _); [|right; reflexivity|rewrite E; reflexivity].
      apply in_or_app. left. eapply in_nth_concat; eassumption.
  Qed.

  Let near (p : Particle) : list (Particle * Particle) := flat_map (fun q => (p, q) :: (if newton3 || negb (isHaloP q) then [(q, p)] else [])) (around bhOwnedOrHalo p).
  Let nearHalo (p : Particle) : list (Particle * Particle) := flat_map (fun q => (q, p) :: (if newton3 then [(p, q)] else [])) (around bhOwned p).

  Lemma callsOf_forces p : flat_map forces (callsOf p) = near p.
  Proof.
    unfold callsOf, near. induction (around bhOwnedOrHalo p) as [|q r IH]; [reflexivity|]. cbn [flat_map]. rewrite flat_map_app, IH. f_equal.
    destruct newton3; [reflexivity|]. cbn [orb]. destruct (negb (isHaloP q)); reflexivity.
  Qed.
  Lemma haloCallsOf_forces p : flat_map forces (haloCallsOf p) = nearHalo p.
  Proof.
    unfold haloCallsOf, nearHalo. induction (around bhOwned p) as [|q r IH]; [reflexivity|]. cbn [map flat_map]. rewrite IH. reflexivity.
  Qed.

  Lemma near_in p t s : In p (concat bufs) -> In (t, s) (near p) <->
    (t = p /\ In s contained /\ wantedb 3 (pown s) = true /\ inCube cutoff (ppos p) (ppos s)) \/
    (s = p /\ In t contained /\ wantedb 3 (pown t) = true /\ inCube cutoff (ppos p) (ppos t) /\ (newton3 = true \/ pown t <> 2)).
  Proof.
    intros Hp. destruct (Haround p 3) as (_ & _ & Q); [apply in_or_app; left; exact Hp|right; reflexivity|].
    unfold near. rewrite in_flat_map. change bhOwnedOrHalo with 3. split.
    - intros (q & Hq & H). apply Q in Hq. destruct H as [H|H]; [injection H as <- <-; left; tauto|].
      right. destruct (newton3 || negb (isHaloP q)) eqn:D; [|destruct H]. destruct H as [H|[]]. injection H as <- <-. repeat (split; [tauto|]).
      apply orb_true_iff in D as [D|D]; [left; exact D|right]. unfold isHaloP, stHalo in D. lia.
    - intros [(-> & H)|(-> & H1 & H2 & H3 & H4)].
      + exists s. split; [apply Q; exact H|left; reflexivity].
      + exists t. split; [apply Q; auto|]. right. assert (D : newton3 || negb (isHaloP t) = true).
        { apply orb_true_iff. destruct H4 as [H4|H4]; [left; exact H4|right]. unfold isHaloP, stHalo. lia. }
        rewrite D. left. reflexivity.
  Qed.
  Lemma nearHalo_in p t s : In p (concat halos) -> In (t, s) (nearHalo p) <->
    (s = p /\ In t contained /\ wantedb 1 (pown t) = true /\ inCube cutoff (ppos p) (ppos t)) \/
    (t = p /\ In s contained /\ wantedb 1 (pown s) = true /\ inCube cutoff (ppos p) (ppos s) /\ newton3 = true).
  Proof.
    intros Hp. destruct (Haround p 1) as (_ & _ & Q); [apply in_or_app; right; exact Hp|left; reflexivity|].
    unfold nearHalo. rewrite in_flat_map. change bhOwned with 1. split.
    - intros (q & Hq & H). apply Q in Hq. destruct H as [H|H]; [injection H as <- <-; left; tauto|].
      right. destruct newton3 eqn:D; [|destruct H]. destruct H as [H|[]]. injection H as <- <-. tauto.
    - intros [(-> & H)|(-> & H1 & H2 & H3 & H4)].
      + exists t. split; [apply Q; exact H|left; reflexivity].
      + exists s. split; [apply Q; auto|]. right. rewrite H4. left. reflexivity.
  Qed.

  Lemma two_nodup {A} (a b : A) c : a <> b -> NoDup (a :: if c : bool then [b] else []).
  Proof. intros H. destruct c; repeat constructor; cbn; intuition. Qed.

  Lemma near_nodup p : In p (concat bufs) -> NoDup (near p).
  Proof.
    intros Hp. destruct (Haround p 3) as (_ & Nq & Q); [apply in_or_app; left; exact Hp|right; reflexivity|].
    destruct all_inv as (_ & _ & _ & D & _).
    assert (K : forall q, In q (around 3 p) -> q <> p) by (intros q Hq ->; apply Q in Hq as (Hq & _); exact (D p Hp Hq)).
    unfold near. change bhOwnedOrHalo with 3. apply NoDup_flat_map'; [exact Nq| |].
    - intros q Hq. apply two_nodup. intros E. injection E as E _. exact (K q Hq (eq_sym E)).
    - intros q r (t, s) Hq Hr H1 H2. pose proof (K q Hq) as Kq. pose proof (K r Hr) as Kr.
      assert (G : forall u, In (t, s) ((p, u) :: (if newton3 || negb (isHaloP u) then [(u, p)] else [])) -> (t = p /\ s = u) \/ (t = u /\ s = p)).
      { intros u [H|H]; [injection H as <- <-; auto|]. destruct (newton3 || negb (isHaloP u)); [|destruct H]. destruct H as [H|[]]. injection H as <- <-. auto. }
      destruct (G q H1) as [(A & B)|(A & B)], (G r H2) as [(C & E)|(C & E)]; congruence.
  Qed.
  Lemma nearHalo_nodup p : In p (concat halos) -> NoDup (nearHalo p).
  Proof.
    intros Hp. destruct (Haround p 1) as (_ & Nq & Q); [apply in_or_app; right; exact Hp|left; reflexivity|].
    destruct all_inv as (_ & _ & _ & _ & D).
    assert (K : forall q, In q (around 1 p) -> q <> p) by (intros q Hq ->; apply Q in Hq as (Hq & _); exact (D p Hp Hq)).
    unfold nearHalo. change bhOwned with 1. apply NoDup_flat_map'; [exact Nq| |].
    - intros q Hq. apply two_nodup. intros E. injection E as E _. exact (K q Hq E).
    - intros q r (t, s) Hq Hr H1 H2. pose proof (K q Hq) as Kq. pose proof (K r Hr) as Kr.
      assert (G : forall u, In (t, s) ((u, p) :: (if newton3 then [(p, u)] else [])) -> (t = p /\ s = u) \/ (t = u /\ s = p)).
      { intros u [H|H]; [injection H as <- <-; auto|]. destruct newton3; [|destruct H]. destruct H as [H|[]]. injection H as <- <-. auto. }
      destruct (G q H1) as [(A & B)|(A & B)], (G r H2) as [(C & E)|(C & E)]; congruence.
  Qed.

  Lemma bufferContainer_forces : exists calls, bufferContainer rndExact newton3 cutoff inRegion bufs halos = Some calls /\
    Permutation (flat_map forces calls) (flat_map near (concat bufs) ++ flat_map nearHalo (concat halos)).
  Proof.
    destruct bufferContainer_calls as (calls & E & ->). eexists. split; [exact E|]. clear E.
    rewrite !flat_map_concat_map. rewrite <- !flat_map_concat_map.
    assert (E1 : forall l : list (list Particle), flat_map near (concat l) = flat_map (flat_map near) l) by (induction l as [|a r IH]; [reflexivity|]; cbn; rewrite flat_map_app, IH; reflexivity).
    assert (E2 : forall l : list (list Particle), flat_map nearHalo (concat l) = flat_map (flat_map nearHalo) l) by (induction l as [|a r IH]; [reflexivity|]; cbn; rewrite flat_map_app, IH; reflexivity).
    rewrite E1, E2, (IteratorInstances.flat_map_seq (flat_map near) bufs), (IteratorInstances.flat_map_seq (flat_map nearHalo) halos), <- Hlen.
    generalize (seq 0 (length bufs)) as l. clear E1 E2.
    assert (C1 : forall l, flat_map forces (flat_map callsOf l) = flat_map near l).
    { induction l as [|a r IH]; [reflexivity|]. cbn. rewrite flat_map_app, IH, callsOf_forces. reflexivity. }
    assert (C2 : forall l, flat_map forces (flat_map haloCallsOf l) = flat_map nearHalo l).
    { induction l as [|a r IH]; [reflexivity|]. cbn [flat_map]. rewrite flat_map_app, IH, haloCallsOf_forces. reflexivity. }
    induction l as [|i r IH]; [reflexivity|]. cbn [flat_map]. rewrite !flat_map_app, C1, C2, IH. rewrite <- !app_assoc. apply Permutation_app_head.
    rewrite !app_assoc. apply Permutation_app_tail, Permutation_app_comm.
  Qed.

  (** All forces of the remainder traversal without balancing. *)
  Theorem remainder_forces : exists calls, bufferContainer rndExact newton3 cutoff inRegion bufs halos = Some calls /\
    let all := flat_map forces (calls ++ bufferBuffer bufs ++ bufferHaloBuffer bufs halos) in
    NoDup all /\
    forall t s, pown t = 1 -> In (t, s) all <->
      t <> s /\
      ((In t (concat bufs) /\ (In s (concat bufs) \/ In s (concat halos))) \/
       (In t (concat bufs) /\ In s contained /\ pown s <> 0 /\ inCube cutoff (ppos t) (ppos s)) \/
       (In t contained /\ (In s (concat bufs) \/ In s (concat halos)) /\ inCube cutoff (ppos s) (ppos t))).
  Proof.
    destruct bufferContainer_forces as (calls & E & P). exists calls. split; [exact E|]. cbv zeta. rewrite !flat_map_app.
    destruct all_inv as (NB & NH & D1 & D2 & D3).
    assert (I : forall t s, In (t, s) (flat_map forces calls) <-> exists p, (In p (concat bufs) /\ In (t, s) (near p)) \/ (In p (concat halos) /\ In (t, s) (nearHalo p))).
    { intros t s. split.
      - intros H. apply (Permutation_in _ P) in H. apply in_app_or in H as [H|H]; apply in_flat_map in H as (p & Hp & H); exists p; auto.
      - intros (p & [(A & B)|(A & B)]); apply (Permutation_in _ (Permutation_sym P)), in_or_app; [left|right]; apply in_flat_map; eauto. }
    assert (NC : NoDup (flat_map forces calls)).
    { apply (Permutation_NoDup (Permutation_sym P)). apply NoDup_app_intro.
      - apply NoDup_flat_map'; [exact NB|apply near_nodup|]. intros p q (t, s) Hp Hq H1 H2. apply near_in in H1; auto. apply near_in in H2; auto.
        destruct H1 as [(A & B & _)|(A & B & _)], H2 as [(C & F & _)|(C & F & _)]; subst; auto; exfalso; eauto.
      - apply NoDup_flat_map'; [exact NH|apply nearHalo_nodup|]. intros p q (t, s) Hp Hq H1 H2. apply nearHalo_in in H1; auto. apply nearHalo_in in H2; auto.
        destruct H1 as [(A & B & _)|(A & B & _)], H2 as [(C & F & _)|(C & F & _)]; subst; auto; exfalso; eauto.
      - intros (t, s) H1 H2. apply in_flat_map in H1 as (p & Hp & H1). apply in_flat_map in H2 as (q & Hq & H2). apply near_in in H1; auto. apply nearHalo_in in H2; auto.
        destruct H1 as [(A & B & _)|(A & B & _)], H2 as [(C & F & _)|(C & F & _)]; subst; eauto. }
    assert (IC : forall t s, In (t, s) (flat_map forces calls) -> (In t contained /\ (In s (concat bufs) \/ In s (concat halos))) \/ (In s contained /\ (In t (concat bufs) \/ In t (concat halos)))).
    { intros t s H. apply I in H as (p & [(Hp & H)|(Hp & H)]).
      - apply near_in in H; auto. destruct H as [(-> & A & _)|(-> & A & _)]; auto.
      - apply nearHalo_in in H; auto. destruct H as [(-> & A & _)|(-> & A & _)]; auto. }
    split.
    - apply NoDup_app_intro; [exact NC|apply NoDup_app_intro|].
      + apply bufferBuffer_nodup. exact NB.
      + apply bufferHalo_nodup; assumption.
      + intros (t, s) H1 H2. apply bufferBuffer_in in H1 as (A & B & _); auto. apply bufferHalo_in in H2 as (A' & B'); auto. eauto.
      + intros (t, s) H1 H2. apply IC in H1. apply in_app_or in H2 as [H2|H2].
        * apply bufferBuffer_in in H2 as (A & B & _); auto. destruct H1 as [(H1 & _)|(H1 & _)]; eauto.
        * apply bufferHalo_in in H2 as (A & B); auto. destruct H1 as [(H1 & _)|(H1 & _)]; eauto.
    - intros t s Ht.
      assert (W3 : forall q, In q contained -> pown q <> 0 -> wantedb 3 (pown q) = true).
      { intros q Hq H. destruct (Hvalid q Hq) as [V|[V|V]]; rewrite V; try reflexivity. contradiction. }
      assert (W3' : forall q, wantedb 3 (pown q) = true -> pown q <> 0) by (intros q H H0; rewrite H0 in H; discriminate).
      assert (W1 : wantedb 3 (pown t) = true /\ wantedb 1 (pown t) = true) by (rewrite Ht; split; reflexivity).
      assert (Nt : pown t <> 2) by (rewrite Ht; discriminate).
      rewrite !in_app_iff, I, bufferBuffer_in, bufferHalo_in by auto. split.
      + intros [(p & [(Hp & H)|(Hp & H)])|[H|H]].
        * apply near_in in H; auto. destruct H as [(-> & A & B & C)|(-> & A & B & C & _)].
          -- split; [intros ->; eauto|]. right. left. auto.
          -- split; [intros ->; eauto|]. right. right. auto.
        * apply nearHalo_in in H; auto. destruct H as [(-> & A & B & C)|(-> & _)].
          -- split; [intros ->; eauto|]. right. right. auto.
          -- rewrite (Hhalos p Hp) in Ht. discriminate.
        * split; [apply H|]. left. tauto.
        * split; [intros ->; destruct H; eauto|]. left. tauto.
      + intros (N & [(A & [B|B])|[(A & B & C & F)|(A & [B|B] & F)]]).
        * right. left. auto.
        * right. right. auto.
        * left. exists t. left. split; [exact A|]. apply near_in; [exact A|]. left. split; [reflexivity|]. split; [exact B|]. split; [apply W3; assumption|exact F].
        * left. exists s. left. split; [exact B|]. apply near_in; [exact B|]. right. split; [reflexivity|]. split; [exact A|]. split; [apply W1|]. split; [exact F|]. right. exact Nt.
        * left. exists s. right. split; [exact B|]. apply nearHalo_in; [exact B|]. left. split; [reflexivity|]. split; [exact A|]. split; [apply W1|exact F].
  Qed.
End Container.

(** With balancing. *)
Theorem remainder2B_correct newton3 cutoff inRegion contained bufs halos around numLocks :
  NoDup (concat bufs ++ concat halos ++ contained) ->
  (forall p, In p (concat bufs) -> pown p = 1) -> (forall p, In p (concat halos) -> pown p = 2) ->
  length bufs = length halos -> (length bufs <= numLocks)%nat ->
  (forall p b, In p (concat bufs ++ concat halos) -> (b = 1 \/ b = 3) ->
     inRegion b (low rndExact cutoff p) (high rndExact cutoff p) = Some (around b p) /\ NoDup (around b p) /\
     forall q, In q (around b p) <-> In q contained /\ wantedb b (pown q) = true /\ inCube cutoff (ppos p) (ppos q)) ->
  (forall q, In q contained -> validState (pown q)) ->
  exists calls, remainder2B rndExact newton3 cutoff inRegion numLocks bufs halos = Some calls /\
    NoDup (flat_map forces calls) /\
    forall t s, pown t = 1 -> In (t, s) (flat_map forces calls) <->
      t <> s /\
      ((In t (concat bufs) /\ (In s (concat bufs) \/ In s (concat halos))) \/
       (In t (concat bufs) /\ In s contained /\ pown s <> 0 /\ inCube cutoff (ppos t) (ppos s)) \/
       (In t contained /\ (In s (concat bufs) \/ In s (concat halos)) /\ inCube cutoff (ppos s) (ppos t))).
Proof.
  intros Hall Hb Hh Hl Hlocks Har Hv. unfold remainder2B. destruct (Nat.ltb_spec numLocks (length bufs)) as [X|_]; [lia|].
  destruct (balance_correct bufs 1 (le_n 1)) as (bufs' & E1 & P1 & L1 & _). destruct (balance_correct halos 1 (le_n 1)) as (halos' & E2 & P2 & L2 & _).
  rewrite E1, E2.
  assert (I1 : forall x, In x (concat bufs') <-> In x (concat bufs)) by (intros x; split; apply Permutation_in; [symmetry|]; exact P1).
  assert (I2 : forall x, In x (concat halos') <-> In x (concat halos)) by (intros x; split; apply Permutation_in; [symmetry|]; exact P2).
  destruct (remainder_forces newton3 cutoff inRegion contained bufs' halos') with (around := around) as (calls & E & Q); auto.
  - apply (Permutation_NoDup (l := concat bufs ++ concat halos ++ contained)); [|exact Hall]. rewrite P1, P2. reflexivity.
  - intros p Hp. apply Hb, I1, Hp.
  - intros p Hp. apply Hh, I2, Hp.
  - congruence.
  - intros p b Hp. apply Har. apply in_or_app. apply in_app_or in Hp as [Hp|Hp]; [left; apply I1|right; apply I2]; exact Hp.
  - rewrite E. eexists. split; [reflexivity|]. cbv zeta in Q. destruct Q as (Q1 & Q2). split; [exact Q1|]. intros t s Ht. rewrite (Q2 t s Ht), !I1, !I2. reflexivity.
Qed.

(** Particles closer than the cutoff are in the cube. *)
Lemma closer_inCube cutoff a b : (0 <= cutoff)%R -> closer cutoff a b -> inCube cutoff a b /\ inCube cutoff b a.
Proof.
  intros Hc H. unfold closer, inCube in *.
  assert (G : forall u, (u * u < cutoff * cutoff -> - cutoff < u < cutoff)%R) by (intros u Hu; split; nra).
  pose proof (Rle_0_sqr (rx a - rx b)) as X. pose proof (Rle_0_sqr (ry a - ry b)) as Y. pose proof (Rle_0_sqr (rz a - rz b)) as Z. unfold Rsqr in *.
  assert (GX := G (rx a - rx b)%R ltac:(lra)). assert (GY := G (ry a - ry b)%R ltac:(lra)). assert (GZ := G (rz a - rz b)%R ltac:(lra)). lra.
Qed.
