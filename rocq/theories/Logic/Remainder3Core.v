(** The remainder traversal for triplets: which triplets it handles how often. *)
From Coq Require Import Reals.
From Verif.Base Require Import ZRange Occ Lists OptionM.
From Verif.Functor Require Import CellFunctorModel CellFunctor3BModel SortModel.
From Verif.Container Require Import IteratorModel ParticleModel.
From Verif.Logic Require Import HandlerModel RemainderModel Remainder3Model.
Import ListNotations.
Local Open Scope nat_scope.

Definition particle_dec (p q : Particle) : {p = q} + {p <> q}.
Proof.
  destruct p as [i1 [x1 y1 z1] o1 d1], q as [i2 [x2 y2 z2] o2 d2].
  destruct (Z.eq_dec i1 i2); [|right; congruence]. destruct (Z.eq_dec o1 o2); [|right; congruence]. destruct (Z.eq_dec d1 d2); [|right; congruence].
  destruct (Req_EM_T x1 x2); [|right; congruence]. destruct (Req_EM_T y1 y2); [|right; congruence]. destruct (Req_EM_T z1 z2); [|right; congruence]. left; congruence.
Defined.
Definition peq (p q : Particle) : bool := if particle_dec p q then true else false.
Lemma peq_iff p q : peq p q = true <-> p = q.
Proof. unfold peq. destruct (particle_dec p q); split; congruence. Qed.
Lemma peq_spec p q : reflect (p = q) (peq p q).
Proof. unfold peq. destruct (particle_dec p q); constructor; assumption. Qed.

(** The target is [p], the sources are [q] and [r]. *)
Definition isTriple (p q r : Particle) (x : Particle * (Particle * Particle)) : bool :=
  peq (fst x) p && ((peq (fst (snd x)) q && peq (snd (snd x)) r) || (peq (fst (snd x)) r && peq (snd (snd x)) q)).
Lemma isTriple_iff p q r x : isTriple p q r x = true <-> x = (p, (q, r)) \/ x = (p, (r, q)).
Proof.
  destruct x as (t, (u, v)). unfold isTriple. cbn [fst snd]. rewrite andb_true_iff, orb_true_iff, !andb_true_iff, !peq_iff. split.
  - intros (-> & [(-> & ->)|(-> & ->)]); auto.
  - intros [[= -> -> ->]|[= -> -> ->]]; auto.
Qed.
Lemma isTriple_fst p q r x : isTriple p q r x = true -> fst x = p.
Proof. intros H. apply isTriple_iff in H as [-> | ->]; reflexivity. Qed.
Lemma isTriple_sym p q r x : isTriple p q r x = isTriple p r q x.
Proof. unfold isTriple. rewrite orb_comm. reflexivity. Qed.
Lemma occ_triple_sym p q r l : occ (isTriple p q r) l = occ (isTriple p r q) l.
Proof. apply occ_ext. intros x _. apply isTriple_sym. Qed.

Definition isPairOf (u v : Particle) (x : Particle * Particle) : bool := (peq (fst x) u && peq (snd x) v) || (peq (fst x) v && peq (snd x) u).
Lemma isPairOf_iff u v x : isPairOf u v x = true <-> x = (u, v) \/ x = (v, u).
Proof.
  destruct x as (a, b). unfold isPairOf. cbn [fst snd]. rewrite orb_true_iff, !andb_true_iff, !peq_iff. split.
  - intros [(-> & ->)|(-> & ->)]; auto.
  - intros [[= -> ->]|[= -> ->]]; auto.
Qed.

Definition later (l : list Particle) := laterPairs (fun _ r => r) l.
Lemma later_in l x y : In (x, y) (later l) -> In x l /\ In y l.
Proof.
  induction l as [|p l IH]; [intros []|]. unfold later. cbn [laterPairs]. intros H. apply in_app_or in H as [H|H].
  - apply in_map_iff in H as (q & [= <- <-] & Hq). split; [left; reflexivity|right; exact Hq].
  - destruct (IH H). split; right; assumption.
Qed.
Lemma later_ne l x y : NoDup l -> In (x, y) (later l) -> x <> y.
Proof.
  induction l as [|p l IH]; [intros _ []|]. intros N. inversion N as [|? ? N1 N2]; subst. unfold later. cbn [laterPairs]. intros H. apply in_app_or in H as [H|H].
  - apply in_map_iff in H as (q & [= <- <-] & Hq). intros <-. exact (N1 Hq).
  - exact (IH N2 H).
Qed.
Lemma later_once l u v : NoDup l -> In u l -> In v l -> u <> v -> occ (isPairOf u v) (later l) = 1.
Proof.
  induction l as [|p l IH]; [intros _ []|]. intros N Hu Hv Hne. inversion N as [|? ? N1 N2]; subst. unfold later. cbn [laterPairs]. rewrite occ_app, occ_map.
  assert (Q : forall a, In a l -> occ (fun x => isPairOf p a (p, x)) l = 1).
  { intros a Ha. apply occ_one_of_unique with (x := a); [exact N2|exact Ha|apply isPairOf_iff; auto|].
    intros y Hy E. apply isPairOf_iff in E as [[= ->]|[= -> ->]]; reflexivity. }
  assert (Z : forall a b, a = p -> b <> p -> occ (isPairOf a b) (later l) = 0).
  { intros a b -> Hb. apply occ_zero. intros (x, y) Hx. destruct (isPairOf p b (x, y)) eqn:E; [|reflexivity]. exfalso. apply later_in in Hx as (X & Y).
    apply isPairOf_iff in E as [[= -> ->]|[= -> ->]]; contradiction. }
  assert (S : forall a b x, isPairOf a b x = isPairOf b a x) by (intros a b x; unfold isPairOf; apply orb_comm).
  destruct Hu as [->|Hu], Hv as [->|Hv]; [contradiction|..].
  - rewrite Q by exact Hv. unfold later in Z. rewrite Z; auto.
  - rewrite (occ_ext _ (fun x => isPairOf v u (v, x))) by (intros; apply S). rewrite Q by exact Hu.
    rewrite (occ_ext (isPairOf u v) (isPairOf v u)) by (intros; apply S). unfold later in Z. rewrite Z; auto.
  - rewrite occ_zero; [exact (IH N2 Hu Hv Hne)|]. intros x Hx. destruct (isPairOf u v (p, x)) eqn:E; [|reflexivity]. exfalso.
    apply isPairOf_iff in E as [[= -> ->]|[= -> ->]]; contradiction.
Qed.

Lemma occ_flat_map_sum {A B} (f : B -> bool) (g : A -> list B) (h : A -> bool) l :
  (forall x, In x l -> occ f (g x) = if h x then 1 else 0) -> occ f (flat_map g l) = occ h l.
Proof.
  induction l as [|a l IH]; intros H; [reflexivity|]. cbn [flat_map]. rewrite occ_app, occ_cons, IH, H; auto with datatypes.
Qed.
Lemma flat_map_comp {A B C} (f : B -> list C) (g : A -> list B) l : flat_map f (flat_map g l) = flat_map (fun x => flat_map f (g x)) l.
Proof. induction l as [|a l IH]; [reflexivity|]. cbn [flat_map]. rewrite flat_map_app, IH. reflexivity. Qed.

Section Core.
  Variables (newton3 : bool) (B C : list Particle) (numOwned : nat).
  Variables (L L' : nat -> list Particle).
  Notation n := (length B).
  Notation bp := (bp B).
  Hypothesis Hnd : NoDup (B ++ C).
  Hypothesis Hn : numOwned <= n.
  Hypothesis Hown : forall i, i < n -> pown (bp i) = (if i <? numOwned then 1%Z else 2%Z).
  Hypothesis HL : forall i, i < n -> NoDup (L i) /\ forall x, In x (L i) -> In x C.
  Hypothesis HL' : forall i, i < n -> NoDup (L' i) /\ forall x, In x (L' i) -> In x C.

  Lemma ndB : NoDup B.
  Proof. apply NoDup_app_inv in Hnd. apply Hnd. Qed.
  Lemma disj x : In x B -> In x C -> False.
  Proof. apply NoDup_app_inv in Hnd as (_ & _ & D). intros. eapply D; eassumption. Qed.
  Lemma bp_in i : i < n -> In (bp i) B.
  Proof. intros H. apply nth_In, H. Qed.
  Lemma bp_inj i j : i < n -> j < n -> bp i = bp j -> i = j.
  Proof. intros Hi Hj E. exact (proj1 (NoDup_nth B _) ndB i j Hi Hj E). Qed.
  Lemma bp_C i x : i < n -> In x C -> bp i <> x.
  Proof. intros Hi Hx <-. exact (disj _ (bp_in i Hi) Hx). Qed.
  Lemma bp_of p : In p B -> exists i, i < n /\ bp i = p.
  Proof. intros H. apply In_nth with (d := mkParticle 0 (mkR3 0 0 0) stDummy 0) in H as (i & Hi & E). exists i. auto. Qed.

  (** The three parts. *)
  Definition part1 : list (Particle * (Particle * Particle)) :=
    flat_map (fun i => flat_map (fun j => if i =? j then [] else
      flat_map (fun k => if k =? i then [] else [(bp i, (bp j, bp k))]) (seq (j + 1) (n - (j + 1)))) (seq 0 n)) (seq 0 numOwned).
  Definition part2At (i j : nat) (p3 : Particle) : list (Particle * (Particle * Particle)) :=
    (if i <? numOwned then [(bp i, (bp j, p3))] else []) ++ (if negb (isHaloP p3) && (i <? j) then [(p3, (bp i, bp j))] else []).
  Definition part2 : list (Particle * (Particle * Particle)) :=
    flat_map (fun i => flat_map (fun j => if j =? i then [] else flat_map (part2At i j) (L i)) (seq 0 n)) (seq 0 n).
  Definition part3At (i : nat) (x : Particle * Particle) : list (Particle * (Particle * Particle)) :=
    let '(p2, p3) := x in
    if newton3 then [(bp i, (p2, p3)); (p2, (bp i, p3)); (p3, (bp i, p2))]
    else (if i <? numOwned then [(bp i, (p2, p3))] else []) ++ (if isOwned p2 then [(p2, (bp i, p3))] else []) ++ (if isOwned p3 then [(p3, (bp i, p2))] else []).
  Definition part3 : list (Particle * (Particle * Particle)) := flat_map (fun i => flat_map (part3At i) (later (L' i))) (seq 0 n).

  Lemma in_part1 t u v : In (t, (u, v)) part1 -> exists i j k, i < numOwned /\ j < k < n /\ i <> j /\ i <> k /\ t = bp i /\ u = bp j /\ v = bp k.
  Proof.
    unfold part1. intros H. apply in_flat_map in H as (i & Hi & H). apply in_flat_map in H as (j & Hj & H). destruct (Nat.eqb_spec i j) as [|Nij]; [destruct H|].
    apply in_flat_map in H as (k & Hk & H). destruct (Nat.eqb_spec k i) as [|Nki]; [destruct H|]. destruct H as [[= <- <- <-]|[]].
    apply in_seq in Hi, Hj, Hk. exists i, j, k. repeat split; lia || auto.
  Qed.
  Lemma in_part2 t u v : In (t, (u, v)) part2 -> exists i j p3, i < n /\ j < n /\ i <> j /\ In p3 (L i) /\
    (i < numOwned /\ t = bp i /\ u = bp j /\ v = p3 \/ i < j /\ t = p3 /\ u = bp i /\ v = bp j).
  Proof.
    unfold part2. intros H. apply in_flat_map in H as (i & Hi & H). apply in_flat_map in H as (j & Hj & H). destruct (Nat.eqb_spec j i) as [|Nij]; [destruct H|].
    apply in_flat_map in H as (p3 & Hp & H). apply in_seq in Hi, Hj. exists i, j, p3. split; [lia|]. split; [lia|]. split; [auto|]. split; [exact Hp|].
    unfold part2At in H. apply in_app_or in H as [H|H].
    - destruct (Nat.ltb_spec i numOwned) as [Lt|]; [|destruct H]. destruct H as [[= <- <- <-]|[]]. auto.
    - destruct (Nat.ltb_spec i j) as [Lt|]; [|rewrite andb_false_r in H; destruct H]. destruct (negb _); [|destruct H]. destruct H as [[= <- <- <-]|[]]. auto.
  Qed.
  Lemma in_part3 t u v : In (t, (u, v)) part3 -> exists i p2 p3, i < n /\ In (p2, p3) (later (L' i)) /\
    (t = bp i /\ u = p2 /\ v = p3 \/ t = p2 /\ u = bp i /\ v = p3 \/ t = p3 /\ u = bp i /\ v = p2).
  Proof.
    unfold part3. intros H. apply in_flat_map in H as (i & Hi & H). apply in_flat_map in H as ((p2, p3) & Hp & H). apply in_seq in Hi. exists i, p2, p3. split; [lia|]. split; [exact Hp|].
    unfold part3At in H. destruct newton3.
    - destruct H as [[= <- <- <-]|[[= <- <- <-]|[[= <- <- <-]|[]]]]; auto.
    - apply in_app_or in H as [H|H]; [|apply in_app_or in H as [H|H]].
      + destruct (_ <? _); [|destruct H]. destruct H as [[= <- <- <-]|[]]. auto.
      + destruct (isOwned p2); [|destruct H]. destruct H as [[= <- <- <-]|[]]. auto.
      + destruct (isOwned p3); [|destruct H]. destruct H as [[= <- <- <-]|[]]. auto.
  Qed.

  (** How many of the three are in buffers. *)
  Definition inB (p : Particle) : nat := if existsb (peq p) B then 1 else 0.
  Definition buffered (x : Particle * (Particle * Particle)) : nat := inB (fst x) + inB (fst (snd x)) + inB (snd (snd x)).
  Lemma inB_one p : In p B -> inB p = 1.
  Proof. intros H. unfold inB. replace (existsb (peq p) B) with true; [reflexivity|]. symmetry. apply existsb_exists. exists p. split; [exact H|apply peq_iff; reflexivity]. Qed.
  Lemma inB_zero p : In p C -> inB p = 0.
  Proof. intros H. unfold inB. destruct (existsb (peq p) B) eqn:E; [|reflexivity]. exfalso. apply existsb_exists in E as (q & Hq & E). apply peq_iff in E. subst q. exact (disj p Hq H). Qed.
  Lemma buffered_triple p q r x : isTriple p q r x = true -> buffered x = buffered (p, (q, r)).
  Proof. intros H. apply isTriple_iff in H as [-> | ->]; [reflexivity|]. unfold buffered. cbn [fst snd]. lia. Qed.

  Lemma part1_buffered x : In x part1 -> buffered x = 3.
  Proof.
    destruct x as (t, (u, v)). intros H. apply in_part1 in H as (i & j & k & Hi & Hj & _ & _ & -> & -> & ->). unfold buffered. cbn [fst snd].
    rewrite !inB_one by (apply bp_in; lia). reflexivity.
  Qed.
  Lemma part2_buffered x : In x part2 -> buffered x = 2.
  Proof.
    destruct x as (t, (u, v)). intros H. apply in_part2 in H as (i & j & p3 & Hi & Hj & _ & Hp & H). apply (proj2 (HL i Hi)) in Hp. unfold buffered. cbn [fst snd].
    destruct H as [(_ & -> & -> & ->)|(_ & -> & -> & ->)]; rewrite (inB_zero p3 Hp), !inB_one by (apply bp_in; lia); reflexivity.
  Qed.
  Lemma part3_buffered x : In x part3 -> buffered x = 1.
  Proof.
    destruct x as (t, (u, v)). intros H. apply in_part3 in H as (i & p2 & p3 & Hi & Hp & H). apply later_in in Hp as (X & Y). apply (proj2 (HL' i Hi)) in X, Y. unfold buffered. cbn [fst snd].
    destruct H as [(-> & -> & ->)|[(-> & -> & ->)|(-> & -> & ->)]]; rewrite (inB_zero p2 X), (inB_zero p3 Y), inB_one by (apply bp_in; lia); reflexivity.
  Qed.
  Lemma part_zero p q r m l : (forall x, In x l -> buffered x = m) -> buffered (p, (q, r)) <> m -> occ (isTriple p q r) l = 0.
  Proof.
    intros H Hne. apply occ_zero. intros x Hx. destruct (isTriple p q r x) eqn:E; [|reflexivity]. exfalso. apply buffered_triple in E. rewrite (H x Hx) in E. congruence.
  Qed.

  (** No particle twice in one call. *)
  Lemma parts_distinct t u v : In (t, (u, v)) (part1 ++ part2 ++ part3) -> t <> u /\ t <> v /\ u <> v.
  Proof.
    intros H. apply in_app_or in H as [H|H]; [|apply in_app_or in H as [H|H]].
    - apply in_part1 in H as (i & j & k & Hi & Hj & N1 & N2 & -> & -> & ->).
      repeat split; intros E; apply bp_inj in E; lia.
    - apply in_part2 in H as (i & j & p3 & Hi & Hj & N & Hp & H). apply (proj2 (HL i Hi)) in Hp. assert (X := bp_C i p3 Hi Hp). assert (Y := bp_C j p3 Hj Hp).
      assert (Z : bp i <> bp j) by (intros E; apply bp_inj in E; lia). destruct H as [(_ & -> & -> & ->)|(_ & -> & -> & ->)]; auto.
    - apply in_part3 in H as (i & p2 & p3 & Hi & Hp & H). assert (N := later_ne _ _ _ (proj1 (HL' i Hi)) Hp). apply later_in in Hp as (X & Y). apply (proj2 (HL' i Hi)) in X, Y.
      apply (bp_C i _ Hi) in X, Y. destruct H as [(-> & -> & ->)|[(-> & -> & ->)|(-> & -> & ->)]]; auto.
  Qed.

  Lemma parts_in t u v : In (t, (u, v)) (part1 ++ part2 ++ part3) -> In t (B ++ C) /\ In u (B ++ C) /\ In v (B ++ C).
  Proof.
    assert (XB : forall i, i < n -> In (bp i) (B ++ C)) by (intros i Hi; apply in_or_app; left; apply bp_in, Hi).
    assert (XC : forall x, In x C -> In x (B ++ C)) by (intros x Hx; apply in_or_app; right; exact Hx).
    intros H. apply in_app_or in H as [H|H]; [|apply in_app_or in H as [H|H]].
    - apply in_part1 in H as (i & j & k & Hi & Hj & _ & _ & -> & -> & ->). repeat split; apply XB; lia.
    - apply in_part2 in H as (i & j & p3 & Hi & Hj & _ & Hp & H). apply (proj2 (HL i Hi)) in Hp. destruct H as [(_ & -> & -> & ->)|(_ & -> & -> & ->)]; auto.
    - apply in_part3 in H as (i & p2 & p3 & Hi & Hp & H). apply later_in in Hp as (X & Y). apply (proj2 (HL' i Hi)) in X, Y.
      destruct H as [(-> & -> & ->)|[(-> & -> & ->)|(-> & -> & ->)]]; auto.
  Qed.

  (** Three buffered particles. *)
  Lemma part1_once a b c : a < numOwned -> b < c < n -> a <> b -> a <> c -> occ (isTriple (bp a) (bp b) (bp c)) part1 = 1.
  Proof.
    intros Ha Hbc N1 N2. unfold part1.
    rewrite (occ_flat_map_unique _ _ _ a); [|apply seq_NoDup|apply in_seq; lia|].
    2: { intros i Hi Ne. apply in_seq in Hi. apply occ_zero. intros x Hx. apply in_flat_map in Hx as (j & Hj & Hx). destruct (i =? j); [destruct Hx|].
         apply in_flat_map in Hx as (k & Hk & Hx). destruct (k =? i); [destruct Hx|]. destruct Hx as [<-|[]]. destruct (isTriple _ _ _ _) eqn:E; [|reflexivity]. exfalso.
         apply isTriple_fst in E; cbn [fst] in E; apply bp_inj in E; lia. }
    rewrite (occ_flat_map_unique _ _ _ b); [|apply seq_NoDup|apply in_seq; lia|].
    2: { intros j Hj Ne. apply in_seq in Hj. destruct (Nat.eqb_spec a j); [reflexivity|]. apply occ_zero. intros x Hx.
         apply in_flat_map in Hx as (k & Hk & Hx). apply in_seq in Hk. destruct (k =? a); [destruct Hx|]. destruct Hx as [<-|[]]. destruct (isTriple _ _ _ _) eqn:E; [|reflexivity]. exfalso.
         apply isTriple_iff in E as [[= E E']|[= E E']]; apply bp_inj in E, E'; lia. }
    destruct (Nat.eqb_spec a b); [contradiction|].
    rewrite (occ_flat_map_unique _ _ _ c); [|apply seq_NoDup|apply in_seq; lia|].
    2: { intros k Hk Ne. apply in_seq in Hk. destruct (Nat.eqb_spec k a); [reflexivity|]. apply occ_zero. intros x [<-|[]]. destruct (isTriple _ _ _ _) eqn:E; [|reflexivity]. exfalso.
         apply isTriple_iff in E as [[= E]|[= E E']]; [apply bp_inj in E; lia|apply bp_inj in E, E'; lia]. }
    destruct (Nat.eqb_spec c a); [congruence|]. rewrite occ_cons, occ_nil. replace (isTriple _ _ _ _) with true; [reflexivity|]. symmetry. apply isTriple_iff. auto.
  Qed.

  (** Two buffered particles, the target is buffered. *)
  Lemma part2_once_buffered a b r : a < numOwned -> b < n -> a <> b -> In r (L a) -> occ (isTriple (bp a) (bp b) r) part2 = 1.
  Proof.
    intros Ha Hb Ne Hr. assert (Han : a < n) by lia. destruct (HL a Han) as (NdL & Sub). assert (HrC := Sub r Hr).
    assert (In2 : forall i j p3, i < n -> j < n -> i <> j -> In p3 C -> forall x, In x (part2At i j p3) -> isTriple (bp a) (bp b) r x = true -> i = a /\ j = b /\ p3 = r).
    { intros i j p3 Hi Hj Nij Hp x Hx E. unfold part2At in Hx. apply in_app_or in Hx as [Hx|Hx].
      - destruct (_ <? _); [|destruct Hx]. destruct Hx as [<-|[]]. apply isTriple_iff in E as [[= E1 E2 E3]|[= E1 E2 E3]].
        + apply bp_inj in E1, E2; auto.
        + exfalso. exact (bp_C j r Hj HrC E2).
      - destruct (_ && _); [|destruct Hx]. destruct Hx as [<-|[]]. exfalso. apply isTriple_fst in E; rename E into E1; cbn [fst] in E1; exact (bp_C a p3 Han Hp (eq_sym E1)). }
    unfold part2. rewrite (occ_flat_map_unique _ _ _ a); [|apply seq_NoDup|apply in_seq; lia|].
    2: { intros i Hi Nia. apply in_seq in Hi. apply occ_zero. intros x Hx. apply in_flat_map in Hx as (j & Hj & Hx). apply in_seq in Hj. destruct (Nat.eqb_spec j i); [destruct Hx|].
         apply in_flat_map in Hx as (p3 & Hp & Hx). destruct (isTriple _ _ _ _) eqn:E; [|reflexivity]. exfalso. apply (In2 i j p3) in E; auto; try lia. apply (HL i); [lia|exact Hp]. }
    rewrite (occ_flat_map_unique _ _ _ b); [|apply seq_NoDup|apply in_seq; lia|].
    2: { intros j Hj Njb. apply in_seq in Hj. destruct (Nat.eqb_spec j a); [reflexivity|]. apply occ_zero. intros x Hx.
         apply in_flat_map in Hx as (p3 & Hp & Hx). destruct (isTriple _ _ _ _) eqn:E; [|reflexivity]. exfalso. apply (In2 a j p3) in E; auto; lia. }
    destruct (Nat.eqb_spec b a); [congruence|].
    rewrite (occ_flat_map_unique _ _ _ r); [|exact NdL|exact Hr|].
    2: { intros p3 Hp Np. apply occ_zero. intros x Hx. destruct (isTriple _ _ _ _) eqn:E; [|reflexivity]. exfalso. apply (In2 a b p3) in E; auto. destruct E as (_ & _ & E). contradiction. }
    unfold part2At. destruct (Nat.ltb_spec a numOwned); [|lia]. cbn [app]. rewrite occ_cons. replace (isTriple _ _ _ _) with true by (symmetry; apply isTriple_iff; auto).
    rewrite occ_zero; [reflexivity|]. intros x Hx. destruct (_ && _); [|destruct Hx]. destruct Hx as [<-|[]]. destruct (isTriple _ _ _ _) eqn:E; [|reflexivity]. exfalso.
    apply isTriple_fst in E; rename E into E1; cbn [fst] in E1; exact (bp_C a r Han HrC (eq_sym E1)).
  Qed.

  (** Two buffered particles, the target is in the container. *)
  Lemma part2_once_contained p b c : pown p = 1%Z -> b < c < n -> In p (L b) -> occ (isTriple p (bp b) (bp c)) part2 = 1.
  Proof.
    intros Op Hbc Hp. assert (Hbn : b < n) by lia. assert (Hcn : c < n) by lia. destruct (HL b Hbn) as (NdL & Sub). assert (HpC := Sub p Hp).
    assert (In2 : forall i j p3, i < n -> j < n -> In p3 C -> forall x, In x (part2At i j p3) -> isTriple p (bp b) (bp c) x = true -> i = b /\ j = c /\ p3 = p).
    { intros i j p3 Hi Hj Hp3 x Hx E. unfold part2At in Hx. apply in_app_or in Hx as [Hx|Hx].
      - destruct (_ <? _); [|destruct Hx]. destruct Hx as [<-|[]]. exfalso. apply isTriple_fst in E; rename E into E1; cbn [fst] in E1; exact (bp_C i p Hi HpC E1).
      - destruct (Nat.ltb_spec i j) as [Lt|]; [|rewrite andb_false_r in Hx; destruct Hx]. destruct (negb _); [|destruct Hx]. destruct Hx as [<-|[]].
        apply isTriple_iff in E as [[= E1 E2 E3]|[= E1 E2 E3]]; apply bp_inj in E2, E3; auto; lia. }
    unfold part2. rewrite (occ_flat_map_unique _ _ _ b); [|apply seq_NoDup|apply in_seq; lia|].
    2: { intros i Hi Nib. apply in_seq in Hi. apply occ_zero. intros x Hx. apply in_flat_map in Hx as (j & Hj & Hx). apply in_seq in Hj. destruct (Nat.eqb_spec j i); [destruct Hx|].
         apply in_flat_map in Hx as (p3 & Hp3 & Hx). destruct (isTriple _ _ _ _) eqn:E; [|reflexivity]. exfalso. apply (In2 i j p3) in E; auto; try lia. apply (HL i); [lia|exact Hp3]. }
    rewrite (occ_flat_map_unique _ _ _ c); [|apply seq_NoDup|apply in_seq; lia|].
    2: { intros j Hj Njc. apply in_seq in Hj. destruct (Nat.eqb_spec j b); [reflexivity|]. apply occ_zero. intros x Hx.
         apply in_flat_map in Hx as (p3 & Hp3 & Hx). destruct (isTriple _ _ _ _) eqn:E; [|reflexivity]. exfalso. apply (In2 b j p3) in E; auto; lia. }
    destruct (Nat.eqb_spec c b); [lia|].
    rewrite (occ_flat_map_unique _ _ _ p); [|exact NdL|exact Hp|].
    2: { intros p3 Hp3 Np. apply occ_zero. intros x Hx. destruct (isTriple _ _ _ _) eqn:E; [|reflexivity]. exfalso. apply (In2 b c p3) in E; auto. destruct E as (_ & _ & E). contradiction. }
    unfold part2At. rewrite occ_app, occ_zero.
    - assert (Hh : negb (isHaloP p) = true) by (unfold isHaloP; rewrite Op; reflexivity). rewrite Hh. destruct (Nat.ltb_spec b c); [|lia]. cbn [andb]. rewrite occ_cons, occ_nil.
      replace (isTriple _ _ _ _) with true by (symmetry; apply isTriple_iff; auto). reflexivity.
    - intros x Hx. destruct (_ <? _); [|destruct Hx]. destruct Hx as [<-|[]]. destruct (isTriple _ _ _ _) eqn:E; [|reflexivity]. exfalso.
      apply isTriple_fst in E; rename E into E1; cbn [fst] in E1; exact (bp_C b p Hbn HpC E1).
  Qed.

  (** One buffered particle. *)
  Lemma part3_once a u v : a < n -> In u (L' a) -> In v (L' a) -> u <> v ->
    (a < numOwned -> occ (isTriple (bp a) u v) part3 = 1) /\ (pown u = 1%Z -> occ (isTriple u (bp a) v) part3 = 1).
  Proof.
    intros Ha Hu Hv Ne. destruct (HL' a Ha) as (NdL & Sub). assert (HuC := Sub u Hu). assert (HvC := Sub v Hv).
    assert (One : forall t q r, (t = bp a /\ q = u /\ r = v \/ t = u /\ q = bp a /\ r = v) ->
      (forall p2 p3, In (p2, p3) (later (L' a)) -> occ (isTriple t q r) (part3At a (p2, p3)) = if isPairOf u v (p2, p3) then 1 else 0) ->
      occ (isTriple t q r) part3 = 1).
    { intros t q r Eq Hone. unfold part3. rewrite (occ_flat_map_unique _ _ _ a); [|apply seq_NoDup|apply in_seq; lia|].
      - rewrite (occ_flat_map_sum _ _ (isPairOf u v)); [apply later_once; assumption|]. intros (p2, p3) Hp. apply Hone, Hp.
      - intros i Hi Nia. apply in_seq in Hi. apply occ_zero. intros x Hx. destruct (isTriple _ _ _ _) eqn:E; [|reflexivity]. exfalso.
        assert (Hx3 : exists p2 p3, In p2 C /\ In p3 C /\ (x = (bp i, (p2, p3)) \/ x = (p2, (bp i, p3)) \/ x = (p3, (bp i, p2)))).
        { apply in_flat_map in Hx as ((p2, p3) & Hp & Hx). apply later_in in Hp as (X & Y). exists p2, p3. split; [apply (HL' i); [lia|exact X]|]. split; [apply (HL' i); [lia|exact Y]|].
          unfold part3At in Hx. destruct newton3.
          - destruct Hx as [<-|[<-|[<-|[]]]]; auto.
          - apply in_app_or in Hx as [Hx|Hx]; [|apply in_app_or in Hx as [Hx|Hx]].
            + destruct (_ <? _); [|destruct Hx]. destruct Hx as [<-|[]]. auto.
            + destruct (isOwned p2); [|destruct Hx]. destruct Hx as [<-|[]]. auto.
            + destruct (isOwned p3); [|destruct Hx]. destruct Hx as [<-|[]]. auto. }
        destruct Hx3 as (p2 & p3 & C2 & C3 & Hx3). assert (Hin : i < n) by lia.
        assert (Nii : bp i <> bp a) by (intros X; apply bp_inj in X; lia).
        assert (K : forall y, In y C -> bp i <> y /\ bp a <> y) by (intros y Hy; split; apply bp_C; assumption).
        destruct (K p2 C2), (K p3 C3), (K u HuC), (K v HvC).
        apply isTriple_iff in E. destruct Eq as [(-> & -> & ->)|(-> & -> & ->)]; destruct Hx3 as [-> | [-> | ->]]; destruct E as [[= E1 E2 E3]|[= E1 E2 E3]]; congruence. }
    assert (Hpair : forall p2 p3, In (p2, p3) (later (L' a)) -> p2 <> p3 /\ bp a <> p2 /\ bp a <> p3).
    { intros p2 p3 Hp. split; [exact (later_ne _ _ _ NdL Hp)|]. apply later_in in Hp as (X & Y). split; apply bp_C; auto. }
    assert (Nu : bp a <> u) by (apply bp_C; assumption). assert (Nv : bp a <> v) by (apply bp_C; assumption).
    split.
    - intros Ho. apply One; [auto|]. intros p2 p3 Hp. destruct (Hpair p2 p3 Hp) as (N23 & N2 & N3).
      assert (X : isTriple (bp a) u v (bp a, (p2, p3)) = isPairOf u v (p2, p3)).
      { apply eq_true_iff_eq. rewrite isTriple_iff, isPairOf_iff. split; [intros [[= -> ->]|[= -> ->]]|intros [[= -> ->]|[= -> ->]]]; auto. }
      assert (Y : forall t w, t <> bp a -> isTriple (bp a) u v (t, w) = false).
      { intros t w Nt. destruct (isTriple (bp a) u v (t, w)) eqn:E; [|reflexivity]. exfalso. apply isTriple_fst in E; cbn [fst] in E; congruence. }
      unfold part3At. destruct newton3.
      + rewrite !occ_cons, occ_nil, X, !Y by congruence. destruct (isPairOf _ _ _); reflexivity.
      + destruct (Nat.ltb_spec a numOwned); [|lia]. rewrite !occ_app, occ_cons, occ_nil, X.
        destruct (isOwned p2), (isOwned p3); rewrite ?occ_cons, ?occ_nil, ?Y by congruence; destruct (isPairOf _ _ _); reflexivity.
    - intros Ou. apply One; [auto|]. intros p2 p3 Hp. destruct (Hpair p2 p3 Hp) as (N23 & N2 & N3).
      assert (X2 : isTriple u (bp a) v (p2, (bp a, p3)) = peq p2 u && peq p3 v).
      { apply eq_true_iff_eq. rewrite isTriple_iff, andb_true_iff, !peq_iff. split; [intros [[= E1 E2]|[= E1 E2 E3]]; [auto|congruence]|intros (-> & ->); auto]. }
      assert (X3 : isTriple u (bp a) v (p3, (bp a, p2)) = peq p2 v && peq p3 u).
      { apply eq_true_iff_eq. rewrite isTriple_iff, andb_true_iff, !peq_iff. split; [intros [[= E1 E2]|[= E1 E2 E3]]; [auto|congruence]|intros (-> & ->); auto]. }
      assert (X1 : isTriple u (bp a) v (bp a, (p2, p3)) = false).
      { destruct (isTriple u (bp a) v (bp a, (p2, p3))) eqn:E; [|reflexivity]. exfalso. apply isTriple_fst in E; cbn [fst] in E; congruence. }
      unfold part3At, isPairOf. cbn [fst snd]. destruct newton3.
      + rewrite !occ_cons, occ_nil, X1, X2, X3. destruct (peq_spec p2 u), (peq_spec p3 v), (peq_spec p2 v), (peq_spec p3 u); cbn; congruence || reflexivity.
      + rewrite !occ_app.
        assert (Z1 : occ (isTriple u (bp a) v) (if a <? numOwned then [(bp a, (p2, p3))] else []) = 0) by (destruct (a <? numOwned); rewrite ?occ_cons, ?occ_nil, ?X1; reflexivity).
        assert (Z2 : occ (isTriple u (bp a) v) (if isOwned p2 then [(p2, (bp a, p3))] else []) = if peq p2 u && peq p3 v then 1 else 0).
        { destruct (isOwned p2) eqn:O; rewrite ?occ_cons, ?occ_nil, ?X2; [destruct (peq p2 u), (peq p3 v); reflexivity|].
          destruct (peq_spec p2 u) as [->|]; [|reflexivity]. unfold isOwned, stOwned in O. rewrite Ou in O. discriminate. }
        assert (Z3 : occ (isTriple u (bp a) v) (if isOwned p3 then [(p3, (bp a, p2))] else []) = if peq p2 v && peq p3 u then 1 else 0).
        { destruct (isOwned p3) eqn:O; rewrite ?occ_cons, ?occ_nil, ?X3; [destruct (peq p2 v), (peq p3 u); reflexivity|].
          destruct (peq_spec p3 u) as [->|]; [|rewrite andb_false_r; reflexivity]. unfold isOwned, stOwned in O. rewrite Ou in O. discriminate. }
        rewrite Z1, Z2, Z3. destruct (peq_spec p2 u), (peq_spec p3 v), (peq_spec p2 v), (peq_spec p3 u); cbn; congruence || reflexivity.
  Qed.

  (** All together: a triplet of distinct particles, the first one owned, of which those in
      the container are found around those in the buffers. *)
  Definition allParts := part1 ++ part2 ++ part3.
  Theorem parts_once p q r : In p (B ++ C) -> In q (B ++ C) -> In r (B ++ C) -> p <> q -> p <> r -> q <> r -> pown p = 1%Z ->
    (forall i x, i < n -> bp i = p \/ bp i = q \/ bp i = r -> x = p \/ x = q \/ x = r -> In x C -> In x (L i) /\ In x (L' i)) ->
    (In p B \/ In q B \/ In r B -> occ (isTriple p q r) allParts = 1) /\
    (In p C -> In q C -> In r C -> occ (isTriple p q r) allParts = 0).
  Proof.
    intros Hp Hq Hr Npq Npr Nqr Op Hreach.
    assert (Z1 := fun p q r => part_zero p q r 3 part1 part1_buffered). assert (Z2 := fun p q r => part_zero p q r 2 part2 part2_buffered). assert (Z3 := fun p q r => part_zero p q r 1 part3 part3_buffered).
    assert (Bu : forall x y z, buffered (x, (y, z)) = inB x + inB y + inB z) by reflexivity.
    assert (Oi : forall i, i < n -> bp i = p -> i < numOwned).
    { intros i Hi E. assert (O := Hown i Hi). rewrite E, Op in O. destruct (Nat.ltb_spec i numOwned); [assumption|discriminate]. }
    unfold allParts. rewrite !occ_app. split.
    2: { intros Cp Cq Cr. rewrite Z1, Z2, Z3; rewrite ?Bu, ?(inB_zero p Cp), ?(inB_zero q Cq), ?(inB_zero r Cr); lia. }
    intros Some_.
    apply in_app_or in Hp as [Hp|Hp]; apply in_app_or in Hq as [Hq|Hq]; apply in_app_or in Hr as [Hr|Hr].
    - rewrite Z2, Z3 by (rewrite Bu, (inB_one p Hp), (inB_one q Hq), (inB_one r Hr); lia).
      destruct (bp_of p Hp) as (a & Ha & Ea), (bp_of q Hq) as (b & Hb & Eb), (bp_of r Hr) as (c & Hc & Ec).
      assert (a < numOwned) by auto. assert (a <> b) by congruence. assert (a <> c) by congruence. assert (b <> c) by congruence. rewrite <- Ea, <- Eb, <- Ec.
      destruct (Nat.lt_ge_cases b c); [|rewrite occ_triple_sym]; rewrite part1_once; lia.
    - rewrite Z1, Z3 by (rewrite Bu, (inB_one p Hp), (inB_one q Hq), (inB_zero r Hr); lia).
      destruct (bp_of p Hp) as (a & Ha & Ea), (bp_of q Hq) as (b & Hb & Eb).
      assert (a < numOwned) by auto. assert (a <> b) by congruence. destruct (Hreach a r Ha) as (R & _); auto. rewrite <- Ea, <- Eb. rewrite part2_once_buffered; auto.
    - rewrite Z1, Z3 by (rewrite Bu, (inB_one p Hp), (inB_zero q Hq), (inB_one r Hr); lia).
      destruct (bp_of p Hp) as (a & Ha & Ea), (bp_of r Hr) as (b & Hb & Eb).
      assert (a < numOwned) by auto. assert (a <> b) by congruence. destruct (Hreach a q Ha) as (R & _); auto. rewrite <- Ea, <- Eb, occ_triple_sym. rewrite part2_once_buffered; auto.
    - rewrite Z1, Z2 by (rewrite Bu, (inB_one p Hp), (inB_zero q Hq), (inB_zero r Hr); lia).
      destruct (bp_of p Hp) as (a & Ha & Ea). destruct (Hreach a q Ha) as (_ & R1); auto. destruct (Hreach a r Ha) as (_ & R2); auto. rewrite <- Ea.
      destruct (part3_once a q r Ha R1 R2 Nqr) as (X & _). rewrite X by auto. reflexivity.
    - rewrite Z1, Z3 by (rewrite Bu, (inB_zero p Hp), (inB_one q Hq), (inB_one r Hr); lia).
      destruct (bp_of q Hq) as (b & Hb & Eb), (bp_of r Hr) as (c & Hc & Ec). destruct (Hreach b p Hb) as (R1 & _); auto. destruct (Hreach c p Hc) as (R2 & _); auto.
      assert (b <> c) by congruence. rewrite <- Eb, <- Ec. destruct (Nat.lt_ge_cases b c); [|rewrite occ_triple_sym]; rewrite part2_once_contained; auto; lia.
    - rewrite Z1, Z2 by (rewrite Bu, (inB_zero p Hp), (inB_one q Hq), (inB_zero r Hr); lia).
      destruct (bp_of q Hq) as (b & Hb & Eb). destruct (Hreach b p Hb) as (_ & R1); auto. destruct (Hreach b r Hb) as (_ & R2); auto. rewrite <- Eb.
      destruct (part3_once b p r Hb R1 R2 Npr) as (_ & X). rewrite X by auto. reflexivity.
    - rewrite Z1, Z2 by (rewrite Bu, (inB_zero p Hp), (inB_zero q Hq), (inB_one r Hr); lia).
      destruct (bp_of r Hr) as (b & Hb & Eb). destruct (Hreach b p Hb) as (_ & R1); auto. destruct (Hreach b q Hb) as (_ & R2); auto. rewrite <- Eb, occ_triple_sym.
      destruct (part3_once b p q Hb R1 R2 Npq) as (_ & X). rewrite X by auto. reflexivity.
    - exfalso. destruct Some_ as [X|[X|X]]; eapply disj; eauto.
  Qed.
End Core.

(** The model computes these parts. *)
Section Calls.
  Variables (rnd : R -> R) (newton3 : bool) (cutoff : R) (inRegion : Z -> R3 -> R3 -> option (list Particle)) (regionPairs : R3 -> R3 -> option (list (Particle * Particle))).
  Variables (B : list Particle) (numOwned : nat) (L L' : nat -> list Particle).
  Hypothesis HL : forall i, i < length B -> inRegion bhOwnedOrHalo (low rnd cutoff (bp B i)) (high rnd cutoff (bp B i)) = Some (L i).
  Hypothesis HL' : forall i, i < length B -> regionPairs (low rnd cutoff (bp B i)) (high rnd cutoff (bp B i)) = Some (later (L' i)).

  Lemma flatM_seq {A} (f : nat -> option (list A)) g m : (forall i, i < m -> f i = Some (g i)) -> flatM f (seq 0 m) = Some (flat_map g (seq 0 m)).
  Proof. intros H. unfold flatM. rewrite (mapM_some f g); [rewrite flat_map_concat_map; reflexivity|]. intros i Hi. apply in_seq in Hi. apply H. lia. Qed.

  Lemma added3_one {X} (l : list X) (f : X -> Call3 Particle) : (forall x, p3n (f x) = false) -> flat_map added3 (map f l) = map (fun x => (p3a (f x), (p3b (f x), p3c (f x)))) l.
  Proof. intros H. induction l as [|x l IH]; [reflexivity|]. cbn [map flat_map]. unfold added3 at 1. rewrite H, IH. reflexivity. Qed.

  Theorem remainderCalls_parts : exists calls, remainderCalls rnd newton3 cutoff inRegion regionPairs B numOwned = Some calls /\
    flat_map added3 calls = allParts newton3 B numOwned L L'.
  Proof.
    unfold remainderCalls.
    assert (E2 : exists c2, bufferBufferContainer rnd cutoff inRegion B numOwned = Some c2 /\ flat_map added3 c2 = part2 B numOwned L).
    { set (G := fun i j => if j =? i then [] else flat_map (fun p3 => (if i <? numOwned then [mkCall3 (bp B i) (bp B j) p3 false] else []) ++
        (if negb (isHaloP p3) && (i <? j) then [mkCall3 p3 (bp B i) (bp B j) false] else [])) (L i)).
      exists (flat_map (fun i => flat_map (G i) (seq 0 (length B))) (seq 0 (length B))). split.
      - unfold bufferBufferContainer. apply flatM_seq. intros i Hi. apply flatM_seq. intros j Hj. rewrite (HL i Hi). unfold G. destruct (j =? i); reflexivity.
      - unfold part2. rewrite flat_map_comp. apply flat_map_ext. intros i. rewrite flat_map_comp. apply flat_map_ext. intros j. unfold G. destruct (j =? i); [reflexivity|].
        rewrite flat_map_comp. apply flat_map_ext. intros p3. unfold part2At. rewrite flat_map_app. destruct (i <? numOwned), (negb _ && _); reflexivity. }
    assert (E3 : exists c3, bufferContainerContainer rnd newton3 cutoff regionPairs B numOwned = Some c3 /\ flat_map added3 c3 = part3 newton3 B numOwned L').
    { set (G := fun i '(p2, p3) => if newton3 then [mkCall3 (bp B i) p2 p3 true]
          else (if i <? numOwned then [mkCall3 (bp B i) p2 p3 false] else []) ++
               (if isOwned p2 then [mkCall3 p2 (bp B i) p3 false] else []) ++ (if isOwned p3 then [mkCall3 p3 (bp B i) p2 false] else [])).
      exists (flat_map (fun i => flat_map (G i) (later (L' i))) (seq 0 (length B))). split.
      - unfold bufferContainerContainer. apply flatM_seq. intros i Hi. rewrite (HL' i Hi). reflexivity.
      - unfold part3. rewrite flat_map_comp. apply flat_map_ext. intros i. rewrite flat_map_comp. apply flat_map_ext. intros (p2, p3). unfold part3At, G. destruct newton3; [reflexivity|].
        rewrite !flat_map_app. destruct (i <? numOwned), (isOwned p2), (isOwned p3); reflexivity. }
    destruct E2 as (c2 & -> & E2), E3 as (c3 & -> & E3). eexists. split; [reflexivity|]. rewrite !flat_map_app, E2, E3. unfold allParts. f_equal.
    unfold bufferBufferBuffer, part1. rewrite flat_map_comp. apply flat_map_ext. intros i. rewrite flat_map_comp. apply flat_map_ext. intros j. destruct (i =? j); [reflexivity|].
    rewrite flat_map_comp. apply flat_map_ext. intros k. destruct (k =? i); reflexivity.
  Qed.
End Calls.
