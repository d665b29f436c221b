(** A history after which the interactions are computed. *)
From Coq Require Import Reals Lra List Permutation.
From Verif.Base Require Import ZRange.
From Verif.Grid Require Import CellBlockModel CellBlockSpec.
From Verif.Traversal Require Import C08Model.
From Verif.Functor Require Import CellFunctorModel SortModel SortSpec.
From Verif.Container Require Import LinkedCellsModel LinkedCellsSpec LinkedCellsGeo LinkedCellsExample CollectSpec ParticleModel.
From Verif.Logic Require Import HandlerModel HandlerSpec HandlerProofs HandlerTotal HandlerDrift HandlerImages HandlerExample RemainderSpec ComputeModel ComputeSpec ComputeTheorem.
Import ListNotations.
Local Open Scope Z_scope.

(** Three owned particles, the third one in a buffer, and a halo particle. *)
Definition zAt (i : Z) (x : R) (o : Z) : Particle := mkParticle i (mkR3 x (1 / 2) (1 / 2)) o 0.
Definition zH : Particle := zAt 9 (-1 / 8) 1.
Definition zH' : Particle := zAt 9 (-1 / 16) 1.
Definition zEvents : list Event :=
  [AddParticle (zAt 1 (1 / 4) 1) 0; AddParticle (zAt 2 (1 / 2) 1) 0; AddHalo zH 0; Compute true [KLinkedCells 1]; AddParticle (zAt 3 (11 / 16) 1) 0; Move xMove; Update false; AddHalo zH' 0].
Definition zOwned : list Particle := [zAt 3 (11 / 16 + 1 / 8) 1; zAt 2 (1 / 2 + 1 / 8) 1; zAt 1 (1 / 4 + 1 / 8) 1].
Definition zHalo : list Particle := [zAt 9 (-1 / 16) 2].
Definition zNext : Event := Compute true [KDirectSum; KLinkedCells 1].
Definition zStart : State := initial (1 / 2) (1 / 4) 2 (KLinkedCells 1) xLo xHi 1.

Lemma z_disc : disciplined (1 / 4) false (zEvents ++ [zNext]).
Proof. cbn [disciplined zEvents zNext app]. repeat split; try apply x_within. Qed.
Lemma z_disc' : disciplined (1 / 4) false zEvents.
Proof. cbn [disciplined zEvents]. repeat split; try apply x_within. Qed.
Lemma z_simple : Forall (simpleCall (1 / 2) (1 / 4) 2 xLo xHi 1) zEvents.
Proof.
  pose proof x_kind as K.
  apply Forall_forall. intros e He. cbn [In zEvents] in He.
  destruct He as [<-|[<-|[<-|[<-|[<-|[<-|[<-|[<-|[]]]]]]]]]; cbn [simpleCall]; rewrite ?x_il.
  1,2,5: split; [unfold inBox, xLo, xHi; cbn [zAt ppos rx ry rz]; lra|lia].
  1,5: split; [unfold inBox, xLo, xHi; cbn [zH zH' zAt ppos rx ry rz]; lra|split; [unfold inGrownBox, growLow, growHigh, inBox, xLo, xHi; cbn [zH zH' zAt ppos rx ry rz]; lra|lia]].
  - constructor; [exact K|constructor].
  - intros p O. unfold xMove. rewrite O. reflexivity.
  - exact Logic.I.
Qed.
Lemma z_images : calmImages (1 / 4) (imageDistance (1 / 2) (1 / 4) 2 1) zEvents.
Proof.
  rewrite x_far. intros a p t b q u c E _. unfold zEvents in E.
  splits E; splits E; injection X as <- <-; injection X0 as <- <-. left. split; [cbn; lia|].
  apply dist3_sq; [cbn; lra|]. unfold dot, rsub, updates. cbn. lra.
Qed.
Lemma z_factors : factorsAtMost 1 (zEvents ++ [zNext]).
Proof.
  intros pw ks H. cbn [zEvents zNext app In] in H. repeat (destruct H as [H|H]; [first [discriminate H|injection H as <- <-; repeat constructor; cbn; lra]|]). destruct H.
Qed.
Lemma z_factors' : factorsAtMost 1 zEvents.
Proof. intros pw ks H. apply (z_factors pw ks). apply in_or_app. left. exact H. Qed.
Lemma z_calm : calm (1 / 4) zEvents.
Proof. intros f H p. cbn [zEvents In] in H. repeat (destruct H as [H|H]; [first [discriminate H|injection H as <-; apply x_calm]|]). destruct H. Qed.

(** What remains of the history of owned particles, if they are [k] up to the order. *)
Section Remaining.
  Variables lo hi : R3.
  Definition after (k : list Particle) h l2 : Prop := exists l, Permutation l k /\ ledger (mkLedger lo hi l) h l2.
  Lemma after_add k p t o h l2 : after k ((AddParticle p t, o) :: h) l2 -> after (setOwned p :: k) h l2.
  Proof.
    intros (l & P & H). inversion H as [|? ? ? l1 ? ? S H']; subst. inversion S as [? ? l' Q B| | | | | | | |]; subst. exists l'. split; [|exact H'].
    rewrite Q. apply perm_skip, P.
  Qed.
  Lemma after_halo k p t o h l2 : after k ((AddHalo p t, o) :: h) l2 -> after k h l2.
  Proof. intros (l & P & H). inversion H as [|? ? ? l1 ? ? S H']; subst. inversion S as [|? ? l' Q B| | | | | | |]; subst. exists l'. split; [|exact H']. rewrite Q. exact P. Qed.
  Lemma after_compute k pw ks o h l2 : after k ((Compute pw ks, o) :: h) l2 -> after k h l2.
  Proof. intros (l & P & H). inversion H as [|? ? ? l1 ? ? S H']; subst. inversion S as [| | | | | | |? ? l' Q|]; subst. exists l'. split; [|exact H']. cbn [expected] in Q. rewrite <- Q. exact P. Qed.
  Lemma after_move k f o h l2 : after k ((Move f, o) :: h) l2 -> after (map (fun p => moveTo (f p) p) k) h l2.
  Proof. intros (l & P & H). inversion H as [|? ? ? l1 ? ? S H']; subst. inversion S as [| | | | |? l' Q| | |]; subst. exists l'. split; [|exact H']. rewrite Q. apply Permutation_map, P. Qed.
  Lemma after_update k b o h l2 : Forall (fun p => inBox lo hi (ppos p)) k -> after k ((Update b, o) :: h) l2 -> after k h l2.
  Proof.
    intros B (l & P & H). inversion H as [|? ? ? l1 ? ? S H']; subst. inversion S as [| | | | | |? ? l' Q F| |]; subst. cbn [expected ledgerLo ledgerHi] in *. exists l'. split; [|exact H'].
    destruct o as [|p r]; [rewrite <- P; symmetry; exact Q|exfalso]. inversion F as [|? ? Np _]; subst. apply Np.
    rewrite Forall_forall in B. apply B. apply (Permutation_in _ P), (Permutation_in _ (Permutation_sym Q)). left. reflexivity.
  Qed.
  Lemma after_nil k l2 : after k [] l2 -> ledgerLo l2 = lo /\ ledgerHi l2 = hi /\ Permutation (expected l2) k.
  Proof. intros (l & P & H). inversion H; subst. auto. Qed.
End Remaining.
(** The same for the halo particles. *)
Definition afterI (k : list Particle) h l2 : Prop := exists l, Permutation l k /\ images l h l2.
Lemma afterI_halo k p t h l2 : afterI k (AddHalo p t :: h) l2 -> afterI (setHalo p :: k) h l2.
Proof. intros (l & P & H). inversion H as [|? ? l1 ? ? S H']; subst. inversion S as [|? ? l' Q| | | | | | |]; subst. exists l1. split; [|exact H']. rewrite Q. apply perm_skip, P. Qed.
Lemma afterI_update k b h l2 : afterI k (Update b :: h) l2 -> afterI [] h l2.
Proof. intros (l & P & H). inversion H as [|? ? l1 ? ? S H']; subst. inversion S; subst. exists []. split; [reflexivity|exact H']. Qed.
Lemma afterI_same k e h l2 : match e with AddParticle _ _ | Move _ | Compute _ _ => True | _ => False end -> afterI k (e :: h) l2 -> afterI k h l2.
Proof.
  intros E (l & P & H). inversion H as [|? ? l1 ? ? S H']; subst. exists l1. split; [|exact H'].
  inversion S; subst; try destruct E; etransitivity; try exact P; symmetry; assumption.
Qed.

Lemma z_history : exists h s, map fst h = zEvents /\ validStart (1 / 2) (1 / 4) 2 zStart /\ properHistory (1 / 2) (1 / 4) 2 zStart h s /\
  boxLo s = xLo /\ boxHi s = xHi /\ Permutation (ownedParticles s) zOwned /\ Permutation (haloParticles s) zHalo.
Proof.
  destruct (run_exists (1 / 2) (1 / 4) 2 x_opt (KLinkedCells 1) xLo xHi 1 zEvents x_box x_kind z_simple z_disc' eq_refl) as (h & s & E & P). fold zStart in P.
  assert (V : validStart (1 / 2) (1 / 4) 2 zStart) by (exists (KLinkedCells 1), xLo, xHi, 1%nat; split; [exact x_box|split; [exact x_kind|reflexivity]]).
  exists h, s. refine (conj E (conj V (conj P _))).
  assert (Hh := proper_history _ _ _ _ _ _ P).
  assert (Im := images_stored (1 / 2) (1 / 4) 2 x_opt 1 ltac:(lra) zStart h s V P). rewrite E in Im.
  specialize (Im z_disc' eq_refl (Rle_refl 1) z_factors' (calm_moving _ _ _ x_opt 1 _ z_images)).
  assert (Le : after xLo xHi [] h (mkLedger (boxLo s) (boxHi s) (ownedParticles s))) by (exists []; split; [reflexivity|exact (history_conserved (1 / 2) (1 / 4) 2 zStart h s V Hh)]).
  assert (Ai : afterI [] zEvents (haloParticles s)) by (exists []; split; [reflexivity|exact Im]). clear Im P Hh.
  do 2 (apply afterI_same in Ai; [|exact Logic.I]). apply afterI_halo in Ai. do 3 (apply afterI_same in Ai; [|exact Logic.I]). apply afterI_update in Ai. apply afterI_halo in Ai.
  destruct Ai as (l & Pl & Hl). inversion Hl; subst l. clear Hl.
  unfold zEvents in E.
  do 8 (destruct h as [|(?e, ?out) h]; [discriminate|]; cbn [map fst] in E; injection E as -> E). destruct h; [|discriminate]. clear E.
  do 2 apply after_add in Le. apply after_halo in Le. apply after_compute in Le. apply after_add in Le. apply after_move in Le. apply after_update in Le.
  2: { repeat constructor; cbn; lra. }
  apply after_halo in Le. apply after_nil in Le. destruct Le as (L1 & L2 & L3). split; [exact L1|]. split; [exact L2|]. split; [exact L3|rewrite <- H1; exact Pl].
Qed.

(** The particles are different, and three pairs are closer than the cutoff. *)
Lemma z_nodup : NoDup (zOwned ++ zHalo).
Proof. unfold zOwned, zHalo. repeat constructor; cbn [app In]; intros H; repeat (destruct H as [H|H]; [discriminate H|]); destruct H. Qed.
Lemma z_close : closer (1 / 2) (ppos (zAt 1 (1 / 4 + 1 / 8) 1)) (ppos (zAt 9 (-1 / 16) 2)) /\
  closer (1 / 2) (ppos (zAt 1 (1 / 4 + 1 / 8) 1)) (ppos (zAt 2 (1 / 2 + 1 / 8) 1)) /\ closer (1 / 2) (ppos (zAt 2 (1 / 2 + 1 / 8) 1)) (ppos (zAt 3 (11 / 16 + 1 / 8) 1)).
Proof. unfold closer. cbn [zAt ppos rx ry rz]. lra. Qed.
