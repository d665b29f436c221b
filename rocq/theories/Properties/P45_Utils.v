(** C45, C46: safe arithmetic and SoA buffers. *)
From Coq Require Import ZArith Reals List Bool Lia Permutation.
From Flocq Require Import Core BinarySingleNaN.
From Verif.Utils Require Import SafeMathModel SafeMathSpec SafeMathProofs SoAModel SoASpec SoAProofs.
Import ListNotations.
Local Open Scope Z_scope.

(** For signed and unsigned integers of every width. *)
Theorem C45_integers : forall T bits a b under over, 1 <= bits -> T = signedInt bits \/ T = unsignedInt bits -> inType T a -> inType T b ->
  saturates T (a + b) under over (safeAdd T a b under over) /\
  saturates T (a - b) under over (safeSub T a b under over) /\
  saturates T (a * b) under over (safeMul T a b under over).
Proof.
  intros T bits a b under over HB HT A B.
  assert (Z0 : tmin T <= 0 <= tmax T) by (destruct HT as [->| ->]; [apply signed_zero; lia|apply unsigned_zero; lia]).
  exact (conj (add_saturates T Z0 a b under over A B) (conj (sub_saturates T Z0 a b under over A B) (mul_saturates T Z0 a b under over A B))).
Qed.
Print Assumptions C45_integers.

(** For doubles: the correctly rounded result unless it overflows. *)
Theorem C45_doubles : forall a b under over : double, is_finite a = true -> is_finite b = true ->
  saturatesDouble (B2R a + B2R b) under over (fAdd a b under over) /\
  saturatesDouble (B2R a - B2R b) under over (fSub a b under over) /\
  saturatesDouble (B2R a * B2R b) under over (fMul a b under over).
Proof.
  intros a b under over A B. exact (conj (fAdd_saturates a b under over A B) (conj (fSub_saturates a b under over A B) (fMul_saturates a b under over A B))).
Qed.
Print Assumptions C45_doubles.

(** The compile-time power function. *)
Theorem C45_pow : forall n base, pow n base = base ^ Z.of_nat n.
Proof. exact pow_spec. Qed.
Print Assumptions C45_pow.

Local Open Scope nat_scope.

(** Loading puts the needed attributes of the cell into the buffer at the offset and keeps
    what is before it; without resizing it keeps everything else. *)
Theorem C46_loader : forall V (zero : V) needed cell s offset skip, (skip = true -> forall a, In a needed -> offset + length cell <= length (s a)) ->
  exists s', soaLoader V zero needed cell s offset skip = Some s' /\ holds V needed cell s' offset /\
    (skip = false -> forall a, length (s' a) = offset + length cell) /\
    (forall a i v, i < offset -> nth_error (s a) i = Some v -> nth_error (s' a) i = Some v) /\
    (skip = true -> forall a i, (i < offset \/ offset + length cell <= i \/ ~ In a needed) -> nth_error (s' a) i = nth_error (s a) i).
Proof. exact loader. Qed.
Print Assumptions C46_loader.

(** Whatever the functor wrote into the buffer, extracting changes the computed attributes
    to what is there and nothing else. *)
Theorem C46_extractor : forall V computed s cell offset, (forall a, In a computed -> offset + length cell <= length (s a)) ->
  exists cell', soaExtractor V computed cell s offset = Some cell' /\ takenFrom V computed s offset cell cell'.
Proof. exact extractor. Qed.
Print Assumptions C46_extractor.

(** Loading and extracting without a functor in between changes nothing. *)
Theorem C46_roundtrip : forall V (zero : V) needed computed cell s offset, incl computed needed ->
  exists s1 cell', soaLoader V zero needed cell s offset false = Some s1 /\ soaExtractor V computed cell s1 offset = Some cell' /\ sameParticles V cell cell'.
Proof. exact roundtrip_cell. Qed.
Print Assumptions C46_roundtrip.

(** The same for all cells in one buffer, loaded in parallel with any interleaving. *)
Theorem C46_roundtrip_parallel : forall V (zero : V) needed computed cells s ws, incl computed needed -> Permutation ws (allWrites V needed cells) ->
  exists s1 cells', doWrites V (resizeArrays V zero (total V cells) s) ws = Some s1 /\ extractAll V computed cells s1 0 = Some cells' /\ Forall2 (sameParticles V) cells cells'.
Proof. exact roundtrip_all. Qed.
Print Assumptions C46_roundtrip_parallel.

(** Cells loaded into buffers of their own and appended one after another (SoA::append)
    are what one buffer for all of them holds. *)
Theorem C46_append : forall V (zero : V) needed cells, exists bufs,
  Forall2 (fun c s => soaLoader V zero needed c (fun _ => []) 0 false = Some s) cells bufs /\
  let s := fold_left (append V) bufs (fun _ => []) in
  holds V needed (concat cells) s 0 /\ (forall a, In a needed -> length (s a) = length (concat cells)).
Proof. exact append_all. Qed.
Print Assumptions C46_append.

(** A functor that computes an attribute which it does not declare as needed replaces the
    values of all particles. *)
Theorem C46_not_needed_refuted : exists (cell cell' : list (Particle nat)) s1,
  soaLoader nat 0 [1] cell (fun _ => []) 0 false = Some s1 /\ soaExtractor nat [2] cell s1 0 = Some cell' /\ ~ sameParticles nat cell cell'.
Proof.
  exists [fun a => a]. do 2 eexists. split; [reflexivity|]. split; [reflexivity|]. intros H. inversion H as [|p p' l l' A B]; subst. specialize (A 2). discriminate A.
Qed.
Print Assumptions C46_not_needed_refuted.

(** * Examples *)
Example C45_example : inType (signedInt 8) 100 /\ inType (signedInt 8) (-100) /\ (safeAdd (signedInt 8) 100 100 (-128) 127 = 127)%Z /\
  (safeSub (signedInt 8) (-100) 100 (-128) 127 = -128)%Z /\ (safeMul (signedInt 8) 100 (-100) (-128) 127 = -128)%Z /\ (safeSub (unsignedInt 8) 3 5 0 255 = 0)%Z.
Proof. unfold inType. cbn. repeat split; lia. Qed.
Example C45_double_example : is_finite maxDouble = true /\ fAdd maxDouble maxDouble (Bopp maxDouble) maxDouble = maxDouble.
Proof. split; [reflexivity|]. apply B2SF_inj. vm_compute. reflexivity. Qed.
Definition xCells : list (list (Particle nat)) := [[fun a => a; fun a => 10 + a]; []; [fun a => 20 + a]].
Example C46_example : incl [2] [1; 2] /\ total nat xCells = 3 /\
  exists s1, doWrites nat (resizeArrays nat 0 (total nat xCells) (fun _ => [])) (rev (allWrites nat [1; 2] xCells)) = Some s1 /\ s1 1 = [1; 11; 21] /\ s1 2 = [2; 12; 22] /\ s1 3 = [0; 0; 0].
Proof. split; [intros x [<-|[]]; right; now left|]. split; [reflexivity|]. eexists. split; [vm_compute; reflexivity|]. repeat split. Qed.
