(** Balancing of the thread buffers: utils/ArrayUtils.h, balanceVectors. *)
From Coq Require Import List Arith Bool.
Import ListNotations.

Section Balance.
Context {A : Type}.
Implicit Types (vecs : list (list A)) (tmp : list A).

(** ArrayUtils.h 243: the desired size of vector [i]. *)
Definition targetSize (target remainder i : nat) : nat :=
  if i <? remainder then S target else target.

(** ArrayUtils.h 240-264: one vector [v] at index [i]; returns the new vector, the new
    storage and the new [firstTooFew].  Moving out of the source with move iterators
    is modelled as taking the elements. *)
Definition scanStep (target remainder i firstTooFew : nat) (v : list A) tmp : list A * list A * nat :=
  let t := targetSize target remainder i in
  if t <? length v then
    (firstn t v, tmp ++ skipn t v, if firstTooFew =? i then S firstTooFew else firstTooFew)
  else if length v <? t then
    let numMissing := t - length v in
    let start := length tmp - numMissing in (* std::max(0, size - numMissing) *)
    (v ++ skipn start tmp, firstn start tmp, firstTooFew)
  else (v, tmp, if firstTooFew =? i then S firstTooFew else firstTooFew).

(** ArrayUtils.h 239-270: the inner loop, from index [i] on.  [vecs] are the vectors
    from index [i] on.  [firstPass] is [pass == 0]. *)
Fixpoint scan (target remainder : nat) (firstPass : bool) (i firstTooFew : nat) vecs tmp
  : list (list A) * list A * nat :=
  match vecs with
  | [] => ([], tmp, firstTooFew)
  | v :: rest =>
    let '(v', tmp', ftf) := scanStep target remainder i firstTooFew v tmp in
    if negb firstPass && match tmp' with [] => true | _ => false end
    then (v' :: rest, tmp', ftf)
    else let '(rest', tmp'', ftf') := scan target remainder firstPass (S i) ftf rest tmp' in
         (v' :: rest', tmp'', ftf')
  end.

(** ArrayUtils.h 237: the passes after the first one.  The loop has no bound in the
    code; [None] means that it did not end within [fuel] passes. *)
Fixpoint passes (fuel target remainder firstTooFew : nat) vecs tmp : option (list (list A)) :=
  match tmp with
  | [] => Some vecs
  | _ => match fuel with
         | O => None
         | S f => let '(r, tmp', ftf) := scan target remainder false firstTooFew firstTooFew (skipn firstTooFew vecs) tmp in
                  passes f target remainder ftf (firstn firstTooFew vecs ++ r) tmp'
         end
  end.

(** ArrayUtils.h 217-271.  The number of elements is summed up in an int in the
    code; here it is unbounded. *)
Definition balanceVectors (fuel : nat) vecs : option (list (list A)) :=
  match vecs with
  | [] => Some []
  | _ =>
    let numElem := list_sum (map (@length A) vecs) in
    let target := numElem / length vecs in
    let remainder := numElem mod length vecs in
    let '(vecs', tmp, ftf) := scan target remainder true 0 0 vecs [] in
    passes fuel target remainder ftf vecs' tmp
  end.
End Balance.
