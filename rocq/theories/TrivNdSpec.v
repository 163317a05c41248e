(* What a user of multidimensional vectors of trivial elements expects when no
   memory is left, and when a slice of the vector itself is inserted, in terms of
   lists only; see NdVecSpec for the operations. *)
From Coq Require Import List Bool Arith.
From Verif Require Import VecModel NdVecModel VecSpec NdVecSpec.
Import ListNotations.

Section Spec.
Context {V : Type}.
(* an operation whose allocation failed changed no element, but an insertion lost
   the slices of the vector; an empty vector took the extents of the slice *)
Definition nstarved (op : @nop V) (a : @arr V) : arr :=
  match op with
  | NPush sd _ => Arr (adopt a sd) (slices a)
  | NInsert _ _ sd _ | NInsertRange _ sd _ => Arr (adopt a sd) []
  | _ => a
  end.
(* the slice that insert(begin() + p, n, v[k]) inserts when the capacity suffices *)
Definition ninserted (a : @arr V) (p n k : nat) : option (list V) :=
  if k <? p then nth_error (slices a) k else if k <? p + n then None else nth_error (slices a) (k - n).
End Spec.
