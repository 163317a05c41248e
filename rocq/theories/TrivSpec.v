(* What a user of vectors of trivial elements expects when no memory is left, in
   terms of lists only; see VecSpec for the operations. *)
From Coq Require Import List Bool Arith.
From Verif Require Import VecWorld VecSpec.
Import ListNotations.

Section Spec.
Context {V : Type}.
(* an operation whose allocation failed changed nothing, but an insertion lost
   the elements of its vector *)
Definition starved (op : @vop V) (ls : list (list V)) : list (list V) :=
  match op with
  | InsertOne i _ _ | InsertCount i _ _ _ | InsertRange i _ _ => upd ls i []
  | _ => ls
  end.
(* the element that insert(off, n, v[k]) inserts n times when the capacity suffices *)
Definition inserted (xs : list V) (off n k : nat) : option V :=
  if k <? off + n then nth_error xs k else nth_error xs (k - n).
(* the preconditions of an operation: those of VecSpec, and assigning an element of
   the vector to all of it *)
Definition t_legal (ls : list (list V)) (op : @vop V) : Prop :=
  legal ls op \/ exists i n k xs x, op = Assign i n (Elem i k) /\ nth_error ls i = Some xs /\ nth_error xs k = Some x.
Fixpoint t_legal_all (ops : list (@vop V)) (ls : list (list V)) : Prop :=
  match ops with [] => True | op :: t => t_legal ls op /\ t_legal_all t (effect op ls) end.
End Spec.
