(* When a debug build stops a call of the N-D vector that is right in a release
   build. *)
From Coq Require Import List Bool Arith.
From Verif Require Import NdVecModel NdVecSpec.
Import ListNotations.

Section Spec.
Context {V : Type}.
(* capacity: of the vector *)
Definition nhalts (op : @nop V) (capacity : nat) : bool :=
  match op with NAssign e _ => (vol e =? 0) && (capacity =? 0) | _ => false end.
(* a user who does not know the capacity *)
Definition nprudent (op : @nop V) (a : @arr V) : Prop :=
  match op with NAssign e _ => vol e = 0 -> slices a <> [] | _ => True end.
Fixpoint nprudent_play (ops : list (@nop V)) (a : arr) : Prop :=
  match ops with [] => True | op :: t => nprudent op a /\ nprudent_play t (neffect op a) end.
End Spec.
