(* What a debug build of the views is expected to guarantee, without the model: the
   cells of a view. *)
From Coq Require Import List NArith.
From Verif Require Import NdSpec.
Import ListNotations.
Local Open Scope N_scope.

(* bytes from the first element to the element with the given indices, when the
   dimensions below have the given strides in elements *)
Fixpoint offset (sz : N) (strides is : list N) : N :=
  match is with
  | [] => 0
  | i :: r => i * stored sz strides + offset sz (tl strides) r
  end.
(* the addresses of the elements of a view of e rows, with the extents and strides
   es of the dimensions below, and of a vector *)
Definition cell (sz ptr e : N) (es : list (N * N)) (a : N) : Prop :=
  exists is, in_range (e :: map fst es) is /\ a = ptr + offset sz (map snd es) is.
Definition vector_cell (sz ptr : N) (ext : list N) (a : N) : Prop :=
  exists i, i < volume ext /\ a = ptr + i * sz.

(* loops of the given length are followed to their end *)
Definition fits (fuel : nat) (ext : list N) : Prop :=
  Forall (fun e => (N.to_nat e < fuel)%nat) ext /\ (N.to_nat (volume ext) < fuel)%nat.
