(* What lists of types should be: lists. *)
From Coq Require Import List Bool.
Import ListNotations.

(* every element once, where it occurs first *)
Fixpoint first_occurrences {T : Type} (same : T -> T -> bool) (l : list T) : list T :=
  match l with
  | [] => []
  | h :: t => h :: filter (fun y => negb (same h y)) (first_occurrences same t)
  end.

(* an order elements can be sorted by: asymmetric, and 'not less' is transitive *)
Definition weak_order {T : Type} (less : T -> T -> option bool) (l : list T) : Prop :=
  (forall x y, In x l -> In y l -> less x y = Some true -> less y x <> Some true) /\
  (forall x y z, In x l -> In y l -> In z l ->
     less x y <> Some true -> less y z <> Some true -> less x z <> Some true).
