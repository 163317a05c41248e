(* What matching should do. *)
From Coq Require Import List Bool Arith.
From Verif Require Import MatchModel.
Import ListNotations.

(* C++: can a parameter be initialised from an object with such a right of access *)
Definition constant (a : category) : bool := match a with ConstL | ConstR => true | _ => false end.
Definition lvalue (a : category) : bool := match a with ConstL | MutL => true | _ => false end.

(* may the case take the stored value?  A parameter by value needs a copy, or a
   move of what may be moved from; a reference must not drop const, and must not
   mix lvalues and rvalues except for const &. *)
Definition takes (copyable movable : nat -> bool) (t : nat) (a : category) (c : case) : Prop :=
  arg c = t /\
  match shape c with
  | ByValue => copyable t = true \/ movable t = true /\ constant a = false /\ lvalue a = false
  | Ref => constant a = false /\ lvalue a = true
  | ConstRef => True
  | RRef => constant a = false /\ lvalue a = false
  | ConstRRef => lvalue a = false
  end.

(* the first in a list with a property, and the last *)
Definition first_with (P : case -> Prop) (l : list case) (i : nat) : Prop :=
  exists l1 c l2, l = l1 ++ c :: l2 /\ P c /\ Forall (fun d => ~ P d) l1 /\ i = length l1.
Definition last_with (P : case -> Prop) (l : list case) (i : nat) : Prop :=
  exists l1 c l2, l = l1 ++ c :: l2 /\ P c /\ Forall (fun d => ~ P d) l2 /\ i = length l1.

(* what happens when no case takes the value *)
Definition falls_through (cases : list case) (o : outcome) : Prop :=
  (exists i, o = CalledDefault i /\ last_with (fun c => arg c = default_t) cases i) \/
  (o = BadMatch /\ Forall (fun c => arg c <> default_t) cases).
