(* What C69 and C70 speak about: the messages of one kind in a log. *)
From Coq Require Import List Bool Arith.
From Verif Require Import PinModel.
Import ListNotations.

Definition same (k k' : kind) : bool :=
  match k, k' with User, User | Sys, Sys => true | _, _ => false end.
Fixpoint accepted {A} (k : kind) (l : list (event A)) : list A :=
  match l with
  | [] => []
  | Accepted _ k' m :: t => if same k k' then m :: accepted k t else accepted k t
  | Handled _ _ _ :: t => accepted k t
  end.
Fixpoint handled {A} (k : kind) (l : list (event A)) : list A :=
  match l with
  | [] => []
  | Handled _ k' m :: t => if same k k' then m :: handled k t else handled k t
  | Accepted _ _ _ :: t => handled k t
  end.
Fixpoint isent {A} (l : list (ievent A)) : list A :=
  match l with [] => [] | ISent _ m :: t => m :: isent t | _ :: t => isent t end.
Fixpoint igot {A} (l : list (ievent A)) : list A :=
  match l with [] => [] | IGot _ _ m :: t => m :: igot t | _ :: t => igot t end.
(* the calls of receive that have returned, in order *)
Fixpoint returned {A} (l : list (ievent A)) : list nat :=
  match l with [] => [] | ISent _ _ :: t => returned t | IGot _ r _ :: t => r :: returned t | INone _ r :: t => r :: returned t end.
Fixpoint system_sends {A} (xs : list (iaction A)) : list A :=
  match xs with [] => [] | ISend _ Sys m _ :: t => m :: system_sends t | _ :: t => system_sends t end.
