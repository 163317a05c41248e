(* What a program expects of an optional pointer: a null pointer is nothing. *)
From Coq Require Import List Bool Arith.
From Verif Require Import LifeModel OptModel OptSpec PtrModel.
Import ListNotations.

(* what storing a pointer leaves *)
Definition kept (p : nat) : option nat := match p with 0 => None | S _ => Some p end.

Definition legal_p (o : pop) (st : state nat) : Prop :=
  match o with
  | Plain (EmplaceFrom i j) => exists_in st i /\ exists_in st j
  | Plain (Swap i j) => exists_in st i /\ exists_in st j
  | Plain o => legal o st
  | Through i _ => exists_in st i
  end.

Definition through (p : nat) (c : option nat) : option nat :=
  match c with
  | Some _ => kept p
  | None => None
  end.

(* The effect of an operation.  Two are odd: emplace from the own value leaves
   the optional empty, and swap of a full optional with an empty argument
   empties it.  Otherwise null pointers are not kept, and the rest is as for any
   other optional. *)
Definition effect_p (o : pop) (st : state nat) : state nat :=
  match o with
  | Plain (NewValue i p) | Plain (Emplace i p) => put st i (Some (kept p))
  | Plain (NewMap i j f) =>
      put st i (option_map (fun c => match c with Some v => kept (f v) | None => None end) (st j))
  | Plain (EmplaceFrom i j) => put st i (if i =? j then Some None else st j)
  | Plain (Swap i j) =>
      match st j with
      | Some None => put st i (Some None)
      | _ => put (put st j (st i)) i (st j)
      end
  | Plain o => effect (fun p => p) o st
  | Through i p => put st i (option_map (through p) (st i))
  end.

Fixpoint effects_p (l : list pop) (st : state nat) : state nat :=
  match l with
  | [] => st
  | o :: l' => effects_p l' (effect_p o st)
  end.

Fixpoint all_legal_p (l : list pop) (st : state nat) : Prop :=
  match l with
  | [] => True
  | o :: l' => legal_p o st /\ all_legal_p l' (effect_p o st)
  end.

(* What a program can see. *)
Definition seen_p (m : mem) (st : state nat) : Prop :=
  (forall i c, st i = Some c ->
     get_p i m = c /\ empty_p i m = (match c with Some _ => false | None => true end) /\
     (forall d, get_or_p i d m = match c with Some v => v | None => d end) /\
     (forall f, exists_p i f m = match c with Some v => f v | None => false end)) /\
  (forall i v, st i = Some (Some v) -> v <> 0).

(* Programs in which no null pointer is ever stored. *)
Definition no_null (o : op nat) : Prop :=
  match o with
  | NewValue _ p | Emplace _ p => p <> 0
  | NewMap _ _ f => forall p, p <> 0 -> f p <> 0
  | _ => True
  end.

(* full on every level *)
Fixpoint all_full (n : nat) {V : Type} : nested n V -> V -> Prop :=
  match n return nested n V -> V -> Prop with
  | 0 => fun o v => o = Some v
  | S n' => fun o v => exists x, o = Some x /\ all_full n' x v
  end.

(* the same levels are full, except that the innermost is empty *)
Fixpoint emptied (n : nat) {V : Type} : nested n V -> nested n V -> Prop :=
  match n return nested n V -> nested n V -> Prop with
  | 0 => fun _ o' => o' = None
  | S n' => fun o o' =>
      match o with
      | Some x => exists x', o' = Some x' /\ emptied n' x x'
      | None => o' = None
      end
  end.
