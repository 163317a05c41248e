(* Model of the two helper actors behind ask and find, and of the behaviour
   stack of an actor.
   /repo/modules/actors/yato/actors/private/actors/asking_actor.h:20-51,
   actors/selector.cpp:35-72, private/actor.cpp:25-30, 100-125. *)
From Coq Require Import List Bool Arith.
From Verif Require Import ActorModel.
Import ListNotations.

(* std::promise with the flag m_satisfied.  [writes] lists the values given to
   set_value; a second set_value throws std::future_error, so more than one
   element here would be an exception thrown inside a handler. *)
Record promise (V : Type) := Promise { satisfied : bool; writes : list V }.
Arguments Promise {V}. Arguments satisfied {V}. Arguments writes {V}.
Definition set_once {V} (p : promise V) (v : V) : promise V :=
  if satisfied p then p else Promise true (writes p ++ [v]).

(* asking_actor::receive (26-33), ::post_stop (35-41); None is nullany *)
Definition ask_step (p : promise (option nat)) (x : cb) : promise (option nat) :=
  match x with
  | Receive n => set_once p (Some n)
  | PostStop => set_once p None
  | _ => p
  end.
Definition ask_result (l : list cb) : promise (option nat) := fold_left ask_step l (Promise false []).

(* selector::receive (35-57), ::post_stop (60-67).  [sel n] classifies the
   payload: a success with its actor, a failure, or another message, which is
   ignored.  None is the empty actor_ref. *)
Definition find_step (sel : nat -> option (option nat)) (p : promise (option nat)) (x : cb) : promise (option nat) :=
  match x with
  | Receive n => match sel n with
                 | Some r => set_once p r
                 | None => p
                 end
  | PostStop => set_once p None
  | _ => p
  end.
Definition find_result sel (l : list cb) : promise (option nat) := fold_left (find_step sel) l (Promise false []).

(* ---- behaviours (message_consumer pointers): None is nullptr; top of stack first ---- *)
Section Behaviours.
Variable B : Type.
(* actor.cpp:100-113 ; returns the new stack and the returned pointer.  top()
   of an empty stack is undefined behaviour: None *)
Definition become (st : list B) (b : option B) (discard_old : bool) : option (list B * option B) :=
  match b with
  | None => Some (st, None)
  | Some b =>
      if discard_old
      then match st with
           | [] => None
           | old :: t => Some (b :: t, Some old)
           end
      else Some (b :: st, None)
  end.
(* actor.cpp:116-125 *)
Definition unbecome (st : list B) : list B * option B :=
  if length st <=? 1 then (st, None)
  else match st with
       | [] => (st, None)
       | top :: t => (t, Some top)
       end.

Inductive bop := Become (b : option B) (discard_old : bool) | Unbecome.
Definition bstep (st : list B) (o : bop) : option (list B) :=
  match o with
  | Become b d => option_map fst (become st b d)
  | Unbecome => Some (fst (unbecome st))
  end.
Fixpoint brun (st : list B) (os : list bop) : option (list B) :=
  match os with
  | [] => Some st
  | o :: t => match bstep st o with
              | None => None
              | Some st' => brun st' t
              end
  end.
(* actor.cpp:25-30 : the actor itself is the first behaviour *)
Definition fresh_stack (self : B) : list B := [self].

(* operation sequences in which every unbecome has its own earlier become that
   kept the old behaviour, and every such become is undone *)
Inductive nested : list bop -> Prop :=
| nested_nil : nested []
| nested_null d os : nested os -> nested (Become None d :: os)
| nested_discard b os : nested os -> nested (Become (Some b) true :: os)
| nested_push b inner os : nested inner -> nested os -> nested (Become (Some b) false :: inner ++ Unbecome :: os).
(* the behaviour on top afterwards: the last discarding become at this level *)
Inductive top_after : B -> list bop -> B -> Prop :=
| top_nil t : top_after t [] t
| top_null t d os t' : top_after t os t' -> top_after t (Become None d :: os) t'
| top_discard t b os t' : top_after b os t' -> top_after t (Become (Some b) true :: os) t'
| top_push t b inner os t' : nested inner -> top_after t os t' -> top_after t (Become (Some b) false :: inner ++ Unbecome :: os) t'.
End Behaviours.
Arguments Become {B}. Arguments Unbecome {B}.

(* ---- specification of a single answer ---- *)
Definition replies (l : list cb) : list nat :=
  flat_map (fun x => match x with Receive n => [n] | _ => [] end) l.
Definition sel_replies (sel : nat -> option (option nat)) (l : list cb) : list (option nat) :=
  flat_map (fun n => match sel n with Some r => [r] | None => [] end) (replies l).
(* all values offered in order: replies, then nothing on stop *)
Fixpoint offers (sel : nat -> option (option nat)) (l : list cb) : list (option nat) :=
  match l with
  | [] => []
  | Receive n :: t => match sel n with Some r => r :: offers sel t | None => offers sel t end
  | PostStop :: t => None :: offers sel t
  | _ :: t => offers sel t
  end.
