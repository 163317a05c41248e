(* What an actor may expect of its base class, read off the past events only. *)
From Coq Require Import List Bool Arith.
From Verif Require Import SelfModel.
Import ListNotations.

(* where the code runs *)
Inductive place := InConstructor | InReceive (c : consumer) (from : nat) | InHook | Between | InDestructor.
Definition move (p : place) (e : event) : place :=
  match e with
  | Born => Between
  | Called c f => InReceive c f
  | Hook => InHook
  | Ended _ => Between
  | Dying => InDestructor
  | _ => p
  end.
Definition where_ (past : list event) : place := fold_left move past InConstructor.

(* a become that kept the old behaviour, or an unbecome that removed one *)
Definition pushes (e : event) : bool :=
  match e with Did (OBecome (Some _) false) (Value _) | Born => true | _ => false end.
Definition pops (e : event) : bool :=
  match e with Did OUnbecome (Value (Pointer (Some _))) => true | _ => false end.
Fixpoint count (p : event -> bool) (l : list event) : nat :=
  match l with [] => 0 | e :: t => (if p e then 1 else 0) + count p t end.
Definition depth (past : list event) : nat := count pushes past - count pops past.

(* the behaviour in force: going back from now, the argument of the latest
   become that no later unbecome took back; the end of the construction counts
   as the become of the actor itself.  [undone] is the number of unbecomes
   still to be matched.  The list has the latest event first. *)
Fixpoint latest (undone : nat) (back : list event) : option consumer :=
  match back with
  | [] => None
  | e :: older =>
      match e with
      | Did OUnbecome (Value (Pointer (Some _))) => latest (S undone) older
      | Did (OBecome (Some b) false) (Value _) =>
          match undone with 0 => Some b | S k => latest k older end
      | Born => match undone with 0 => Some Own | S k => latest k older end
      | Did (OBecome (Some b) true) (Value _) =>
          match undone with 0 => Some b | S _ => latest undone older end
      | _ => latest undone older
      end
  end.
Definition in_force (past : list event) : option consumer := latest 0 (rev past).

Definition destroyed (n : nat) (past : list event) : Prop := In (Did (ODelete n) (Value Nothing)) past.

(* what a call answers in a place, for an actor of reference [me] *)
Definition table (me : nat) (w : place) (deep : nat) (top : option consumer) (o : op) : outcome :=
  let logging := match w with
                 | InConstructor => Terminates
                 | InDestructor => Undefined
                 | _ => Value (Pointer None)
                 end in
  let plain a := match w with InConstructor => Thrown | _ => Value a end in
  match o with
  | OSelf => plain (Ref me)
  | OSystem | OWatch _ | OUnwatch _ => plain Nothing
  | OChild n => plain (Ref n)
  | OLog => match w with InDestructor => Undefined | _ => plain Nothing end
  | OBecome None _ => logging
  | OBecome (Some _) false => Value (Pointer None)
  | OBecome (Some _) true => if deep =? 0 then Undefined else Value (Pointer top)
  | OUnbecome => if deep <=? 1 then logging else Value (Pointer top)
  | OSender => match w with InReceive _ f => Value (Ref f) | _ => Undefined end
  | OForward t => match w with InReceive _ f => Value (Sent f t) | _ => Undefined end
  | ODelete n => Value Nothing
  end.

(* the code that runs belongs to a behaviour that was destroyed *)
Definition orphan (past : list event) : Prop :=
  exists n f, where_ past = InReceive (Obj n) f /\ destroyed n past.

Definition deletes_again (o : op) (past : list event) : Prop :=
  exists n, o = ODelete n /\ destroyed n past.

(* the events after which there is no further one *)
Definition fatal (e : event) : bool :=
  match e with
  | Did _ Terminates | Did _ Undefined | NoCell | CalledDead _ | NoTop | Freed true => true
  | _ => false
  end.

(* code that never makes some calls, whatever it is answered *)
Inductive only (P : op -> Prop) : prog -> Prop :=
| only_return : only P Return
| only_throw : only P Throw
| only_ask o k : P o -> (forall v, only P (k v)) -> only P (Ask o k).
Inductive never_throws : prog -> Prop :=
| never_return : never_throws Return
| never_ask o k : (forall v, never_throws (k v)) -> never_throws (Ask o k).

(* calls that are all right in a constructor, in pre_start and post_stop, in
   receive, in a destructor *)
Definition ctor_call (o : op) : Prop :=
  match o with
  | OBecome None _ | OBecome (Some _) true | OUnbecome | OSender | OForward _ | ODelete _ => False
  | _ => True
  end.
Definition hook_call (o : op) : Prop :=
  match o with OSender | OForward _ | ODelete _ => False | _ => True end.
Definition receive_call (o : op) : Prop := match o with ODelete _ => False | _ => True end.
Definition dtor_call (o : op) : Prop :=
  match o with OLog | OBecome None _ | OUnbecome | OSender | OForward _ | ODelete _ => False | _ => True end.
Definition careful_turn (t : turn) : Prop :=
  match t with
  | THook p => only hook_call p
  | TMessage _ code => forall c, only receive_call (code c)
  | TPoison => True
  end.
Definition is_message (t : turn) : bool := match t with TMessage _ _ => true | _ => false end.
Definition is_call (e : event) : bool := match e with Called _ _ => true | _ => false end.

(* catching everything: code that returns where p throws *)
Fixpoint caught (p : prog) : prog :=
  match p with
  | Return => Return
  | Throw => Return
  | Ask o k => Ask o (fun v => caught (k v))
  end.
Definition caught_turn (t : turn) : turn :=
  match t with
  | THook p => THook (caught p)
  | TMessage f code => TMessage f (fun c => caught (code c))
  | TPoison => TPoison
  end.
Definition forget (e : event) : event := match e with Ended _ => Ended false | e => e end.
