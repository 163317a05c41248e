(* Model of what the code of a user's actor may ask of its own base class, from
   its constructor to its destructor:
   /repo/modules/actors/yato/actors/actor.h:41-206 and private/actor.cpp:25-125
   (self, system, log, watch, unwatch, create_child, become, unbecome, sender,
   forward, set_context_, receive_message_, the callers of pre_start and
   post_stop), private/cell_builder.cpp:21-36 and actor_system.cpp:240-241 (what
   becomes of a constructor that throws), private/actor_cell.h:29-75 (in which
   order a cell loses its members).

   The code of the user is a tree: it asks something, and goes on according to
   the answer (so it may catch what is thrown).  Which callbacks run in which
   order is the matter of ActorModel; here any sequence of turns is allowed.
   The model keeps a trace of everything that happens.

   Simplifications: release builds (in a debug build sender() asserts); what
   watch, unwatch and create_child do in the system is the matter of the other
   models, here they either go through or throw; a behaviour is an object of
   the user that exists from the beginning until the user destroys it; the code
   of a behaviour that destroyed itself may return, but asks for nothing more. *)
From Coq Require Import List Bool Arith.
Import ListNotations.

(* behaviour.h:19-29: the actor itself, or another message_consumer *)
Inductive consumer := Own | Obj (n : nat).

Inductive op :=
| OSelf                                        (* actor.h:175 *)
| OSystem                                      (* actor.h:126, 131 *)
| OLog                                         (* actor.h:97 *)
| OWatch (w : nat) | OUnwatch (w : nat)        (* actor.h:137, 142 *)
| OChild (name : nat)                          (* actor.h:147-150 *)
| OBecome (b : option consumer) (discard_old : bool)   (* actor.h:158 *)
| OUnbecome                                    (* actor.h:163 *)
| OSender                                      (* actor.h:102-105 *)
| OForward (target : nat)                      (* actor.h:110-119 *)
| ODelete (n : nat).                           (* the user destroys a behaviour *)

Inductive answer :=
| Nothing                          (* the call returned *)
| Ref (r : nat)                    (* a reference to an actor *)
| Pointer (b : option consumer)    (* None: nullptr *)
| Sent (from target : nat).        (* the message went on with this sender *)

Inductive outcome :=
| Value (a : answer)
| Thrown              (* bad_state_error *)
| Terminates          (* the exception meets noexcept: std::terminate *)
| Undefined.

(* the code of the user *)
Inductive prog :=
| Return
| Throw
| Ask (o : op) (k : outcome -> prog).

Inductive event :=
| Did (o : op) (v : outcome)         (* a call of the user's code *)
| Born                               (* the constructor returned, set_context_ was called *)
| NoCell                             (* the constructor threw: a null cell is dereferenced *)
| Called (c : consumer) (from : nat) (* receive of the behaviour on top *)
| CalledDead (n : nat)               (* ... which does not exist any more *)
| NoTop                              (* ... of an empty stack *)
| Hook                               (* pre_start or post_stop *)
| Ended (threw : bool)               (* the callback was left *)
| Poisoned                           (* poison_pill: ref().stop() *)
| Dying                              (* the destructor is entered *)
| Freed (threw : bool).              (* ... and left; if it threw: std::terminate *)

Inductive life_phase := Building | Alive | Dead.

Record state := State {
  ph : life_phase;          (* m_context is null | m_context is set | and m_log of the cell is gone *)
  stack : list consumer;    (* m_behaviours, actor.h:56; top first *)
  snd : option nat;         (* what m_sender points to, actor.h:61 *)
  dead : list nat;          (* behaviours the user destroyed *)
  running : consumer;       (* whose code runs *)
  trace : list event        (* what happened, in order *)
}.

Definition log_event (s : state) (e : event) : state :=
  State (ph s) (stack s) (snd s) (dead s) (running s) (trace s ++ [e]).
Definition with_stack (s : state) (st : list consumer) : state :=
  State (ph s) st (snd s) (dead s) (running s) (trace s).

Definition gone (s : state) (c : consumer) : bool :=
  match c with Own => false | Obj n => existsb (Nat.eqb n) (dead s) end.

(* actor.cpp:57-63: the logger of the cell.  In a noexcept function what log()
   throws terminates (actor.cpp:100-125) *)
Definition log_here (s : state) : outcome :=
  match ph s with Building => Thrown | Alive => Value Nothing | Dead => Undefined end.
Definition log_noexcept (s : state) : outcome :=
  match log_here s with
  | Value _ => Value (Pointer None)
  | Thrown => Terminates
  | x => x
  end.
Definition context (s : state) (a : answer) : outcome :=
  match ph s with Building => Thrown | _ => Value a end.

Section Self.
Variable me : nat.     (* the reference of this actor *)

(* what a call answers, and the state after it *)
Definition ask (s : state) (o : op) : state * outcome :=
  if gone s (running s) then (s, Undefined) else
  match o with
  | OSelf => (s, context s (Ref me))                                (* actor.cpp:33-39 *)
  | OSystem => (s, context s Nothing)                               (* actor.cpp:42-54 *)
  | OLog => (s, log_here s)                                         (* actor.cpp:57-63 *)
  | OWatch _ | OUnwatch _ => (s, context s Nothing)                 (* actor.cpp:66-75 *)
  | OChild n => (s, context s (Ref n))                              (* actor.cpp:128-131 *)
  | OBecome None _ => (s, log_noexcept s)                           (* actor.cpp:102-105 *)
  | OBecome (Some b) true =>                                        (* actor.cpp:106-108 *)
      match stack s with
      | [] => (s, Undefined)
      | old :: t => (with_stack s (b :: t), Value (Pointer (Some old)))
      end
  | OBecome (Some b) false =>                                       (* actor.cpp:109-112 *)
      (with_stack s (b :: stack s), Value (Pointer None))
  | OUnbecome =>                                                    (* actor.cpp:116-125 *)
      match stack s with
      | top :: ((_ :: _) as t) => (with_stack s t, Value (Pointer (Some top)))
      | _ => (s, log_noexcept s)
      end
  | OSender =>
      match snd s with Some f => (s, Value (Ref f)) | None => (s, Undefined) end
  | OForward t =>
      match snd s with Some f => (s, Value (Sent f t)) | None => (s, Undefined) end
  | ODelete n =>
      if existsb (Nat.eqb n) (dead s) then (s, Undefined)
      else (State (ph s) (stack s) (snd s) (n :: dead s) (running s) (trace s), Value Nothing)
  end.

Definition ends (v : outcome) : bool := match v with Terminates | Undefined => true | _ => false end.

(* how a piece of the user's code comes out; Stop: the program is over *)
Inductive result := Left_ (s : state) (threw : bool) | Stop (s : state).

Fixpoint exec (s : state) (p : prog) : result :=
  match p with
  | Return => Left_ s false
  | Throw => Left_ s true
  | Ask o k =>
      let '(s1, v) := ask s o in
      let s2 := log_event s1 (Did o v) in
      if ends v then Stop s2 else exec s2 (k v)
  end.

Inductive turn :=
| THook (p : prog)                         (* actor.cpp:137-148, 165-184 *)
| TMessage (from : nat) (code : consumer -> prog)   (* what each behaviour does with it *)
| TPoison.

(* actor.cpp:78-97 and the callers of the hooks: nothing thrown by the user
   leaves the turn, and m_sender is null again *)
Definition set_turn (s : state) (f : option nat) (c : consumer) (e : event) : state :=
  State (ph s) (stack s) f (dead s) c (trace s ++ [e]).
Definition take (s : state) (t : turn) : result :=
  match t with
  | TPoison => Left_ (log_event s Poisoned) false                   (* 81-84 *)
  | THook p =>
      match exec (set_turn s (snd s) Own Hook) p with
      | Left_ s' threw => Left_ (log_event s' (Ended threw)) false
      | Stop s' => Stop s'
      end
  | TMessage f code =>
      match stack s with
      | [] => Stop (log_event s NoTop)                              (* 87 *)
      | c :: _ =>
          if gone s c then Stop (log_event s (CalledDead match c with Obj n => n | Own => 0 end)) else
          match exec (set_turn s (Some f) c (Called c f)) (code c) with   (* 85-89 *)
          | Left_ s' threw =>
              Left_ (State (ph s') (stack s') None (dead s') (running s') (trace s' ++ [Ended threw])) false   (* 96 *)
          | Stop s' => Stop s'
          end
      end
  end.

Fixpoint take_all (s : state) (ts : list turn) : result :=
  match ts with
  | [] => Left_ s false
  | t :: rest =>
      match take s t with
      | Left_ s' _ => take_all s' rest
      | Stop s' => Stop s'
      end
  end.

Definition unborn : state := State Building [] None [] Own [].

(* cell_builder.cpp:21-36, actor_cell.cpp:25-37, actor.cpp:25-30 *)
Definition build (p : prog) : result :=
  match exec unborn p with
  | Left_ s' true => Stop (log_event s' NoCell)     (* actor_system.cpp:240-241 *)
  | Left_ s' false => Left_ (State Alive (Own :: stack s') (snd s') (dead s') Own (trace s' ++ [Born])) false
  | Stop s' => Stop s'
  end.

(* actor_cell.h:29-75: m_log goes before m_actor, m_self and m_system after it *)
Definition destroy (s : state) (p : prog) : result :=
  match exec (State Dead (stack s) (snd s) (dead s) Own (trace s ++ [Dying])) p with
  | Left_ s' threw => if threw then Stop (log_event s' (Freed true)) else Left_ (log_event s' (Freed false)) false
  | Stop s' => Stop s'
  end.

Definition life (ctor : prog) (ts : list turn) (dtor : prog) : result :=
  match build ctor with
  | Stop s => Stop s
  | Left_ s _ =>
      match take_all s ts with
      | Stop s' => Stop s'
      | Left_ s' _ => destroy s' dtor
      end
  end.

Definition ending (r : result) : state := match r with Left_ s _ => s | Stop s => s end.
Definition history (ctor : prog) (ts : list turn) (dtor : prog) : list event := trace (ending (life ctor ts dtor)).
End Self.
