(* Actors that talk: tell, forward, ask and sender(), with what becomes of the any
   that carries a message.  /repo/modules/actors/yato/actors: actor.h 99-119,
   actor_ref.h, actor_system.h 122-145 and 216-240, private/actor.cpp 78-98,
   private/actor_system.cpp 254-312, private/actors/asking_actor.h,
   private/message.h; any.h 190-215.

   A mailbox is a queue; a pending stop goes first (MailboxModel, C39).  The steps of
   different actors interleave, one command of a handler at a time.  The actors that
   talk are started (C43); an asking actor is started by the root some time after it
   was created (actor_system.cpp:243-244, root.cpp).  A question's time-out comes at
   any time.  Parents, watching and executors are left out (C44, C45, C85). *)
From Coq Require Import List Bool Arith.
Import ListNotations.

Section Talk.
Variable V : Type.                  (* the values of all types other than any *)
Variable copyable : V -> bool.      (* is_copy_assignable of its type, any.h 81-149 *)
Variable is_pill : V -> bool.       (* typeid is poison_pill_t's *)
Variable S : Type.                  (* what an actor remembers *)

(* yato::any: empty, holding a value, or holding another any *)
Inductive any := Null | Val (v : V) | Nest (a : any).
(* any(const any&), 203-207, through clone 98-101, 135-140: None = throws any_copy_error *)
Fixpoint clone (a : any) : option any :=
  match a with
  | Null => Some Null
  | Val v => if copyable v then Some (Val v) else None
  | Nest b => match clone b with Some c => Some (Nest c) | None => None end
  end.

(* actor_ref: dead letters, an actor, an asking actor *)
Inductive ref := Nobody | Actor (i : nat) | Asker (k : nat).
(* the argument of tell and forward *)
Inductive arg :=
| Value (v : V)      (* any value that is not an any *)
| Taken              (* std::move(message) *)
| Const              (* std::as_const(message) *)
| Plain.             (* message *)
(* yato::any(std::forward<Ty_>(message)), actor_system.h 124, 129: what is sent, and
   what message is afterwards.  any(any&&) 219 and any(const any&) 203 are chosen for
   Taken and Const; the template, 196-201, for the others. *)
Definition arg_val (x : arg) (p : any) : option (any * any) :=
  match x with
  | Value v => Some (Val v, p)
  | Taken => Some (p, Null)
  | Const => match clone p with Some c => Some (c, p) | None => None end
  | Plain => match clone p with Some c => Some (Nest c, p) | None => None end
  end.

(* what a handler does *)
Inductive cmd :=
| Tell (to : ref) (x : arg) (from : option ref)   (* to.tell(x), to.tell(x, from) *)
| Forward (x : arg) (to : ref)                    (* forward(x, to) *)
| StopSelf                                        (* self().stop() *)
| Throw.                                          (* throws an exception *)

Record message := Message { m_from : ref; m_load : any }.
Record actor := Mk_actor {
  queue : list message;
  open : bool;
  stopping : bool;                             (* a stop is in the mailbox *)
  mem : S;
  cur : option (ref * any * list cmd)          (* in a handler: sender(), the message, what is left to do *)
}.
Inductive future := Unset | Answer (a : any) | Broken.
Record asker := Mk_asker {
  a_queue : list message;
  a_open : bool;
  a_stopping : bool;
  a_started : bool;
  result : future;                             (* m_promise; m_satisfied: not Unset *)
  a_to : nat; a_asked : V                      (* ghost: the question *)
}.
Record state := State { actors : list actor; askers : list asker }.

Fixpoint upd {A} (l : list A) (i : nat) (x : A) : list A :=
  match l, i with
  | [], _ => []
  | _ :: t, 0 => x :: t
  | y :: t, Datatypes.S j => y :: upd t j x
  end.
Definition set_actor (s : state) (i : nat) (a : actor) : state := State (upd (actors s) i a) (askers s).
Definition set_asker (s : state) (k : nat) (a : asker) : state := State (actors s) (upd (askers s) k a).

(* send_user_impl_, actor_system.cpp:254-271: nothing happens if the mailbox is closed or
   gone, or the addressee is dead letters *)
Definition deliver (to : ref) (m : message) (s : state) : state :=
  match to with
  | Nobody => s
  | Actor i =>
      match nth_error (actors s) i with
      | Some a => if open a then set_actor s i (Mk_actor (queue a ++ [m]) (open a) (stopping a) (mem a) (cur a)) else s
      | None => s
      end
  | Asker k =>
      match nth_error (askers s) k with
      | Some a => if a_open a then set_asker s k (Mk_asker (a_queue a ++ [m]) (a_open a) (a_stopping a) (a_started a) (result a) (a_to a) (a_asked a)) else s
      | None => s
      end
  end.
(* actor_system.h 122-130: without a sender it is dead letters *)
Definition source (from : option ref) : ref := match from with Some r => r | None => Nobody end.

(* what an actor does with a message: from its memory, sender() and the message *)
Variable react : nat -> S -> ref -> any -> S * list cmd.

Definition pill (a : any) : bool := match a with Val v => is_pill v | _ => false end.
(* an actor takes a message: receive_message_, actor.cpp:78-98 *)
Definition take (i : nat) (s : state) : option state :=
  match nth_error (actors s) i with
  | Some (Mk_actor (m :: q) true false st None) =>
      if pill (m_load m) then Some (set_actor s i (Mk_actor q true true st None))
      else let (st', cs) := react i st (m_from m) (m_load m) in
           Some (set_actor s i (Mk_actor q true false st' (Some (m_from m, m_load m, cs))))
  | _ => None
  end.
(* one command of its handler; an exception ends the handler, 90-95 *)
Definition go (i : nat) (s : state) : option state :=
  match nth_error (actors s) i with
  | Some (Mk_actor q o st me (Some (from, p, cs))) =>
      match cs with
      | [] | Throw :: _ => Some (set_actor s i (Mk_actor q o st me None))
      | StopSelf :: t => Some (set_actor s i (Mk_actor q o true me (Some (from, p, t))))
      | Tell to x src :: t =>
          match arg_val x p with
          | None => Some (set_actor s i (Mk_actor q o st me None))
          | Some (a, p') => Some (deliver to (Message (source src) a) (set_actor s i (Mk_actor q o st me (Some (from, p', t)))))
          end
      | Forward x to :: t =>                         (* actor.h 107-119 *)
          match arg_val x p with
          | None => Some (set_actor s i (Mk_actor q o st me None))
          | Some (a, p') => Some (deliver to (Message from a) (set_actor s i (Mk_actor q o st me (Some (from, p', t)))))
          end
      end
  | _ => None
  end.
(* the stop is handled: the mailbox is closed *)
Definition halt (i : nat) (s : state) : option state :=
  match nth_error (actors s) i with
  | Some (Mk_actor q true true st None) => Some (set_actor s i (Mk_actor [] false true st None))
  | _ => None
  end.
(* asking_actor::receive, asking_actor.h 26-33; set_value copies *)
Definition ask_take (k : nat) (s : state) : option state :=
  match nth_error (askers s) k with
  | Some (Mk_asker (m :: q) true false true r t v) =>
      if pill (m_load m) then Some (set_asker s k (Mk_asker q true true true r t v))
      else match r with
           | Unset => match clone (m_load m) with
                      | Some c => Some (set_asker s k (Mk_asker q true true true (Answer c) t v))
                      | None => Some (set_asker s k (Mk_asker q true false true Unset t v))
                      end
           | _ => Some (set_asker s k (Mk_asker q true false true r t v))
           end
  | _ => None
  end.
(* the stop is handled, actor.cpp:134-147, post_stop 35-41 if it was started; without, the
   promise is destroyed with the actor *)
Definition ask_halt (k : nat) (s : state) : option state :=
  match nth_error (askers s) k with
  | Some (Mk_asker q true true st r t v) =>
      Some (set_asker s k (Mk_asker [] false true st
        (match r with Unset => if st then Answer Null else Broken | _ => r end) t v))
  | _ => None
  end.
Definition ask_start (k : nat) (s : state) : option state :=
  match nth_error (askers s) k with
  | Some (Mk_asker q true st false r t v) => Some (set_asker s k (Mk_asker q true st true r t v))
  | _ => None
  end.

Inductive action :=
| Send (to : nat) (v : V) (from : option nat)  (* outside: actor to is told v *)
| Ask (to : nat) (v : V)                       (* outside: ask_impl_, 297-312 *)
| Timeout (k : nat)                            (* the timer of a question, 309 *)
| Stop (i : nat)                               (* outside: actor_system::stop *)
| Take (i : nat) | Go (i : nat) | Halt (i : nat)
| AskStart (k : nat) | AskTake (k : nat) | AskHalt (k : nat).
Definition step (s : state) (x : action) : option state :=
  match x with
  | Send to v from => Some (deliver (Actor to) (Message (source (option_map Actor from)) (Val v)) s)
  | Ask to v =>
      Some (deliver (Actor to) (Message (Asker (length (askers s))) (Val v))
              (State (actors s) (askers s ++ [Mk_asker [] true false false Unset to v])))
  | Timeout k =>
      match nth_error (askers s) k with
      | Some a => Some (if a_open a then set_asker s k (Mk_asker (a_queue a) true true (a_started a) (result a) (a_to a) (a_asked a)) else s)
      | None => None
      end
  | Stop i =>
      match nth_error (actors s) i with
      | Some a => Some (if open a then set_actor s i (Mk_actor (queue a) true true (mem a) (cur a)) else s)
      | None => None
      end
  | Take i => take i s
  | Go i => go i s
  | Halt i => halt i s
  | AskStart k => ask_start k s
  | AskTake k => ask_take k s
  | AskHalt k => ask_halt k s
  end.
Fixpoint run (s : state) (xs : list action) : option state :=
  match xs with [] => Some s | x :: t => match step s x with None => None | Some s' => run s' t end end.
Definition fresh (ms : list S) : state := State (map (fun m => Mk_actor [] true false m None) ms) [].
End Talk.
Arguments Null {V}. Arguments Val {V}. Arguments Nest {V}.
Arguments Value {V}. Arguments Taken {V}. Arguments Const {V}. Arguments Plain {V}.
Arguments Tell {V}. Arguments Forward {V}. Arguments StopSelf {V}. Arguments Throw {V}.
Arguments Message {V}. Arguments m_from {V}. Arguments m_load {V}.
Arguments Mk_actor {V S}. Arguments queue {V S}. Arguments open {V S}. Arguments stopping {V S}. Arguments mem {V S}. Arguments cur {V S}.
Arguments Unset {V}. Arguments Answer {V}. Arguments Broken {V}.
Arguments Mk_asker {V}. Arguments a_queue {V}. Arguments a_open {V}. Arguments a_stopping {V}. Arguments a_started {V}. Arguments result {V}. Arguments a_to {V}. Arguments a_asked {V}.
Arguments State {V S}. Arguments actors {V S}. Arguments askers {V S}.
Arguments Send {V}. Arguments Ask {V}. Arguments Timeout {V}. Arguments Stop {V}. Arguments Take {V}. Arguments Go {V}. Arguments Halt {V}.
Arguments AskStart {V}. Arguments AskTake {V}. Arguments AskHalt {V}.
