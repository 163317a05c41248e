(* Model of one mailbox served by the dynamic executor:
   /repo/modules/actors/yato/actors/private/mailbox.cpp, dynamic_executor.cpp
   and the senders actor_system.cpp:254-295.

   One step of the model is one critical section (everything between taking and
   releasing mailbox::m_mutex), or the handling of one popped message, which
   touches the mailbox only through further critical sections.  Any number of
   sender threads and worker threads take steps in any order.  Payloads are
   abstract: [A] with the sender's identity.  How a handler reacts to a system
   message (keep_running or request_stop, and the new value of the started flag,
   actor.cpp:161-271) is chosen freely by the environment in each step.
   The thread pool is an unordered bag of queued tasks (it is FIFO in reality,
   see PoolModel); dropping order only adds behaviours. *)
From Coq Require Import List Bool Arith.
Import ListNotations.

Section Mailbox.
Variable A : Type.                  (* message payloads *)

Record msg := Msg { m_sender : nat; m_payload : A }.
Inductive kind := User | Sys.

(* program counter of one running call of mailbox_function,
   dynamic_executor.cpp:22-52 ; the nat is the local variable count *)
Inductive pc :=
| Popping (count : nat)               (* line 28 *)
| HandlingSys (m : msg) (count : nat) (* lines 35-36 *)
| HandlingUser (m : msg) (count : nat)(* lines 43-44 *)
| Rescheduling                        (* line 51 *)
| Closing.                            (* line 38 *)

(* what happened so far: messages accepted into the queues, and messages taken
   out by activation number a *)
Inductive event :=
| Accepted (k : kind) (m : msg)
| Handled (k : kind) (m : msg) (a : nat).

Record state := State {
  usr : list msg;                     (* mailbox.h:30 *)
  sys : list msg;                     (* mailbox.h:31 *)
  is_open : bool;                     (* mailbox.h:39 *)
  scheduled : bool;                   (* mailbox.h:40 *)
  started : bool;                     (* actor_cell.h:58 *)
  pending : nat;    (* senders that got need_process = true and have not yet
                       called schedule_for_execution, actor_system.cpp:269,289 *)
  queued : nat;     (* tasks of this mailbox waiting in the thread pool *)
  acts : list (nat * pc);             (* running activations *)
  next_act : nat;                     (* ghost: number of activations so far *)
  sent : list (kind * msg);           (* ghost: all send calls, in order *)
  log : list event                    (* ghost: what happened, in order *)
}.

(* mailbox.h: a fresh mailbox of a not yet started actor *)
Definition init : state := State [] [] true false false 0 0 [] 0 [] [].

(* mailbox.cpp:77-79 *)
Definition has_work (s : state) : bool :=
  let nonempty (l : list msg) := match l with [] => false | _ => true end in
  if started s then (nonempty (usr s) && is_open s) || nonempty (sys s) else nonempty (sys s).

(* mailbox.cpp:70-88 ; dynamic_executor::execute (66-71) queues a task and
   returns true *)
Definition schedule (reschedule : bool) (s : state) : state :=
  if negb (scheduled s) || reschedule then
    if has_work s
    then State (usr s) (sys s) (is_open s) true (started s) (pending s) (S (queued s)) (acts s) (next_act s) (sent s) (log s)
    else State (usr s) (sys s) (is_open s) false (started s) (pending s) (queued s) (acts s) (next_act s) (sent s) (log s)
  else s.

(* mailbox.cpp:32-48, 51-67 : enqueue; a sender told to schedule becomes pending *)
Definition enqueue (k : kind) (m : msg) (s : state) : state :=
  let sent' := sent s ++ [(k, m)] in
  if is_open s then
    let log' := log s ++ [Accepted k m] in
    let p' := if scheduled s then pending s else S (pending s) in
    match k with
    | User => State (usr s ++ [m]) (sys s) (is_open s) (scheduled s) (started s) p' (queued s) (acts s) (next_act s) sent' log'
    | Sys => State (usr s) (sys s ++ [m]) (is_open s) (scheduled s) (started s) p' (queued s) (acts s) (next_act s) sent' log'
    end
  else State (usr s) (sys s) (is_open s) (scheduled s) (started s) (pending s) (queued s) (acts s) (next_act s) sent' (log s).

Fixpoint set_pc (l : list (nat * pc)) (a : nat) (p : pc) : list (nat * pc) :=
  match l with
  | [] => []
  | (b, q) :: t => if b =? a then (b, p) :: t else (b, q) :: set_pc t a p
  end.
Fixpoint drop_act (l : list (nat * pc)) (a : nat) : list (nat * pc) :=
  match l with
  | [] => []
  | (b, q) :: t => if b =? a then t else (b, q) :: drop_act t a
  end.
Fixpoint get_pc (l : list (nat * pc)) (a : nat) : option pc :=
  match l with
  | [] => None
  | (b, q) :: t => if b =? a then Some q else get_pc t a
  end.

Definition with_acts (s : state) (l : list (nat * pc)) : state :=
  State (usr s) (sys s) (is_open s) (scheduled s) (started s) (pending s) (queued s) l (next_act s) (sent s) (log s).

(* mailbox.cpp:133-156, called at dynamic_executor.cpp:28 *)
Definition pop (a count : nat) (s : state) : state :=
  match sys s with
  | m :: t => State (usr s) t (is_open s) (scheduled s) (started s) (pending s) (queued s)
                (set_pc (acts s) a (HandlingSys m count)) (next_act s) (sent s) (log s ++ [Handled Sys m a])
  | [] =>
      if started s then
        match usr s with
        | m :: t => State t (sys s) (is_open s) (scheduled s) (started s) (pending s) (queued s)
                      (set_pc (acts s) a (HandlingUser m count)) (next_act s) (sent s) (log s ++ [Handled User m a])
        | [] => with_acts s (set_pc (acts s) a Rescheduling)
        end
      else with_acts s (set_pc (acts s) a Rescheduling)
  end.

Inductive action :=
| Send (k : kind) (m : msg)                       (* any thread: first half of a send *)
| SenderSchedules                                 (* any pending sender: second half *)
| WorkerStarts                                    (* a pool thread takes a task *)
| Pop (a : nat)
| SysDone (a : nat) (stop : bool) (started' : bool)
| UserDone (a : nat)
| Reschedule (a : nat)
| Close (a : nat).

Variable throughput : nat.

Definition step (s : state) (x : action) : option state :=
  match x with
  | Send k m => Some (enqueue k m s)
  | SenderSchedules =>
      match pending s with
      | 0 => None
      | S p => Some (schedule false
                 (State (usr s) (sys s) (is_open s) (scheduled s) (started s) p (queued s) (acts s) (next_act s) (sent s) (log s)))
      end
  | WorkerStarts =>
      match queued s with
      | 0 => None
      | S q => Some (State (usr s) (sys s) (is_open s) (scheduled s) (started s) (pending s) q
                       (acts s ++ [(next_act s, Popping 0)]) (S (next_act s)) (sent s) (log s))
      end
  | Pop a => match get_pc (acts s) a with
             | Some (Popping c) => Some (pop a c s)
             | _ => None
             end
  | SysDone a stop st =>                            (* dynamic_executor.cpp:35-41 *)
      match get_pc (acts s) a with
      | Some (HandlingSys _ c) =>
          Some (State (usr s) (sys s) (is_open s) (scheduled s) st (pending s) (queued s)
                 (set_pc (acts s) a (if stop then Closing else Popping c)) (next_act s) (sent s) (log s))
      | _ => None
      end
  | UserDone a =>                                   (* dynamic_executor.cpp:43-48 *)
      match get_pc (acts s) a with
      | Some (HandlingUser _ c) =>
          Some (with_acts s (set_pc (acts s) a (if throughput <=? S c then Rescheduling else Popping (S c))))
      | _ => None
      end
  | Reschedule a =>                                 (* dynamic_executor.cpp:51 *)
      match get_pc (acts s) a with
      | Some Rescheduling => Some (schedule true (with_acts s (drop_act (acts s) a)))
      | _ => None
      end
  | Close a =>                                      (* mailbox.cpp:125-130 *)
      match get_pc (acts s) a with
      | Some Closing =>
          Some (State (usr s) (sys s) false false (started s) (pending s) (queued s)
                 (drop_act (acts s) a) (next_act s) (sent s) (log s))
      | _ => None
      end
  end.

Fixpoint run (s : state) (xs : list action) : option state :=
  match xs with
  | [] => Some s
  | x :: t => match step s x with
              | None => None
              | Some s' => run s' t
              end
  end.

(* ---- specification vocabulary ---- *)
Definition reachable (s : state) : Prop := exists xs, run init xs = Some s.
Definition kind_eqb (a b : kind) : bool :=
  match a, b with User, User => true | Sys, Sys => true | _, _ => false end.
Definition accepted_of (k : kind) (l : list event) : list msg :=
  flat_map (fun e => match e with Accepted k' m => if kind_eqb k k' then [m] else [] | _ => [] end) l.
Definition handled_of (k : kind) (l : list event) : list msg :=
  flat_map (fun e => match e with Handled k' m _ => if kind_eqb k k' then [m] else [] | _ => [] end) l.
Definition sent_of (k : kind) (l : list (kind * msg)) : list msg :=
  flat_map (fun e => if kind_eqb k (fst e) then [snd e] else []) l.
Definition from (who : nat) (l : list msg) : list msg := filter (fun m => m_sender m =? who) l.
Definition prefix {B} (a b : list B) : Prop := exists c, b = a ++ c.
Definition handled_users_by (a : nat) (l : list event) : nat :=
  length (filter (fun e => match e with Handled User _ b => b =? a | _ => false end) l).
(* steps that do not depend on anybody sending *)
Definition internal (x : action) : bool := match x with Send _ _ => false | _ => true end.
Definition processable (s : state) : bool :=
  match sys s, usr s with
  | _ :: _, _ => true
  | [], _ :: _ => started s
  | [], [] => false
  end.
End Mailbox.
Arguments Msg {A}. Arguments m_sender {A}. Arguments m_payload {A}.
Arguments Accepted {A}. Arguments Handled {A}. Arguments State {A}.
Arguments Popping {A}. Arguments Rescheduling {A}. Arguments Closing {A}. Arguments HandlingSys {A}. Arguments HandlingUser {A}.
Arguments Send {A}. Arguments SenderSchedules {A}. Arguments WorkerStarts {A}. Arguments Pop {A}.
Arguments SysDone {A}. Arguments UserDone {A}. Arguments Reschedule {A}. Arguments Close {A}.
Arguments usr {A}. Arguments sys {A}. Arguments is_open {A}. Arguments scheduled {A}. Arguments started {A}.
Arguments pending {A}. Arguments queued {A}. Arguments acts {A}. Arguments next_act {A}. Arguments sent {A}. Arguments log {A}.
