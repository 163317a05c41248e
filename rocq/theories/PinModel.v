(* A mailbox served by the pinned executor, and the mailbox of an inbox.
   /repo/modules/actors/yato/actors/private/mailbox.cpp, pinned_executor.cpp,
   inbox.cpp, and the senders actor_system.cpp:254-295.

   One step is one critical section under mailbox::m_mutex (up to its end or to a
   wait on m_condition), a wake-up, or the handling of one message, which is noexcept
   (actor.cpp:78, 161).  A waiting thread is woken by notify_one, which chooses
   any of those waiting, or spuriously.  As in MailboxModel, payloads are abstract
   and the reaction to a system message is chosen by the environment.
   pinned_executor::m_threads is read and extended without a lock by all the
   mailboxes that use the executor (pinned_executor.cpp:70-76); the steps here
   are taken to be atomic. *)
From Coq Require Import List Bool Arith.
Import ListNotations.

Section Pin.
Variable A : Type.
Inductive kind := User | Sys.

(* program counter of pinned_thread_function, pinned_executor.cpp:25-53 *)
Inductive pc :=
| Popping                 (* about to take the lock or woken, mailbox.cpp:166-178 *)
| Waiting                 (* in m_condition.wait, mailbox.cpp:175 *)
| HandlingSys (m : A)     (* 34 *)
| HandlingUser (m : A)    (* 40 *)
| Closing.                (* 43 *)
Inductive event := Accepted (k : kind) (m : A) | Handled (k : kind) (m : A).

Record state := State {
  usr : list A; sys : list A;     (* mailbox.h:30,31 *)
  is_open : bool;                 (* 39 *)
  scheduled : bool;               (* 40 *)
  started : bool;                 (* actor_cell.h:58 *)
  pending : nat;                  (* senders told to schedule that have not done so yet *)
  slots : nat;                    (* m_threads_limit - m_threads.size(), not below 0 *)
  threads : list (nat * pc);      (* threads of this mailbox that have not ended *)
  next : nat;                     (* ghost: threads started for this mailbox *)
  ended : nat;                    (* ghost: threads of this mailbox that have ended *)
  refused : bool;                 (* ghost: execute() has returned false *)
  log : list event                (* ghost *)
}.
Definition init (limit : nat) : state := State [] [] true false false 0 limit [] 0 0 false [].

Definition nonempty {B} (l : list B) : bool := match l with [] => false | _ => true end.
(* mailbox.cpp:77-79 *)
Definition has_work (s : state) : bool :=
  if started s then (nonempty (usr s) && is_open s) || nonempty (sys s) else nonempty (sys s).
(* schedule_for_execution, mailbox.cpp:70-88, with pinned_executor::execute, 68-78 *)
Definition schedule (s : state) : state :=
  if scheduled s then s else
  if has_work s then
    match slots s with
    | 0 => State (usr s) (sys s) (is_open s) false (started s) (pending s) 0 (threads s) (next s) (ended s) true (log s)
    | S n => State (usr s) (sys s) (is_open s) true (started s) (pending s) n (threads s ++ [(next s, Popping)]) (S (next s)) (ended s) (refused s) (log s)
    end
  else s.

Fixpoint get_pc (l : list (nat * pc)) (a : nat) : option pc :=
  match l with
  | [] => None
  | (b, p) :: t => if b =? a then Some p else get_pc t a
  end.
Fixpoint set_pc (l : list (nat * pc)) (a : nat) (p : pc) : list (nat * pc) :=
  match l with
  | [] => []
  | (b, q) :: t => if b =? a then (b, p) :: t else (b, q) :: set_pc t a p
  end.
Fixpoint drop_pc (l : list (nat * pc)) (a : nat) : list (nat * pc) :=
  match l with
  | [] => []
  | (b, q) :: t => if b =? a then t else (b, q) :: drop_pc t a
  end.
Definition is_waiting (p : pc) : bool := match p with Waiting => true | _ => false end.
(* m_condition.notify_one: a waiting thread is woken, if there is one; [w] is the
   choice *)
Definition notify (w : nat) (l : list (nat * pc)) : option (list (nat * pc)) :=
  if existsb (fun e => is_waiting (snd e)) l
  then match get_pc l w with Some Waiting => Some (set_pc l w Popping) | _ => None end
  else Some l.
(* enqueue_user_message, enqueue_system_message, mailbox.cpp:32-67 *)
Definition enqueue (k : kind) (m : A) (w : nat) (s : state) : option state :=
  if is_open s then
    match notify w (threads s) with
    | None => None
    | Some ts =>
        let p := if scheduled s then pending s else S (pending s) in
        Some (match k with
              | User => State (usr s ++ [m]) (sys s) true (scheduled s) (started s) p (slots s) ts (next s) (ended s) (refused s) (log s ++ [Accepted User m])
              | Sys => State (usr s) (sys s ++ [m]) true (scheduled s) (started s) p (slots s) ts (next s) (ended s) (refused s) (log s ++ [Accepted Sys m])
              end)
    end
  else Some s.
Definition with_threads (s : state) (ts : list (nat * pc)) : state :=
  State (usr s) (sys s) (is_open s) (scheduled s) (started s) (pending s) (slots s) ts (next s) (ended s) (refused s) (log s).
(* try_pop_prioritized_message_, mailbox.cpp:133-156, and the wait, 166-178 *)
Definition pop (a : nat) (s : state) : state :=
  match sys s with
  | m :: t => State (usr s) t (is_open s) (scheduled s) (started s) (pending s) (slots s) (set_pc (threads s) a (HandlingSys m)) (next s) (ended s) (refused s) (log s ++ [Handled Sys m])
  | [] =>
      if started s then
        match usr s with
        | m :: t => State t [] (is_open s) (scheduled s) (started s) (pending s) (slots s) (set_pc (threads s) a (HandlingUser m)) (next s) (ended s) (refused s) (log s ++ [Handled User m])
        | [] => with_threads s (set_pc (threads s) a Waiting)
        end
      else with_threads s (set_pc (threads s) a Waiting)
  end.

Inductive action :=
| Send (k : kind) (m : A) (w : nat)     (* first half of a send *)
| SenderSchedules                       (* second half of a send *)
| OtherMailbox                          (* another mailbox takes a thread of the executor *)
| Pop (a : nat)
| Wakeup (a : nat)                      (* spurious *)
| SysDone (a : nat) (stop started' : bool)
| UserDone (a : nat)
| Close (a : nat).                      (* mailbox.cpp:125-130; the thread ends *)

Definition step (s : state) (x : action) : option state :=
  match x with
  | Send k m w => enqueue k m w s
  | SenderSchedules =>
      match pending s with
      | 0 => None
      | S p => Some (schedule (State (usr s) (sys s) (is_open s) (scheduled s) (started s) p (slots s) (threads s) (next s) (ended s) (refused s) (log s)))
      end
  | OtherMailbox =>
      match slots s with
      | 0 => None
      | S n => Some (State (usr s) (sys s) (is_open s) (scheduled s) (started s) (pending s) n (threads s) (next s) (ended s) (refused s) (log s))
      end
  | Pop a => match get_pc (threads s) a with Some Popping => Some (pop a s) | _ => None end
  | Wakeup a => match get_pc (threads s) a with Some Waiting => Some (with_threads s (set_pc (threads s) a Popping)) | _ => None end
  | SysDone a stop st =>
      match get_pc (threads s) a with
      | Some (HandlingSys _) =>
          Some (State (usr s) (sys s) (is_open s) (scheduled s) st (pending s) (slots s) (set_pc (threads s) a (if stop then Closing else Popping)) (next s) (ended s) (refused s) (log s))
      | _ => None
      end
  | UserDone a =>
      match get_pc (threads s) a with
      | Some (HandlingUser _) => Some (with_threads s (set_pc (threads s) a Popping))
      | _ => None
      end
  | Close a =>
      match get_pc (threads s) a with
      | Some Closing => Some (State (usr s) (sys s) false false (started s) (pending s) (slots s) (drop_pc (threads s) a) (next s) (S (ended s)) (refused s) (log s))
      | _ => None
      end
  end.
Fixpoint run (s : state) (xs : list action) : option state :=
  match xs with
  | [] => Some s
  | x :: t => match step s x with None => None | Some s' => run s' t end
  end.

(* ---- an inbox ---- *)
(* a mailbox in manual mode, mailbox.cpp:16-27: it is open and counts as scheduled,
   so that no sender ever schedules it; the receivers are threads inside
   pop_user_message_sync, 106-121 *)
Inductive rpc :=
| Checking                (* has the lock or is about to take it *)
| Blocked.                (* in wait_until *)
Inductive ievent := ISent (m : A) | IGot (r : nat) (m : A) | INone (r : nat).
Record istate := IState {
  iusr : list A;
  isys : list A;                  (* never read *)
  receivers : list (nat * rpc);
  inext : nat;                    (* ghost: calls of receive so far *)
  ilog : list ievent              (* ghost *)
}.
Definition iinit : istate := IState [] [] [] 0 [].
Fixpoint iget (l : list (nat * rpc)) (a : nat) : option rpc :=
  match l with
  | [] => None
  | (b, p) :: t => if b =? a then Some p else iget t a
  end.
Fixpoint iset (l : list (nat * rpc)) (a : nat) (p : rpc) : list (nat * rpc) :=
  match l with
  | [] => []
  | (b, q) :: t => if b =? a then (b, p) :: t else (b, q) :: iset t a p
  end.
Fixpoint idrop (l : list (nat * rpc)) (a : nat) : list (nat * rpc) :=
  match l with
  | [] => []
  | (b, q) :: t => if b =? a then t else (b, q) :: idrop t a
  end.
Definition is_blocked (p : rpc) : bool := match p with Blocked => true | Checking => false end.
Definition inotify (w : nat) (l : list (nat * rpc)) : option (list (nat * rpc)) :=
  if existsb (fun e => is_blocked (snd e)) l
  then match iget l w with Some Blocked => Some (iset l w Checking) | _ => None end
  else Some l.
Inductive iaction :=
| ISend (k : kind) (m : A) (w : nat)    (* a whole send: it never goes on to schedule *)
| IReceive                              (* a thread calls receive *)
| ICheck (r : nat) (due : bool)         (* it finds a message, or waits, or gives up when the time is over *)
| IWake (r : nat).                      (* time-out or spurious wake-up *)
Definition istep (s : istate) (x : iaction) : option istate :=
  match x with
  | ISend k m w =>
      match inotify w (receivers s) with
      | None => None
      | Some rs => Some (match k with
                         | User => IState (iusr s ++ [m]) (isys s) rs (inext s) (ilog s ++ [ISent m])
                         | Sys => IState (iusr s) (isys s ++ [m]) rs (inext s) (ilog s)
                         end)
      end
  | IReceive => Some (IState (iusr s) (isys s) (receivers s ++ [(inext s, Checking)]) (S (inext s)) (ilog s))
  | ICheck r due =>
      match iget (receivers s) r with
      | Some Checking =>
          match iusr s with
          | m :: t => Some (IState t (isys s) (idrop (receivers s) r) (inext s) (ilog s ++ [IGot r m]))
          | [] => if due then Some (IState [] (isys s) (idrop (receivers s) r) (inext s) (ilog s ++ [INone r]))
                  else Some (IState [] (isys s) (iset (receivers s) r Blocked) (inext s) (ilog s))
          end
      | _ => None
      end
  | IWake r => match iget (receivers s) r with Some Blocked => Some (IState (iusr s) (isys s) (iset (receivers s) r Checking) (inext s) (ilog s)) | _ => None end
  end.
Fixpoint irun (s : istate) (xs : list iaction) : option istate :=
  match xs with
  | [] => Some s
  | x :: t => match istep s x with None => None | Some s' => irun s' t end
  end.
End Pin.
Arguments usr {A}. Arguments sys {A}. Arguments is_open {A}. Arguments scheduled {A}.
Arguments started {A}. Arguments pending {A}. Arguments slots {A}. Arguments threads {A}.
Arguments next {A}. Arguments ended {A}. Arguments refused {A}. Arguments log {A}.
Arguments iusr {A}. Arguments isys {A}. Arguments receivers {A}. Arguments inext {A}. Arguments ilog {A}.
