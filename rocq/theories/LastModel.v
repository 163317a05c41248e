(** The last owner of the input-output service.

    io/private/facade.cpp:24-28 makes one [io_context] (io/private/context.h:28-68):
    a service, and a thread which runs the handlers of that service.  The object
    is shared: the two managers, every listener and every acceptor keep a
    [shared_ptr] to it.  Connections do not: a [tcp_connection]
    (io/private/tcp_connection.h:21-43) or [udp_connection]
    (io/private/udp_connection.h:23-45) has a socket, and a socket keeps a plain
    reference to the service.

    This file follows who owns what, and on which thread the last owner lets go.
    Each step below is one piece of code of one thread; an execution is any list
    of steps, so all interleavings are covered.

    Simplifications:
    - bytes, addresses and names are left out (IoModel.v has them);
    - the weak pointers of handlers are represented by the number of the listener
      or connection; [lock] succeeds while somebody else owns the object;
    - the cell of an actor is destroyed only after its children's cells
      (TreeModel.v, C44), which is the guard of the steps [Free], [FreeTcp] and
      [FreeUdp];
    - the failure of [bind] of the acceptor's socket is the step [StartFail];
      what becomes of such an actor is modelled in ActorModel.v. *)

Require Import List Bool Arith.
Import ListNotations.

(** What may go wrong:
    - [SelfJoin]: the thread of the service joins itself, which throws inside a
      destructor, so the program terminates (context.h:48-52);
    - [DeadSocket]: a socket is destroyed after its service (undefined behaviour);
    - [DeadSystem]: a handler tells a message through a reference of an actor
      system which is destroyed (undefined behaviour). *)
Inductive fault := SelfJoin | DeadSocket | DeadSystem.

(** The state of the service: it runs; its owner's destructor waits for the
    thread (context.h:49-51); it is destroyed. *)
Inductive service := Live | Closing | Gone.

(** The life of a listener, tcp_listener.h:106-139: made, started, after
    [post_stop], after the executor closed the mailbox
    (private/dynamic_executor.cpp:35-40, private/pinned_executor.cpp:43-44). *)
Inductive phase := New | Running | Stopped | Closed.

(** A listener (tcp_listener.h:99-103) with its mailbox. *)
Record listener := {
  l_cell  : bool;      (* the actor object and its m_context exist *)
  l_phase : phase;
  l_acc   : bool;      (* m_acceptor is set *)
  l_held  : nat;       (* shared pointers to the mailbox other than the cell's:
                          executors' threads and senders *)
  l_msgs  : list nat   (* connections inside the unread [accept] messages *)
}.

(** The parent of a remote actor: tcp.cpp:95, tcp_listener.h:121, udp.cpp:49. *)
Inductive parent := PTcp | PUdp | PListener (l : nat).

(** What the thread of the service is doing: nothing; [handle_accept_]
    (tcp_listener.h:52-60) of the acceptor of a listener, before [tell], before
    [start_accept_], before its end; [handle_receive_] (tcp_receiver.h:34-63,
    udp_receiver.h:42-69) for a connection. *)
Inductive work :=
| Idle
| AccTell (l c : nat)
| AccArm (l c : nat)
| AccEnd (l c : nat)
| Recv (c : nat).

Record state := {
  svc   : service;
  count : nat;                      (* use count of shared_ptr<io_context> *)
  tcp   : bool;                     (* the tcp manager exists (tcp.h:168) *)
  udp   : bool;                     (* the udp manager exists (udp.h:133) *)
  sys   : bool;                     (* the actor system exists *)
  lst   : list listener;            (* all listeners ever made *)
  ops   : list (nat * nat);         (* pending accepts: listener, connection *)
  rem   : list (nat * parent);      (* remotes: connection, parent *)
  io    : work;
  next  : nat;                      (* number of the next connection *)
  bad   : option fault
}.

(** facade.cpp:24-28 after its return: both managers own the context. *)
Definition init : state :=
  {| svc := Live; count := 2; tcp := true; udp := true; sys := true; lst := [];
     ops := []; rem := []; io := Idle; next := 0; bad := None |}.

(** Updates of single fields (C++ assignment of a member). *)
Definition set_svc v s := {| svc := v; count := count s; tcp := tcp s; udp := udp s;
  sys := sys s; lst := lst s; ops := ops s; rem := rem s; io := io s; next := next s;
  bad := bad s |}.
Definition set_count v s := {| svc := svc s; count := v; tcp := tcp s; udp := udp s;
  sys := sys s; lst := lst s; ops := ops s; rem := rem s; io := io s; next := next s;
  bad := bad s |}.
Definition set_tcp v s := {| svc := svc s; count := count s; tcp := v; udp := udp s;
  sys := sys s; lst := lst s; ops := ops s; rem := rem s; io := io s; next := next s;
  bad := bad s |}.
Definition set_udp v s := {| svc := svc s; count := count s; tcp := tcp s; udp := v;
  sys := sys s; lst := lst s; ops := ops s; rem := rem s; io := io s; next := next s;
  bad := bad s |}.
Definition set_sys v s := {| svc := svc s; count := count s; tcp := tcp s; udp := udp s;
  sys := v; lst := lst s; ops := ops s; rem := rem s; io := io s; next := next s;
  bad := bad s |}.
Definition set_lst v s := {| svc := svc s; count := count s; tcp := tcp s; udp := udp s;
  sys := sys s; lst := v; ops := ops s; rem := rem s; io := io s; next := next s;
  bad := bad s |}.
Definition set_ops v s := {| svc := svc s; count := count s; tcp := tcp s; udp := udp s;
  sys := sys s; lst := lst s; ops := v; rem := rem s; io := io s; next := next s;
  bad := bad s |}.
Definition set_rem v s := {| svc := svc s; count := count s; tcp := tcp s; udp := udp s;
  sys := sys s; lst := lst s; ops := ops s; rem := v; io := io s; next := next s;
  bad := bad s |}.
Definition set_io v s := {| svc := svc s; count := count s; tcp := tcp s; udp := udp s;
  sys := sys s; lst := lst s; ops := ops s; rem := rem s; io := v; next := next s;
  bad := bad s |}.
Definition set_next v s := {| svc := svc s; count := count s; tcp := tcp s; udp := udp s;
  sys := sys s; lst := lst s; ops := ops s; rem := rem s; io := io s; next := v;
  bad := bad s |}.
Definition set_bad v s := {| svc := svc s; count := count s; tcp := tcp s; udp := udp s;
  sys := sys s; lst := lst s; ops := ops s; rem := rem s; io := io s; next := next s;
  bad := v |}.

(** Replace the n-th listener. *)
Fixpoint upd (n : nat) (v : listener) (ls : list listener) : list listener :=
  match ls, n with
  | [], _ => []
  | _ :: r, O => v :: r
  | x :: r, S m => x :: upd m v r
  end.

Definition put (l : nat) (v : listener) (s : state) : state := set_lst (upd l v (lst s)) s.

(** The connection which the running handler keeps: the argument [connection]
    bound to [handle_accept_] (tcp_listener.h:74-75), or the member of the locked
    receiver (tcp_receiver.h:30). *)
Definition held_by_io (w : work) : list nat :=
  match w with
  | Idle => []
  | AccTell _ c | AccArm _ c | AccEnd _ c | Recv c => [c]
  end.

(** Shared pointers to connections: in messages (tcp_listener.h:31), in pending
    operations (tcp_listener.h:75), in remotes and their receivers
    (tcp_remote.h:29-30, udp_remote.h:32-33), in the running handler. *)
Definition owners (s : state) : list nat :=
  concat (map l_msgs (lst s)) ++ map snd (ops s) ++ map fst (rem s) ++ held_by_io (io s).

(** The end of one shared pointer to the connection [c], which is already removed
    from [s]: the last one destroys the socket, and that needs the service. *)
Definition drop (c : nat) (s : state) : state :=
  if existsb (Nat.eqb c) (owners s) then s
  else match svc s with
       | Gone => set_bad (Some DeadSocket) s
       | _ => s
       end.

Definition drops (cs : list nat) (s : state) : state := fold_right drop s cs.

(** The end of one [shared_ptr<io_context>].  The last one runs ~io_context
    (context.h:48-52) on the thread of the caller: the thread of the service
    itself cannot be joined by itself; any other thread waits in [join]. *)
Definition release (on_io : bool) (s : state) : state :=
  match count s with
  | S O => if on_io then set_bad (Some SelfJoin) (set_count 0 s)
           else set_svc Closing (set_count 0 s)
  | n => set_count (pred n) s
  end.

(** The running handler has locked the acceptor of [l] (tcp_listener.h:55). *)
Definition locks (l : nat) (w : work) : bool :=
  match w with
  | AccTell k _ | AccArm k _ | AccEnd k _ => Nat.eqb k l
  | _ => false
  end.

Inductive event :=
| Bind                        (* tcp.cpp:48-67 *)
| Start (l : nat)             (* tcp_listener.h:106-110 *)
| StartFail (l : nat)         (* tcp_listener.h:78-79 throws *)
| Complete (l c : nat)        (* an accept ends; tcp_listener.h:53-56 *)
| Tell                        (* tcp_listener.h:57 *)
| Arm                         (* tcp_listener.h:58, 71-76 *)
| End                         (* tcp_listener.h:60 *)
| Take (l : nat) (ok : bool)  (* tcp_listener.h:115-125 *)
| Connect                     (* tcp.cpp:85-95 *)
| UdpBind                     (* udp.cpp:44-52 *)
| RecvBegin (c : nat)         (* tcp_receiver.h:37, udp_receiver.h:45 *)
| RecvEnd                     (* tcp_receiver.h:38-63, udp_receiver.h:46-69 *)
| EndRemote (c : nat)         (* the cell of a remote is destroyed *)
| Stop (l : nat)              (* tcp_listener.h:135-139 *)
| Close (l : nat)             (* private/mailbox.cpp:125-130 *)
| Free (l : nat)              (* private/actor_cell.cpp:53-60 *)
| Grab (l : nat)              (* a thread makes a shared_ptr<mailbox> *)
| Let (l : nat)               (* and destroys it *)
| FreeTcp                     (* tcp.cpp:38 *)
| FreeUdp                     (* udp.cpp:35 *)
| Join                        (* context.h:51-52 *)
| FreeSys.                    (* private/actor_system.cpp:158-166 *)

Definition is_gone (v : service) : bool := match v with Gone => true | _ => false end.
Definition is_closing (v : service) : bool := match v with Closing => true | _ => false end.
Definition is_idle (w : work) : bool := match w with Idle => true | _ => false end.
Definition phase_eqb (p q : phase) : bool :=
  match p, q with
  | New, New | Running, Running | Stopped, Stopped | Closed, Closed => true
  | _, _ => false
  end.
Definition parent_eqb (p q : parent) : bool :=
  match p, q with
  | PTcp, PTcp | PUdp, PUdp => true
  | PListener a, PListener b => Nat.eqb a b
  | _, _ => false
  end.

(** No remote is a child of [p]. *)
Definition childless (p : parent) (s : state) : bool :=
  negb (existsb (fun r => parent_eqb (snd r) p) (rem s)).

(** Remove the first pair which satisfies a test. *)
Fixpoint remove_first {A : Type} (f : A -> bool) (xs : list A) : list A :=
  match xs with
  | [] => []
  | x :: r => if f x then r else x :: remove_first f r
  end.

(** tcp_listener.h:71-76: the connection of the next accept is made, and the
    operation is given to the service. *)
Definition start_accept (l : nat) (s : state) : state :=
  set_next (S (next s)) (set_ops (ops s ++ [(l, next s)]) s).

(** One step; [None] when the code cannot be at that point. *)
Definition step (e : event) (s : state) : option state :=
  match bad s with
  | Some _ => None
  | None =>
  match e with
  | Bind =>
      (* tcp.cpp:63: the listener's constructor copies m_context *)
      if tcp s then
        Some (set_count (S (count s))
               (set_lst (lst s ++ [{| l_cell := true; l_phase := New; l_acc := false;
                                      l_held := 0; l_msgs := [] |}]) s))
      else None
  | Start l =>
      match nth_error (lst s) l with
      | Some x =>
          if l_cell x && phase_eqb (l_phase x) New then
            Some (start_accept l (set_count (S (count s))
                   (put l {| l_cell := true; l_phase := Running; l_acc := true;
                             l_held := l_held x; l_msgs := l_msgs x |} s)))
          else None
      | None => None
      end
  | StartFail l =>
      match nth_error (lst s) l with
      | Some x =>
          if l_cell x && phase_eqb (l_phase x) New then
            Some (put l {| l_cell := true; l_phase := Running; l_acc := false;
                           l_held := l_held x; l_msgs := l_msgs x |} s)
          else None
      | None => None
      end
  | Complete l c =>
      if is_idle (io s) && negb (is_gone (svc s))
         && existsb (fun o => Nat.eqb (fst o) l && Nat.eqb (snd o) c) (ops s) then
        let s1 := set_ops (remove_first
                    (fun o => Nat.eqb (fst o) l && Nat.eqb (snd o) c) (ops s)) s in
        match nth_error (lst s) l with
        | Some x => if l_acc x then Some (set_io (AccTell l c) s1) else Some (drop c s1)
        | None => None
        end
      else None
  | Tell =>
      match io s with
      | AccTell l c =>
          if sys s then
            let s1 := set_io (AccArm l c) s in
            match nth_error (lst s) l with
            | Some x =>
                (* private/actor_system.cpp:263-271, private/mailbox.cpp:32-48:
                   the mailbox is found while somebody owns it, and takes the
                   message while it is open *)
                if (l_cell x || Nat.ltb 0 (l_held x)) && negb (phase_eqb (l_phase x) Closed) then
                  Some (put l {| l_cell := l_cell x; l_phase := l_phase x; l_acc := l_acc x;
                                 l_held := l_held x; l_msgs := l_msgs x ++ [c] |} s1)
                else Some s1
            | None => None
            end
          else Some (set_bad (Some DeadSystem) s)
      | _ => None
      end
  | Arm =>
      match io s with
      | AccArm l c => Some (start_accept l (set_io (AccEnd l c) s))
      | _ => None
      end
  | End =>
      match io s with
      | AccEnd l c =>
          match nth_error (lst s) l with
          | Some x =>
              let s1 := set_io Idle s in
              Some (drop c (if l_acc x then s1 else release true s1))
          | None => None
          end
      | _ => None
      end
  | Take l ok =>
      match nth_error (lst s) l with
      | Some x =>
          match l_msgs x with
          | c :: r =>
              if l_cell x && phase_eqb (l_phase x) Running then
                let s1 := put l {| l_cell := l_cell x; l_phase := l_phase x; l_acc := l_acc x;
                                   l_held := l_held x; l_msgs := r |} s in
                Some (if ok then set_rem (rem s ++ [(c, PListener l)]) s1 else drop c s1)
              else None
          | [] => None
          end
      | None => None
      end
  | Connect =>
      if tcp s then Some (set_next (S (next s)) (set_rem (rem s ++ [(next s, PTcp)]) s))
      else None
  | UdpBind =>
      if udp s then Some (set_next (S (next s)) (set_rem (rem s ++ [(next s, PUdp)]) s))
      else None
  | RecvBegin c =>
      if is_idle (io s) && negb (is_gone (svc s)) && existsb (Nat.eqb c) (map fst (rem s))
      then Some (set_io (Recv c) s) else None
  | RecvEnd =>
      match io s with
      | Recv c =>
          (* the handler tells the remote or the handler (tcp_receiver.h:41-60) *)
          if sys s then Some (drop c (set_io Idle s)) else Some (set_bad (Some DeadSystem) s)
      | _ => None
      end
  | EndRemote c =>
      if existsb (Nat.eqb c) (map fst (rem s)) then
        Some (drop c (set_rem (remove_first (fun r => Nat.eqb c (fst r)) (rem s)) s))
      else None
  | Stop l =>
      match nth_error (lst s) l with
      | Some x =>
          if l_cell x && phase_eqb (l_phase x) Running && childless (PListener l) s then
            let s1 := put l {| l_cell := true; l_phase := Stopped; l_acc := false;
                               l_held := l_held x; l_msgs := l_msgs x |} s in
            Some (if l_acc x && negb (locks l (io s)) then release false s1 else s1)
          else None
      | None => None
      end
  | Close l =>
      match nth_error (lst s) l with
      | Some x =>
          if l_cell x && phase_eqb (l_phase x) Stopped then
            Some (put l {| l_cell := true; l_phase := Closed; l_acc := false;
                           l_held := l_held x; l_msgs := l_msgs x |} s)
          else None
      | None => None
      end
  | Free l =>
      match nth_error (lst s) l with
      | Some x =>
          if l_cell x && phase_eqb (l_phase x) Closed && childless (PListener l) s then
            if Nat.eqb (l_held x) 0 then
              (* the mailbox goes with the cell, and its messages with it *)
              Some (drops (l_msgs x) (release false
                     (put l {| l_cell := false; l_phase := Closed; l_acc := false;
                               l_held := 0; l_msgs := [] |} s)))
            else
              Some (release false
                     (put l {| l_cell := false; l_phase := Closed; l_acc := false;
                               l_held := l_held x; l_msgs := l_msgs x |} s))
          else None
      | None => None
      end
  | Grab l =>
      match nth_error (lst s) l with
      | Some x =>
          if l_cell x || Nat.ltb 0 (l_held x) then
            Some (put l {| l_cell := l_cell x; l_phase := l_phase x; l_acc := l_acc x;
                           l_held := S (l_held x); l_msgs := l_msgs x |} s)
          else None
      | None => None
      end
  | Let l =>
      match nth_error (lst s) l with
      | Some x =>
          match l_held x with
          | O => None
          | S h =>
              if negb (l_cell x) && Nat.eqb h 0 then
                Some (drops (l_msgs x)
                       (put l {| l_cell := false; l_phase := l_phase x; l_acc := l_acc x;
                                 l_held := 0; l_msgs := [] |} s))
              else
                Some (put l {| l_cell := l_cell x; l_phase := l_phase x; l_acc := l_acc x;
                               l_held := h; l_msgs := l_msgs x |} s)
          end
      | None => None
      end
  | FreeTcp =>
      if tcp s && negb (existsb l_cell (lst s)) && childless PTcp s then
        Some (release false (set_tcp false s))
      else None
  | FreeUdp =>
      if udp s && childless PUdp s then Some (release false (set_udp false s)) else None
  | Join =>
      (* ~io_service destroys the pending operations while its services exist *)
      if is_closing (svc s) && is_idle (io s) then Some (set_ops [] (set_svc Gone s))
      else None
  | FreeSys =>
      (* the system's destructor waits for all actors and then for the executors'
         threads; one of those is the one which waits in [Join] *)
      if sys s && negb (tcp s) && negb (udp s) && negb (is_closing (svc s)) then
        Some (set_sys false s)
      else None
  end
  end.

(** An execution. *)
Fixpoint run (es : list event) (s : state) : option state :=
  match es with
  | [] => Some s
  | e :: r => match step e s with Some s1 => run r s1 | None => None end
  end.
