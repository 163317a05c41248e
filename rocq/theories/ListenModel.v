(* A listener for TCP connections and the remote actors it creates:
   /repo/modules/actors/yato/actors/io/private/tcp_listener.h, with the parts of
   private/actor.cpp that start and stop actors.

   Connections are numbered in the order they are accepted in.  As in IoModel the
   kernel and asio are the environment; one step is one message handled by an actor
   or one completion handled on the thread of the io_service.  A remote actor (IoModel)
   appears only by its life: it starts, or its start fails, and it ends.  System
   messages are taken before user messages (C40), users' ones only by a started actor
   (C43).  Logging and watch messages are left out. *)
From Coq Require Import List Bool Arith.
Import ListNotations.

(* user messages: accept (tcp_listener.h:29-37) with a connection or an error,
   terminated of the server, the pill, and any other *)
Inductive umsg := MAccept (c : option nat) | MTerminated | MPoison | MOther.
(* system messages, system_message.h; detach_child has the reference of the child, which
   compares by path (actor_ref.h:118-121) *)
Inductive smsg := SStop | SAttach (c : nat) | SDetach (name : nat).
(* New: start has been sent; Failed: pre_start threw, the mailbox is closed (actor.cpp:180-183);
   Ended: stop_impl is done *)
Inductive kstate := New | Running | Failed | Ended.
Inductive phase := Fresh | Alive | Stopping | Gone | Destroyed.
Record state := State {
  ph : phase;
  acceptor : bool;                       (* m_acceptor is not null *)
  armed : bool;                          (* an async_accept is pending, 71-76 *)
  mail : list umsg;
  sys : list smsg;
  kids : list (nat * kstate);            (* the remotes, by connection, actor_cell.h:74 *)
  names : list nat;                      (* ghost: the address and port of each connection accepted *)
  told : list nat;                       (* ghost: connections the server was told of, tcp_remote.h:38 *)
  closed : list nat;                     (* ghost: connections destroyed, which closes the socket *)
  lost : list nat                        (* ghost: those of them whose peer was gone before there was a remote *)
}.
Definition state0 : state := State Fresh false false [] [] [] [] [] [] [].
(* remote_name, tcp_listener.h:120 *)
Definition name_of (s : state) (c : nat) : nat := nth c (names s) 0.

Inductive action :=
| Start (bindable : bool)                (* the system message start *)
| Accept (name : nat)                    (* a connection: handle_accept_ without error *)
| AcceptError                            (* handle_accept_ with an error *)
| Tell (m : umsg)                        (* another actor tells the listener something *)
| StopRequest                            (* the system message stop *)
| Handle (there : bool)                  (* a user message is handled; there: remote_endpoint does not throw *)
| HandleSys                              (* a system message is handled *)
| KidStarts (c : nat) (there : bool)     (* the remote of c handles start; there: remote_endpoint does not throw *)
| KidEnds (c : nat)                      (* the remote of c stops, for whatever reason *)
| Destroy.                               (* the manager destroys the cell with its mailbox *)

Definition set_mail (s : state) (m : list umsg) : state :=
  State (ph s) (acceptor s) (armed s) m (sys s) (kids s) (names s) (told s) (closed s) (lost s).
Definition set_sys (s : state) (m : list smsg) : state :=
  State (ph s) (acceptor s) (armed s) (mail s) m (kids s) (names s) (told s) (closed s) (lost s).
Definition set_kids (s : state) (k : list (nat * kstate)) : state :=
  State (ph s) (acceptor s) (armed s) (mail s) (sys s) k (names s) (told s) (closed s) (lost s).
Definition set_closed (s : state) (c : list nat) : state :=
  State (ph s) (acceptor s) (armed s) (mail s) (sys s) (kids s) (names s) (told s) c (lost s).
Definition set_ph (s : state) (p : phase) : state :=
  State p (acceptor s) (armed s) (mail s) (sys s) (kids s) (names s) (told s) (closed s) (lost s).
(* the mailbox takes messages until it is closed, mailbox.cpp:32-67 *)
Definition is_open (s : state) : bool := match ph s with Gone | Destroyed => false | _ => true end.

(* handle_accept_, 52-60: the weak pointer is empty once post_stop has reset m_acceptor;
   the connection is destroyed with the handler then *)
Definition accept (s : state) (name : option nat) : state :=
  let c := length (names s) in
  let s1 := match name with
            | None => s
            | Some n => State (ph s) (acceptor s) (armed s) (mail s) (sys s) (kids s) (names s ++ [n]) (told s) (closed s) (lost s)
            end in
  if acceptor s then set_mail s1 (mail s1 ++ [MAccept (match name with None => None | Some _ => Some c end)])
  else
    let s2 := State (ph s1) false false (mail s1) (sys s1) (kids s1) (names s1) (told s1) (closed s1) (lost s1) in
    match name with None => s2 | Some _ => set_closed s2 (closed s2 ++ [c]) end.

(* receive, 112-133; a pill is answered in actor.cpp:81-84 with the message stop.  If
   remote_endpoint throws, receive_message_ logs it (actor.cpp:90-95) and the message, with the only
   pointer to the connection, is destroyed. *)
Definition receive (m : umsg) (there : bool) (s : state) : state :=
  match m with
  | MAccept None => s
  | MAccept (Some c) =>
      if there then set_sys s (sys s ++ [SAttach c])
      else State (ph s) (acceptor s) (armed s) (mail s) (sys s) (kids s) (names s) (told s) (closed s ++ [c]) (lost s ++ [c])
  | MTerminated => set_mail s (mail s ++ [MPoison])
  | MPoison => set_sys s (sys s ++ [SStop])
  | MOther => s
  end.

(* stop_impl, actor.cpp:134-159, with post_stop, tcp_listener.h:135-139: the acceptor is
   destroyed; the mailbox is closed after it *)
Definition stop_impl (s : state) : state :=
  State Gone false (armed s) (mail s) (sys s) (kids s) (names s) (told s) (closed s) (lost s).
(* remove_child, actor_cell.cpp:53-60: the first with that path *)
Fixpoint remove_name (f : nat -> nat) (n : nat) (l : list (nat * kstate)) : list (nat * kstate) * option nat :=
  match l with
  | [] => ([], None)
  | (c, k) :: t => if f c =? n then (t, Some c) else let (t', r) := remove_name f n t in ((c, k) :: t', r)
  end.
(* receive_system_message_, actor.cpp:186-198, 223-242.  What is sent to the children
   at a stop makes them end (KidEnds), unless their start failed. *)
Definition receive_system (m : smsg) (s : state) : state :=
  match m with
  | SStop => match kids s with [] => stop_impl s | _ => set_ph s Stopping end
  | SAttach c =>
      match ph s with
      | Stopping => set_closed s (closed s ++ [c])       (* the message is destroyed with the cell *)
      | _ => set_kids s (kids s ++ [(c, New)])
      end
  | SDetach n =>
      let (ks, r) := remove_name (name_of s) n (kids s) in
      let s1 := set_kids s ks in
      let s2 := match r with None => s1 | Some c => set_closed s1 (closed s1 ++ [c]) end in
      match ph s, ks with
      | Stopping, [] => stop_impl s2
      | _, _ => s2
      end
  end.

Fixpoint kid (c : nat) (l : list (nat * kstate)) : option kstate :=
  match l with [] => None | (d, k) :: t => if d =? c then Some k else kid c t end.
Fixpoint set_kid (c : nat) (k : kstate) (l : list (nat * kstate)) : list (nat * kstate) :=
  match l with [] => [] | (d, q) :: t => if d =? c then (d, k) :: t else (d, q) :: set_kid c k t end.
Definition accepts (l : list umsg) : list nat :=
  flat_map (fun m => match m with MAccept (Some c) => [c] | _ => [] end) l.
Definition attaches (l : list smsg) : list nat :=
  flat_map (fun m => match m with SAttach c => [c] | _ => [] end) l.

Definition step (s : state) (x : action) : option state :=
  match x with
  | Start bindable =>
      (* actor.cpp:166-185 with pre_start, tcp_listener.h:106-110.  After a failure the mailbox
         is closed without stop_impl. *)
      match ph s with
      | Fresh => if bindable then Some (State Alive true true (mail s) (sys s) (kids s) (names s) (told s) (closed s) (lost s))
                 else Some (set_ph s Gone)
      | _ => None
      end
  | Accept n => if armed s then Some (accept s (Some n)) else None
  | AcceptError => if armed s then Some (accept s None) else None
  | Tell m => match m with MAccept _ => None | _ => Some (if is_open s then set_mail s (mail s ++ [m]) else s) end
  | StopRequest => Some (if is_open s then set_sys s (sys s ++ [SStop]) else s)
  | Handle there =>
      match ph s, sys s, mail s with
      | Alive, [], m :: t | Stopping, [], m :: t => Some (receive m there (set_mail s t))
      | _, _, _ => None
      end
  | HandleSys =>
      match ph s, sys s with
      | Alive, m :: t | Stopping, m :: t => Some (receive_system m (set_sys s t))
      | _, _ => None
      end
  | KidStarts c there =>
      match kid c (kids s) with
      | Some New => Some (if there
                          then State (ph s) (acceptor s) (armed s) (mail s) (sys s) (set_kid c Running (kids s)) (names s) (told s ++ [c]) (closed s) (lost s)
                          else set_kids s (set_kid c Failed (kids s)))
      | _ => None
      end
  | KidEnds c =>
      match kid c (kids s) with
      | Some Running => Some (set_sys (set_kids s (set_kid c Ended (kids s))) (sys s ++ [SDetach (name_of s c)]))
      | _ => None
      end
  | Destroy =>
      match ph s with
      | Gone => Some (State Destroyed (acceptor s) (armed s) [] [] [] (names s) (told s)
                            (closed s ++ accepts (mail s) ++ attaches (sys s) ++ map fst (kids s)) (lost s))
      | _ => None
      end
  end.
Fixpoint run (s : state) (xs : list action) : option state :=
  match xs with [] => Some s | x :: t => match step s x with None => None | Some s' => run s' t end end.
