(* The network actors, /repo/modules/actors/yato/actors/io.

   The kernel and asio are the environment: what has arrived, how much a call of
   send takes, which error a wait ends with, and whether an address can be
   resolved, connected to or bound are chosen by the actions.  One step is one
   message handled by an actor or one completion handled on the thread of the
   io_service (context.h:33-37 runs one thread).  Messages told to an actor arrive in
   the order they were told in (C40); handlers and servers are not modelled, only
   what they are told.  Logging is left out, but for writes. *)
From Coq Require Import List Bool Arith.
Import ListNotations.

Section Io.
Variable Byte : Type.

(* ---- one TCP connection: tcp_remote.h, tcp_receiver.h ---- *)
(* messages in the mailbox of the tcp_remote, tcp_remote.h:43-75 *)
Inductive rmsg :=
| MWrite (d : list Byte) | MAssign (h : nat) | MError | MPeerClosed | MTerminated | MPoison | MOther.
Inductive tell := Received (d : list Byte) | Closed.
Inductive event :=
| Connected                              (* told to the server, tcp_remote.h:37 *)
| Told (h : nat) (t : tell)              (* told to the handler *)
| Wrote (d : list Byte) (n : nat) (ok : bool)  (* n bytes of d were sent; not ok is logged *)
| Dropped (d : list Byte).               (* a write before the assignment, logged *)
Inductive phase := Fresh | Alive | Stopping | Destroyed.
Record conn := Conn {
  ph : phase;
  mail : list rmsg;
  receiver : option nat;                 (* m_receiver and its handler, tcp_receiver.h:30-32 *)
  armed : bool;                          (* a wait of start_receive_ is pending, 75-79 *)
  incoming : list Byte;                  (* arrived and not read *)
  peer_done : bool;                      (* the peer has closed its side *)
  wire : list Byte;                      (* handed to the kernel *)
  watched : bool;                        (* the handler is watched and has not ended *)
  arrived : list Byte;                   (* ghost: all that the peer has sent *)
  log : list event                       (* ghost *)
}.
Definition conn0 : conn := Conn Fresh [] None false [] false [] false [] [].

(* how a wait ends, handle_receive_, tcp_receiver.h:34-63 *)
Inductive outcome :=
| Ready (n : nat)        (* no error; n > 0 bytes are available and read *)
| Eof                    (* the peer has closed and all is read: nothing is available, or the error eof *)
| Reset                  (* the error connection_reset, or the read fails *)
| Spurious               (* no error, nothing available *)
| Error.                 (* any other error *)
Inductive action :=
| Start                  (* pre_start, tcp_remote.h:33-38; remote_endpoint does not throw *)
| Tell (m : rmsg)        (* another actor tells the remote actor something *)
| Arrive (d : list Byte) | PeerDone
| Complete (o : outcome)
| Handle (n : nat) (err : bool)  (* the remote actor takes a message; n, err: what send does *)
| HandlerEnds            (* the watched handler has stopped and says so *)
| Destroy.               (* the stopped actor is destroyed, with its receiver *)

Definition set_mail (s : conn) (m : list rmsg) : conn :=
  Conn (ph s) m (receiver s) (armed s) (incoming s) (peer_done s) (wire s) (watched s) (arrived s) (log s).
Definition set_log (s : conn) (l : list event) : conn :=
  Conn (ph s) (mail s) (receiver s) (armed s) (incoming s) (peer_done s) (wire s) (watched s) (arrived s) l.
(* messages that other actors may send: writes, assignments, pills and anything
   unknown *)
Definition from_outside (m : rmsg) : bool :=
  match m with MWrite _ | MAssign _ | MPoison | MOther => true | _ => false end.
(* tcp_receiver::write, tcp_receiver.h:107-111, and tcp_remote.h:44-52 *)
Definition write (d : list Byte) (n : nat) (err : bool) (s : conn) : conn :=
  match receiver s with
  | None => set_log s (log s ++ [Dropped d])
  | Some _ =>
      Conn (ph s) (mail s) (receiver s) (armed s) (incoming s) (peer_done s) (wire s ++ firstn n d) (watched s) (arrived s)
           (log s ++ [Wrote d n (negb err && (n =? length d))])
  end.
(* tcp_remote::receive, tcp_remote.h:41-76; a pill stops the actor before the next
   message *)
Definition react (m : rmsg) (n : nat) (err : bool) (s : conn) : conn :=
  match m with
  | MWrite d => write d n err s
  | MAssign h =>
      match receiver s with
      | None => Conn (ph s) (mail s) (Some h) true (incoming s) (peer_done s) (wire s) true (arrived s) (log s)
      | Some _ => s
      end
  | MError | MOther => s
  | MPeerClosed =>
      let s1 := match receiver s with None => s | Some h => set_log s (log s ++ [Told h Closed]) end in
      set_mail s1 (mail s1 ++ [MPoison])
  | MTerminated => set_mail s (mail s ++ [MPeerClosed])
  | MPoison => Conn Stopping (mail s) (receiver s) (armed s) (incoming s) (peer_done s) (wire s) (watched s) (arrived s) (log s)
  end.
(* handle_receive_, tcp_receiver.h:34-63: the weak pointer is empty once the actor is
   destroyed; buf has the size available() said, and all of it is read *)
Definition complete (o : outcome) (s : conn) : option conn :=
  let idle := Conn (ph s) (mail s) (receiver s) false (incoming s) (peer_done s) (wire s) (watched s) (arrived s) (log s) in
  match ph s, receiver s with
  | Destroyed, _ | _, None => Some idle
  | _, Some h =>
      match o with
      | Ready n =>
          if (0 <? n) && (n <=? length (incoming s)) then
            Some (Conn (ph s) (mail s) (receiver s) true (skipn n (incoming s)) (peer_done s) (wire s) (watched s) (arrived s)
                       (log s ++ [Told h (Received (firstn n (incoming s)))]))
          else None
      | Eof => match incoming s with
               | [] => if peer_done s then Some (set_mail idle (mail s ++ [MPeerClosed])) else None
               | _ => None
               end
      | Reset | Spurious => Some (set_mail idle (mail s ++ [MPeerClosed]))
      | Error => Some (set_mail s (mail s ++ [MError]))
      end
  end.
Definition step (s : conn) (x : action) : option conn :=
  match x with
  | Start => match ph s with
             | Fresh => Some (Conn Alive (mail s) (receiver s) (armed s) (incoming s) (peer_done s) (wire s) (watched s) (arrived s) (log s ++ [Connected]))
             | _ => None
             end
  | Tell m => if from_outside m then Some (set_mail s (mail s ++ [m])) else None
  | Arrive d => if peer_done s then None
                else Some (Conn (ph s) (mail s) (receiver s) (armed s) (incoming s ++ d) false (wire s) (watched s) (arrived s ++ d) (log s))
  | PeerDone => Some (Conn (ph s) (mail s) (receiver s) (armed s) (incoming s) true (wire s) (watched s) (arrived s) (log s))
  | Complete o => if armed s then complete o s else None
  | Handle n err => match ph s, mail s with
                    | Alive, m :: t => match m with
                                       | MWrite d => if n <=? length d then Some (react m n err (set_mail s t)) else None
                                       | _ => Some (react m n err (set_mail s t))
                                       end
                    | _, _ => None
                    end
  | HandlerEnds => if watched s then Some (Conn (ph s) (mail s ++ [MTerminated]) (receiver s) (armed s) (incoming s) (peer_done s) (wire s) false (arrived s) (log s))
                   else None
  | Destroy => match ph s with
               | Stopping => Some (Conn Destroyed (mail s) (receiver s) (armed s) (incoming s) (peer_done s) (wire s) (watched s) (arrived s) (log s))
               | _ => None
               end
  end.
Fixpoint run (s : conn) (xs : list action) : option conn :=
  match xs with
  | [] => Some s
  | x :: t => match step s x with None => None | Some s' => run s' t end
  end.

(* ---- one UDP socket: udp_remote.h, udp_receiver.h ---- *)
(* cap is MAX_BUFFER_SIZE, udp_receiver.h:31.  An address is abstract.  The kernel
   writes a datagram to the front of the buffer and its origin to m_remote_endpoint
   when the pending receive completes (86-87); the handler of the completion runs
   later.  Destruction takes two steps: the receiver, with m_remote_endpoint, and
   then the connection, with the socket (members in reverse order, udp_remote.h:32-33). *)
Variable Addr : Type.
Inductive uphase := UAlive | UReceiverGone | UClosed.
Record sock := Sock {
  uph : uphase;
  queued : list (list Byte * Addr);      (* arrived, not received *)
  buffer : list Byte;                    (* m_message_buffer *)
  origin : option Addr;                  (* m_remote_endpoint *)
  uarmed : bool;
  finished : option nat;                 (* the receive is complete, its handler not yet run *)
  packets : list (list Byte * Addr);     (* ghost: all that arrived *)
  outgoing : list (list Byte * Addr);    (* datagrams handed to the kernel *)
  utold : list (list Byte * Addr)        (* ghost: told to the handler *)
}.
Definition sock0 (blank : list Byte) : sock := Sock UAlive [] blank None true None [] [] [].
Inductive uresult := UOk (s : sock) | UDisabled | UUB.
Inductive uaction :=
| UArrive (d : list Byte) (a : Addr)
| UReceive                               (* the kernel completes the pending receive *)
| UHandle                                (* handle_receive_, 42-69 *)
| UError                                 (* an error other than eof and connection_reset: the wait is repeated *)
| USend (d : list Byte) (a : Addr)       (* a send message; the kernel takes the datagram *)
| UDestroyReceiver | UCloseSocket.
Definition ustep (cap : nat) (s : sock) (x : uaction) : uresult :=
  match x with
  | UArrive d a => UOk (Sock (uph s) (queued s ++ [(d, a)]) (buffer s) (origin s) (uarmed s) (finished s) (packets s ++ [(d, a)]) (outgoing s) (utold s))
  | UReceive =>
      match uarmed s, queued s, uph s with
      | _, _, UClosed => UDisabled
      | true, (d, a) :: t, UAlive =>
          let n := Nat.min (length d) cap in
          UOk (Sock UAlive t (firstn n d ++ skipn n (buffer s)) (Some a) false (Some n) (packets s) (outgoing s) (utold s))
      | true, _ :: _, UReceiverGone => UUB     (* the origin is written to a destroyed object *)
      | _, _, _ => UDisabled
      end
  | UHandle =>
      match finished s, uph s with
      | None, _ => UDisabled
      | Some n, UAlive =>
          match origin s with
          | Some a => UOk (Sock UAlive (queued s) (buffer s) (origin s) true None (packets s) (outgoing s) (utold s ++ [(firstn n (buffer s), a)]))
          | None => UUB
          end
      | Some _, _ => UOk (Sock (uph s) (queued s) (buffer s) (origin s) false None (packets s) (outgoing s) (utold s))
      end
  | UError => match uarmed s, uph s with true, UAlive => UOk s | _, _ => UDisabled end
  | USend d a =>
      match uph s with
      | UAlive => UOk (Sock UAlive (queued s) (buffer s) (origin s) (uarmed s) (finished s) (packets s) (outgoing s ++ [(d, a)]) (utold s))
      | _ => UDisabled
      end
  | UDestroyReceiver =>
      match uph s with
      | UAlive => UOk (Sock UReceiverGone (queued s) (buffer s) (origin s) (uarmed s) (finished s) (packets s) (outgoing s) (utold s))
      | _ => UDisabled
      end
  | UCloseSocket =>
      match uph s with
      | UReceiverGone => UOk (Sock UClosed (queued s) (buffer s) (origin s) false (finished s) (packets s) (outgoing s) (utold s))
      | _ => UDisabled
      end
  end.
Fixpoint urun (cap : nat) (s : sock) (xs : list uaction) : uresult :=
  match xs with
  | [] => UOk s
  | x :: t => match ustep cap s x with UOk s' => urun cap s' t | r => r end
  end.

(* ---- the managers: tcp.cpp:45-99, udp.cpp:42-55, with the pre_start of what they create ---- *)
(* resolve with an error code gives an iterator past the end, which is dereferenced
   before the code is looked at (tcp.cpp:54, 80): undefined behaviour *)
Inductive command := TcpBind (h : nat) (a : Addr) | TcpConnect (h : option nat) (a : Addr) | UdpBind (h : nat) (a : Addr).
(* what the network does: the address resolves; connecting succeeds; the peer is still
   there when the new actor starts; the address can be listened at *)
Record network := Network { resolves : bool; connects : bool; still_there : bool; bindable : bool }.
Inductive reply := Bound (a : Addr) | CommandFail | TcpConnected.
Record mstate := MState {
  listening : list Addr;                 (* acceptors that exist *)
  connections : list Addr;               (* connections with a tcp_remote that has started *)
  replies : list (nat * reply)           (* told, in order *)
}.
Inductive mresult := MOk (s : mstate) | MUB.
Definition manage (net : network) (c : command) (s : mstate) : mresult :=
  match c with
  | TcpBind h a =>
      if resolves net then
        (* the listener opens its acceptor in pre_start (tcp_listener.h:106-110),
           which throws when the address cannot be bound; the manager does not wait for it *)
        MOk (MState (if bindable net then listening s ++ [a] else listening s) (connections s) (replies s ++ [(h, Bound a)]))
      else MUB
  | TcpConnect None _ => MOk s
  | TcpConnect (Some h) a =>
      if resolves net then
        if connects net then
          if still_there net then MOk (MState (listening s) (connections s ++ [a]) (replies s ++ [(h, TcpConnected)]))
          else MOk s
        else MOk (MState (listening s) (connections s) (replies s ++ [(h, CommandFail)]))
      else MUB
  | UdpBind h a =>
      (* the socket is bound in the constructor of the connection (udp_connection.h:30-32),
         which throws; receive_message_ logs it *)
      if bindable net then MOk (MState (listening s ++ [a]) (connections s) (replies s ++ [(h, Bound a)]))
      else MOk s
  end.
Fixpoint manage_all (cs : list (network * command)) (s : mstate) : mresult :=
  match cs with
  | [] => MOk s
  | (net, c) :: t => match manage net c s with MUB => MUB | MOk s' => manage_all t s' end
  end.
End Io.
Arguments ph {Byte}. Arguments mail {Byte}. Arguments receiver {Byte}. Arguments armed {Byte}.
Arguments incoming {Byte}. Arguments peer_done {Byte}. Arguments wire {Byte}. Arguments watched {Byte}.
Arguments arrived {Byte}. Arguments log {Byte}.
Arguments MWrite {Byte}. Arguments MAssign {Byte}. Arguments MError {Byte}. Arguments MPeerClosed {Byte}.
Arguments MTerminated {Byte}. Arguments MPoison {Byte}. Arguments MOther {Byte}.
Arguments Received {Byte}. Arguments Closed {Byte}. Arguments Connected {Byte}. Arguments Told {Byte}.
Arguments Wrote {Byte}. Arguments Dropped {Byte}. Arguments Conn {Byte}.
Arguments Start {Byte}. Arguments Tell {Byte}. Arguments Arrive {Byte}. Arguments PeerDone {Byte}.
Arguments Complete {Byte}. Arguments Handle {Byte}. Arguments HandlerEnds {Byte}. Arguments Destroy {Byte}.
Arguments set_mail {Byte}. Arguments set_log {Byte}. Arguments from_outside {Byte}. Arguments write {Byte}.
Arguments react {Byte}. Arguments complete {Byte}. Arguments step {Byte}. Arguments run {Byte}.
Arguments uph {Byte Addr}. Arguments queued {Byte Addr}. Arguments buffer {Byte Addr}. Arguments origin {Byte Addr}.
Arguments uarmed {Byte Addr}. Arguments finished {Byte Addr}. Arguments packets {Byte Addr}.
Arguments outgoing {Byte Addr}. Arguments utold {Byte Addr}. Arguments Sock {Byte Addr}. Arguments sock0 {Byte Addr}.
Arguments UOk {Byte Addr}. Arguments UDisabled {Byte Addr}. Arguments UUB {Byte Addr}.
Arguments UArrive {Byte Addr}. Arguments UReceive {Byte Addr}. Arguments UHandle {Byte Addr}. Arguments UError {Byte Addr}.
Arguments USend {Byte Addr}. Arguments UDestroyReceiver {Byte Addr}. Arguments UCloseSocket {Byte Addr}.
Arguments ustep {Byte Addr}. Arguments urun {Byte Addr}.
Arguments TcpBind {Addr}. Arguments TcpConnect {Addr}. Arguments UdpBind {Addr}.
Arguments Bound {Addr}. Arguments CommandFail {Addr}. Arguments TcpConnected {Addr}.
Arguments listening {Addr}. Arguments connections {Addr}. Arguments replies {Addr}. Arguments MState {Addr}.
Arguments MOk {Addr}. Arguments MUB {Addr}. Arguments manage {Addr}. Arguments manage_all {Addr}.
