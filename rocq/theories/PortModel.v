(* Addresses as names, and the sockets of the udp manager:
   modules/actors/yato/actors/io/inet_address.h, io/private/udp.cpp,
   udp_connection.h, udp_remote.h, udp_receiver.h, and of private/actor.cpp and
   private/actor_cell.cpp what makes the sockets children of the manager.

   What is modelled: the manager handles bind commands and the messages of the system,
   in any order among each other (system messages go first, C40, so not all of these
   orders happen; user messages are handled while it waits for its children); each socket exists from the construction of its
   udp_connection to its destruction; a child is found by its name when it is removed.

   Simplifications.  The kernel gives a port to one UDP socket at a time, as it does
   for sockets opened without reuse_address (udp_connection.h:31 opens and binds to
   the wildcard address), and picks some unused port for port 0.  Datagrams are not
   lost on arrival and fit into the buffer (C72 has the buffer).  A connection is
   destroyed some time after its actor: the handler of a receive that runs meanwhile
   keeps it (C114).  The manager is told to stop at most by the shutdown.  The
   references to a remote come from the manager or from a received message, so a
   remote is not stopped before it was attached (C44 has that case).  Path and name of
   a child of one manager say the same. *)
From Coq Require Import List Bool Arith Ascii String Decimal DecimalString.
From Verif Require Import ActorPathModel.
Import ListNotations.

(* std::to_string *)
Definition decimal (n : nat) : str := list_ascii_of_string (NilEmpty.string_of_uint (Nat.to_uint n)).
Definition colon : ascii := ":"%char.

(* inet_address.h:21-40 *)
Record address := Address { host : str; port : nat }.
Definition to_string (a : address) : str := host a ++ colon :: decimal (port a).

(* asio::ip::address of the other side *)
Definition ip := nat.
Definition data := list nat.
(* what a handler is told: udp.h *)
Inductive answer :=
| Bound (local : address)
| Received (payload : data) (sender : address) (through : nat)
| PeerClosed (through : nat).
(* a datagram: where it comes from and what is in it *)
Record gram := Gram { from : ip * nat; payload : data }.
Record packet := Packet { out_port : nat; target : ip * nat; contents : data }.

(* a udp_connection with its actor.
   Made: the cell is in a message to the manager.  Idle: a child that was not started.
   Active: started.  Ended: post_stop has run.  Leaving: the actor is destroyed *)
Inductive phase := Made | Idle | Active | Ended | Leaving.
Record sock := Sock {
  num : nat;
  asked : address;        (* udp::bind::address *)
  owner : nat;            (* udp::bind::handler, udp_connection.h:26 *)
  lport : nat;            (* the port the socket is bound to *)
  ph : phase;
  waiting : list gram     (* in the socket *)
}.
Inductive note := Attach (n : nat) | Detach (name : str).
Record state := State {
  socks : list sock;
  kids : list (nat * str);     (* m_children of the manager *)
  notes : list note;           (* its system messages *)
  stopping : bool;
  stopped : bool;
  next : nat;
  others : list nat;           (* ports of other programs *)
  gone : list nat;             (* handlers that have ended *)
  told : list (nat * answer);
  sent : list packet
}.
Definition init : state := State [] [] [] false false 0 [] [] [] [].

Definition with_socks l s := State l (kids s) (notes s) (stopping s) (stopped s) (next s) (others s) (gone s) (told s) (sent s).
Definition with_kids l s := State (socks s) l (notes s) (stopping s) (stopped s) (next s) (others s) (gone s) (told s) (sent s).
Definition with_notes l s := State (socks s) (kids s) l (stopping s) (stopped s) (next s) (others s) (gone s) (told s) (sent s).
Definition with_stops a b s := State (socks s) (kids s) (notes s) a b (next s) (others s) (gone s) (told s) (sent s).
Definition with_next n s := State (socks s) (kids s) (notes s) (stopping s) (stopped s) n (others s) (gone s) (told s) (sent s).
Definition with_others l s := State (socks s) (kids s) (notes s) (stopping s) (stopped s) (next s) l (gone s) (told s) (sent s).
Definition with_gone l s := State (socks s) (kids s) (notes s) (stopping s) (stopped s) (next s) (others s) l (told s) (sent s).
Definition with_told l s := State (socks s) (kids s) (notes s) (stopping s) (stopped s) (next s) (others s) (gone s) l (sent s).
Definition with_sent l s := State (socks s) (kids s) (notes s) (stopping s) (stopped s) (next s) (others s) (gone s) (told s) l.

Definition mem (n : nat) (l : list nat) : bool := existsb (Nat.eqb n) l.
Definition used (s : state) : list nat := map lport (socks s) ++ others s.

(* a message to a handler that has ended is dropped: actor_system.cpp:263-267 *)
Definition tell (h : nat) (m : answer) (s : state) : state :=
  if mem h (gone s) then s else with_told (told s ++ [(h, m)]) s.

Definition get (n : nat) (s : state) : option sock := find (fun k => num k =? n) (socks s).
Definition update (n : nat) (f : sock -> sock) (s : state) : state :=
  with_socks (map (fun k => if num k =? n then f k else k) (socks s)) s.
Definition set_ph (p : phase) (k : sock) : sock := Sock (num k) (asked k) (owner k) (lport k) p (waiting k).
Definition set_waiting (w : list gram) (k : sock) : sock := Sock (num k) (asked k) (owner k) (lport k) (ph k) w.

(* the constructor of udp_connection, udp_connection.h:30-32: the host is not used.
   pick: what the kernel would choose for port 0; None: refused.  None: it throws *)
Definition acquire (a : address) (pick : option nat) (s : state) : option nat :=
  match pick with
  | None => None
  | Some p =>
      let p := if port a =? 0 then p else port a in
      if (p =? 0) || mem p (used s) then None else Some p
  end.
(* udp.cpp:45-51.  What is thrown is logged by receive_message_ (actor.cpp:90-95); the
   name is checked when the builder has the connection (actor_system.h:75-78), which is
   destroyed then *)
Definition bind (h : nat) (a : address) (pick : option nat) (s : state) : state :=
  match acquire a pick s with
  | None => s
  | Some p =>
      if is_valid_actor_name (to_string a) then
        tell h (Bound a)
          (with_next (S (next s)) (with_notes (notes s ++ [Attach (next s)])
            (with_socks (socks s ++ [Sock (next s) a h p Made []]) s)))
      else s
  end.

(* actor_cell.cpp:53-60 *)
Fixpoint first_named (name : str) (l : list (nat * str)) : option nat :=
  match l with
  | [] => None
  | (n, m) :: t => if str_eqb m name then Some n else first_named name t
  end.
Fixpoint drop_first (name : str) (l : list (nat * str)) : list (nat * str) :=
  match l with
  | [] => []
  | (n, m) :: t => if str_eqb m name then t else (n, m) :: drop_first name t
  end.
Definition none {A : Type} (l : list A) : bool := match l with [] => true | _ => false end.
Definition maybe_stop (s : state) : state :=
  if stopping s && none (kids s) then with_stops true true s else s.
(* one system message of the manager, actor.cpp:223-242: a child that comes while it is
   stopping is destroyed with the message *)
Definition serve (m : note) (s : state) : state :=
  match m with
  | Attach n =>
      if stopping s then update n (set_ph Leaving) s
      else match get n s with
           | Some k => update n (set_ph Idle) (with_kids (kids s ++ [(n, to_string (asked k))]) s)
           | None => s
           end
  | Detach name =>
      maybe_stop
        match first_named name (kids s) with
        | Some n => update n (set_ph Leaving) (with_kids (drop_first name (kids s)) s)
        | None => s
        end
  end.

Section Net.
(* asio::ip::address::from_string: None where it throws; and address::to_string *)
Variable literal : str -> option ip.
Variable show : ip -> str.

Inductive event :=
| Bind (h : nat) (a : address) (pick : option nat)   (* the manager handles udp::bind *)
| Serve                        (* the manager handles a system message *)
| Discard                      (* a message left to a manager that has stopped is destroyed *)
| Shutdown                     (* the manager handles stop, actor.cpp:186-198 *)
| Start (n : nat)              (* pre_start, udp_remote.h:36-44, taken to succeed *)
| Stop (n : nat)               (* the remote handles stop: post_stop, then the parent is told *)
| Close (n : nat)              (* the connection is destroyed *)
| Arrive (p : nat) (g : gram)  (* a datagram for the port *)
| Deliver (n : nat)            (* handle_receive_, udp_receiver.h:43-69 *)
| Reset (n : nat)              (* peer_closed comes to the remote, udp_remote.h:52-58 *)
| Send (n : nat) (d : data) (a : address) (ok : bool)   (* udp_remote.h:59-63, udp_receiver.h:116-121 *)
| HandlerEnds (h : nat)
| OtherTakes (p : nat)         (* another program opens a socket *)
| OtherFrees (p : nat).

Definition is_phase (p q : phase) : bool :=
  match p, q with
  | Made, Made | Idle, Idle | Active, Active | Ended, Ended | Leaving, Leaving => true
  | _, _ => false
  end.
(* the receiver exists from pre_start on until the actor is destroyed; a handler of it
   may run while it is *)
Definition receiving (p : phase) : bool :=
  match p with Active | Ended | Leaving => true | _ => false end.

(* None: not possible now *)
Definition step (s : state) (e : event) : option state :=
  match e with
  | Bind h a pick => if stopped s then None else Some (bind h a pick s)
  | Serve =>
      match notes s with
      | [] => None
      | m :: t => if stopped s then None else Some (serve m (with_notes t s))
      end
  | Discard =>
      match notes s with
      | [] => None
      | m :: t =>
          if stopped s then
            Some (match m with Attach n => update n (set_ph Leaving) (with_notes t s) | Detach _ => with_notes t s end)
          else None
      end
  | Shutdown => if stopping s then None else Some (maybe_stop (with_stops true false s))
  | Start n =>
      match get n s with
      | Some k => if is_phase (ph k) Idle then Some (update n (set_ph Active) s) else None
      | None => None
      end
  | Stop n =>
      match get n s with
      | Some k =>
          if is_phase (ph k) Active then
            Some (with_notes (notes s ++ [Detach (to_string (asked k))]) (update n (set_ph Ended) s))
          else None
      | None => None
      end
  | Close n =>
      match get n s with
      | Some k =>
          if is_phase (ph k) Leaving then Some (with_socks (filter (fun k => negb (num k =? n)) (socks s)) s)
          else None
      | None => None
      end
  | Arrive p g =>
      Some (with_socks (map (fun k => if lport k =? p then set_waiting (waiting k ++ [g]) k else k) (socks s)) s)
  | Deliver n =>
      match get n s with
      | Some k =>
          match waiting k with
          | g :: w =>
              if receiving (ph k) then
                Some (tell (owner k) (Received (payload g) (Address (show (fst (from g))) (snd (from g))) n)
                        (update n (set_waiting w) s))
              else None
          | [] => None
          end
      | None => None
      end
  | Reset n =>
      match get n s with
      | Some k => if is_phase (ph k) Active then Some (tell (owner k) (PeerClosed n) s) else None
      | None => None
      end
  | Send n d a ok =>
      match get n s with
      | Some k =>
          if is_phase (ph k) Active then
            match literal (host a) with
            | Some i => Some (if ok then with_sent (sent s ++ [Packet (lport k) (i, port a) d]) s else s)
            | None => Some s
            end
          else None
      | None => None
      end
  | HandlerEnds h => Some (with_gone (h :: gone s) s)
  | OtherTakes p => if (p =? 0) || mem p (used s) then None else Some (with_others (p :: others s) s)
  | OtherFrees p => if mem p (others s) then Some (with_others (remove Nat.eq_dec p (others s)) s) else None
  end.
Fixpoint run (s : state) (es : list event) : option state :=
  match es with
  | [] => Some s
  | e :: t => match step s e with Some s' => run s' t | None => None end
  end.
End Net.
