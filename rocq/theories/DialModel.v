(* Servers and clients of the tcp manager: modules/actors/yato/actors/io/private/tcp.cpp,
   the start and the end of tcp_listener.h and tcp_remote.h, and of private/actor.cpp and
   private/actor_cell.cpp what makes them children of the manager.

   What is modelled: the manager handles bind and connect commands and the messages of
   the system, in any order among each other (system messages go first, C40, so not all of
   these orders happen; user messages are handled while it waits for its children); a
   listener holds its endpoint from pre_start until its acceptor is closed; a child is
   found by its name when it is removed.  Addresses and their names are those of
   PortModel.

   Simplifications.  The connections that a listener accepts and the data on a connection
   are C83 and C71.  A listener stops some time after it was told to, when its own children
   are gone; a remote it has accepted is started while it runs.  Two listening sockets clash if they have one port and one address, or one of
   them has the wildcard address: that is what the Linux kernel does with the
   reuse_address that the constructor of asio::ip::tcp::acceptor sets.  Path and name of a
   child of one manager say the same.  bind is sent with a handler that is not dead
   letters. *)
From Coq Require Import List Bool Arith.
From Verif Require Import ActorPathModel.
From Verif Require PortModel.
Import ListNotations.

Notation address := PortModel.address.
Notation to_string := PortModel.to_string.
(* asio::ip::address; 0 is the wildcard *)
Definition ip := nat.
Definition endpoint : Type := ip * nat.
Definition clash (e f : endpoint) : bool :=
  (snd e =? snd f) && ((fst e =? fst f) || (fst e =? 0) || (fst f =? 0)).

(* what a handler is told: tcp.h *)
Inductive answer :=
| Bound (local : address)
| Connected (remote : endpoint) (through : nat)
| CommandFail (a : address).

Inductive kind := Server | Client.
(* Made: the cell is in a message to the manager.  Idle: a child that was not started.
   Active: started.  Failed: pre_start has thrown, the mailbox is closed.
   Ended: post_stop has run.  Leaving: the actor is destroyed *)
Inductive phase := Made | Idle | Active | Failed | Ended | Leaving.
(* a tcp_listener, or the tcp_remote of a connect command *)
Record item := Item {
  num : nat;
  asked : address;      (* tcp::bind::address, tcp::connect::address *)
  owner : nat;          (* the handler of the command *)
  what : kind;
  point : endpoint;     (* what the address was resolved to *)
  ph : phase
}.
Inductive note := Attach (n : nat) | Detach (name : str).
Record state := State {
  items : list item;
  kids : list (nat * str);     (* m_children of the manager *)
  notes : list note;           (* its system messages *)
  stopping : bool;
  stopped : bool;
  next : nat;
  open : list (nat * endpoint);   (* acceptors of the listeners *)
  others : list endpoint;         (* where other programs listen *)
  gone : list nat;                (* handlers that have ended *)
  told : list (nat * answer);
  broken : bool                   (* undefined behaviour *)
}.
Definition init : state := State [] [] [] false false 0 [] [] [] [] false.

Definition with_items l s := State l (kids s) (notes s) (stopping s) (stopped s) (next s) (open s) (others s) (gone s) (told s) (broken s).
Definition with_kids l s := State (items s) l (notes s) (stopping s) (stopped s) (next s) (open s) (others s) (gone s) (told s) (broken s).
Definition with_notes l s := State (items s) (kids s) l (stopping s) (stopped s) (next s) (open s) (others s) (gone s) (told s) (broken s).
Definition with_stops a b s := State (items s) (kids s) (notes s) a b (next s) (open s) (others s) (gone s) (told s) (broken s).
Definition with_next n s := State (items s) (kids s) (notes s) (stopping s) (stopped s) n (open s) (others s) (gone s) (told s) (broken s).
Definition with_open l s := State (items s) (kids s) (notes s) (stopping s) (stopped s) (next s) l (others s) (gone s) (told s) (broken s).
Definition with_others l s := State (items s) (kids s) (notes s) (stopping s) (stopped s) (next s) (open s) l (gone s) (told s) (broken s).
Definition with_gone l s := State (items s) (kids s) (notes s) (stopping s) (stopped s) (next s) (open s) (others s) l (told s) (broken s).
Definition with_told l s := State (items s) (kids s) (notes s) (stopping s) (stopped s) (next s) (open s) (others s) (gone s) l (broken s).
Definition with_broken s := State (items s) (kids s) (notes s) (stopping s) (stopped s) (next s) (open s) (others s) (gone s) (told s) true.

(* a message to a handler that has ended is dropped: actor_system.cpp:263-267 *)
Definition tell (h : nat) (m : answer) (s : state) : state :=
  if PortModel.mem h (gone s) then s else with_told (told s ++ [(h, m)]) s.
Definition get (n : nat) (s : state) : option item := find (fun k => num k =? n) (items s).
Definition set_ph (p : phase) (k : item) : item := Item (num k) (asked k) (owner k) (what k) (point k) p.
Definition update (n : nat) (p : phase) (s : state) : state :=
  with_items (map (fun k => if num k =? n then set_ph p k else k) (items s)) s.
Definition listening (s : state) : list endpoint := map snd (open s) ++ others s.

(* actor_system_ex::create_actor as in actor_system.cpp:229-251; the name was checked
   before (ActorPathModel) *)
Definition create (h : nat) (a : address) (w : kind) (e : endpoint) (s : state) : state :=
  with_next (S (next s)) (with_notes (notes s ++ [Attach (next s)])
    (with_items (items s ++ [Item (next s) a h w e Made]) s)).

Section Net.
(* the resolver with the host, the first result; None: it finds nothing *)
Variable resolve : str -> option ip.

(* tcp.cpp:48-67.  Where nothing is found, the end of an empty list is read.  A name that
   is not valid throws; what is thrown is logged by receive_message_ (actor.cpp:90-95) *)
Definition bind (h : nat) (a : address) (s : state) : state :=
  match resolve (PortModel.host a) with
  | None => with_broken s
  | Some i =>
      if is_valid_actor_name (to_string a)
      then tell h (Bound a) (create h a Server (i, PortModel.port a) s)
      else s
  end.
(* tcp.cpp:68-96.  h: None if it is empty or dead letters.  ok: the socket connects *)
Definition connect (h : option nat) (a : address) (ok : bool) (s : state) : state :=
  match h with
  | None => s
  | Some h =>
      match resolve (PortModel.host a) with
      | None => with_broken s
      | Some i =>
          if ok then
            if is_valid_actor_name (to_string a)
            then create h a Client (i, PortModel.port a) s
            else s
          else tell h (CommandFail a) s
      end
  end.

Definition maybe_stop (s : state) : state :=
  if stopping s && PortModel.none (kids s) then with_stops true true s else s.
(* one system message of the manager, actor.cpp:223-242, actor_cell.cpp:42-60: a child that
   comes while it is stopping is destroyed with the message *)
Definition serve (m : note) (s : state) : state :=
  match m with
  | Attach n =>
      if stopping s then update n Leaving s
      else match get n s with
           | Some k => update n Idle (with_kids (kids s ++ [(n, to_string (asked k))]) s)
           | None => s
           end
  | Detach name =>
      maybe_stop
        match PortModel.first_named name (kids s) with
        | Some n => update n Leaving (with_kids (PortModel.drop_first name (kids s)) s)
        | None => s
        end
  end.
(* pre_start and what follows, actor.cpp:166-185: tcp_listener.h:106-110 with 78-80,
   tcp_remote.h:33-39.  ok: nothing else fails; pick: the kernel's choice for port 0.
   remote_endpoint() throws if the connection is gone *)
Definition start (k : item) (ok : bool) (pick : nat) (s : state) : state :=
  match what k with
  | Server =>
      let e := (fst (point k), if snd (point k) =? 0 then pick else snd (point k)) in
      if ok && negb (snd e =? 0) && negb (existsb (clash e) (listening s))
      then with_open (open s ++ [(num k, e)]) (update (num k) Active s)
      else update (num k) Failed s
  | Client =>
      if ok then tell (owner k) (Connected (point k) (num k)) (update (num k) Active s)
      else update (num k) Failed s
  end.

Inductive event :=
| Bind (h : nat) (a : address)             (* the manager handles tcp::bind *)
| Connect (h : option nat) (a : address) (ok : bool)   (* it handles tcp::connect *)
| Serve                        (* the manager handles a system message *)
| Discard                      (* a message left to a manager that has stopped is destroyed *)
| Shutdown                     (* the manager handles stop, actor.cpp:186-198 *)
| Start (n : nat) (ok : bool) (pick : nat)   (* a child handles start *)
| Accept (n : nat) (e : endpoint)   (* a remote of listener n is started, tcp_remote.h:33-39 *)
| Stop (n : nat)               (* a child stops: post_stop, then the parent is told, actor.cpp:134-159 *)
| Free (n : nat)               (* its acceptor is closed, tcp_listener.h:138; a running handler may keep it a while *)
| Close (n : nat)              (* its actor is destroyed *)
| HandlerEnds (h : nat)
| OtherListens (e : endpoint)
| OtherCloses (e : endpoint).

Definition is_phase (p q : phase) : bool :=
  match p, q with
  | Made, Made | Idle, Idle | Active, Active | Failed, Failed | Ended, Ended | Leaving, Leaving => true
  | _, _ => false
  end.
Definition is_open (n : nat) (s : state) : bool := existsb (fun x => fst x =? n) (open s).
Definition release (n : nat) (s : state) : state := with_open (filter (fun x => negb (fst x =? n)) (open s)) s.
Definition same_point (e f : endpoint) : bool := (fst e =? fst f) && (snd e =? snd f).

(* None: not possible now *)
Definition step (s : state) (e : event) : option state :=
  if broken s then None else
  match e with
  | Bind h a => if stopped s then None else Some (bind h a s)
  | Connect h a ok => if stopped s then None else Some (connect h a ok s)
  | Serve =>
      match notes s with
      | [] => None
      | m :: t => if stopped s then None else Some (serve m (with_notes t s))
      end
  | Discard =>
      match notes s with
      | [] => None
      | m :: t =>
          if stopped s then
            Some (match m with Attach n => update n Leaving (with_notes t s) | Detach _ => with_notes t s end)
          else None
      end
  | Shutdown => if stopping s then None else Some (maybe_stop (with_stops true false s))
  | Start n ok pick =>
      match get n s with
      | Some k => if is_phase (ph k) Idle then Some (start k ok pick s) else None
      | None => None
      end
  | Accept n e =>
      match get n s with
      | Some k =>
          if is_phase (ph k) Active && is_open n s then Some (tell (owner k) (Connected e n) s) else None
      | None => None
      end
  | Stop n =>
      match get n s with
      | Some k =>
          if is_phase (ph k) Active then
            Some (with_notes (notes s ++ [Detach (to_string (asked k))]) (update n Ended s))
          else None
      | None => None
      end
  | Free n =>
      match get n s with
      | Some k =>
          if (is_phase (ph k) Ended || is_phase (ph k) Leaving) && is_open n s then Some (release n s) else None
      | None => None
      end
  | Close n =>
      match get n s with
      | Some k =>
          if is_phase (ph k) Leaving
          then Some (release n (with_items (filter (fun k => negb (num k =? n)) (items s)) s))
          else None
      | None => None
      end
  | HandlerEnds h => Some (with_gone (h :: gone s) s)
  | OtherListens e =>
      if (snd e =? 0) || existsb (clash e) (listening s) then None else Some (with_others (e :: others s) s)
  | OtherCloses e => Some (with_others (filter (fun f => negb (same_point e f)) (others s)) s)
  end.
Fixpoint run (s : state) (es : list event) : option state :=
  match es with
  | [] => Some s
  | e :: t => match step s e with Some s' => run s' t | None => None end
  end.
End Net.
