(* Handles of found values, config_backend::find_result, which config_entry contains:
   /repo/modules/config/yato/config/config_backend.h:331-445, config.h:256-395.
   A program is a sequence of operations on named results.  A backend hands out a fresh
   handle for each value found (json_config.cpp:61-84, as xml and yaml; the others hand
   out pointers to what they own, for which release does nothing) and lives as long as
   the user or a result holds it (shared_ptr).  Keys are numbers. *)
From Coq Require Import List Bool Arith.
Import ListNotations.

Record result := Result {                  (* config_backend.h:441-444 *)
  parent : option nat;                     (* m_parent, the backend *)
  index : nat;
  key : nat;
  value : option nat                       (* m_value, a handle *)
}.
Definition empty_result : result := Result None 0 0 None.      (* config_backend.h:335 *)

Record state := State {
  vars : list (nat * result);              (* the live results *)
  held : list nat;                         (* the backends the user holds *)
  out  : list (nat * nat);                 (* handles not yet released, with their backend *)
  next : nat;                              (* fresh handles *)
  handed : list (nat * nat);               (* all that were handed out *)
  released : list (nat * nat)              (* all releases, the last first *)
}.
Definition state0 (backends : list nat) : state := State [] backends [] 0 [] [].

Definition get (v : nat) (l : list (nat * result)) : option result :=
  option_map snd (find (fun p => fst p =? v) l).
Fixpoint del (v : nat) (l : list (nat * result)) : list (nat * result) :=
  match l with [] => [] | p :: t => if fst p =? v then t else p :: del v t end.
Fixpoint set (v : nat) (r : result) (l : list (nat * result)) : list (nat * result) :=
  match l with [] => [] | p :: t => if fst p =? v then (v, r) :: t else p :: set v r t end.
(* a shared_ptr to it exists *)
Definition alive (b : nat) (s : state) : bool :=
  existsb (Nat.eqb b) (held s) ||
  existsb (fun p => match parent (snd p) with Some b' => b' =? b | None => false end) (vars s).

Inductive hresult := HOk (s : state) | HIllFormed | HUB.
Definition eqp (p q : nat * nat) : bool := (fst p =? fst q) && (snd p =? snd q).
Fixpoint drop_one (p : nat * nat) (l : list (nat * nat)) : list (nat * nat) :=
  match l with [] => [] | q :: t => if eqp p q then t else q :: drop_one p t end.
(* if (m_value) m_parent->do_release(m_value): a null or destroyed parent, or a handle
   that is not there, is undefined behaviour *)
Definition release (r : result) (s : state) : hresult :=
  match value r with
  | None => HOk s
  | Some h =>
      match parent r with
      | None => HUB
      | Some b =>
          if alive b s && existsb (eqp (b, h)) (out s)
          then HOk (State (vars s) (held s) (drop_one (b, h) (out s)) (next s) (handed s) ((b, h) :: released s))
          else HUB
      end
  end.

Inductive op :=
| Default (v : nat)                                        (* 335 *)
| FindIndex (v b i : nat) (found : option nat)             (* 337-350; the key, if there is a value; not found and an exception are the same *)
| FindKey (v b k : nat) (found : option nat)               (* 352-365; the index, if there is a value *)
| MoveConstruct (v w : nat)                                (* 369-376: v from w *)
| MoveAssign (v w : nat)                                   (* 387-400: v from w *)
| Destroy (v : nat)                                        (* 378-383 *)
| DropBackend (b : nat).                                   (* the user lets a config go *)

Definition fresh_var (v : nat) (s : state) : bool := match get v (vars s) with None => true | Some _ => false end.
(* the constructor with a backend that the user holds; a new handle for a value found *)
Definition construct (v b i k : nat) (found : bool) (s : state) : hresult :=
  if fresh_var v s && existsb (Nat.eqb b) (held s) then
    if found
    then HOk (State ((v, Result (Some b) i k (Some (next s))) :: vars s) (held s) ((b, next s) :: out s) (S (next s)) ((b, next s) :: handed s) (released s))
    else HOk (State ((v, Result (Some b) i k None) :: vars s) (held s) (out s) (next s) (handed s) (released s))
  else HIllFormed.
(* what a move leaves: the pointers are null, the key is moved from *)
Definition moved_from (r : result) : result := Result None (index r) 0 None.

Definition step (o : op) (s : state) : hresult :=
  match o with
  | Default v =>
      if fresh_var v s then HOk (State ((v, empty_result) :: vars s) (held s) (out s) (next s) (handed s) (released s)) else HIllFormed
  | FindIndex v b i found =>
      match found with Some k => construct v b i k true s | None => construct v b i 0 false s end
  | FindKey v b k found =>
      match found with Some i => construct v b i k true s | None => construct v b 0 k false s end
  | MoveConstruct v w =>
      match get w (vars s) with
      | Some r => if fresh_var v s
                  then HOk (State ((v, r) :: set w (moved_from r) (vars s)) (held s) (out s) (next s) (handed s) (released s))
                  else HIllFormed
      | None => HIllFormed
      end
  | MoveAssign v w =>
      match get v (vars s), get w (vars s) with
      | Some old, Some r =>
          match release old s with
          | HOk s' =>
              if v =? w
              (* without the check of line 389: shared_ptr keeps its value, m_value becomes null *)
              then HOk (State (set v (Result (parent r) (index r) 0 None) (vars s')) (held s') (out s') (next s') (handed s') (released s'))
              else HOk (State (set v r (set w (moved_from r) (vars s'))) (held s') (out s') (next s') (handed s') (released s'))
          | x => x
          end
      | _, _ => HIllFormed
      end
  | Destroy v =>
      match get v (vars s) with
      | Some r =>
          match release r s with
          | HOk s' => HOk (State (del v (vars s')) (held s') (out s') (next s') (handed s') (released s'))
          | x => x
          end
      | None => HIllFormed
      end
  | DropBackend b => HOk (State (vars s) (filter (fun c => negb (c =? b)) (held s)) (out s) (next s) (handed s) (released s))
  end.
Fixpoint run (os : list op) (s : state) : hresult :=
  match os with [] => HOk s | o :: t => match step o s with HOk s' => run t s' | x => x end end.
