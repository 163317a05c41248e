(* Threads that share atomic_attributes: /repo/include/yato/atomic_attributes.h with
   any.h:260-300.

   The attributes have been registered before the threads start, each once, so that the
   unordered_map is only read; a key is the index of its attribute.  A value is a number
   and the type it has.  One step of a thread reads or writes one shared location:
   the pointer of an any (m_content, together with the type of what it points to), or
   an atomic.  Memory is sequentially consistent (the default memory order). *)
From Coq Require Import List Bool Arith.
Import ListNotations.

(* attribute_info, 107-127: the type of the assigner; the any holding an atomic, by its
   address *)
Record attr := Attr { a_type : nat; a_content : option nat }.
(* the atomics with their types; None: destroyed *)
Record shared := Shared { attrs : list attr; heap : list (option (nat * nat)) }.

Inductive call :=
| CSet (k : nat) (x : option (nat * nat))      (* set_attribute, 163-172; None: an empty any *)
| CGet (k t : nat)                             (* get_attribute_as<t>, 232-244 *)
| CGetOr (k t d : nat)                         (* get_attribute_as<t> with a default, 250-262 *)
| CGetOpt (k t : nat)                          (* get_attribute_optional<t>, 268-280 *)
| CHas (k : nat)                               (* has_attribute, 223-226 *)
| CClear (k : nat)                             (* clear_attribute, 175-181 *)
| CCopy.                                       (* the copy constructor, 195-204 *)
Inductive result :=
| RBool (b : bool) | RVal (v : nat) | ROpt (o : option nat) | RBadAttribute | RBadCast | RUnit | RCopy (l : list (nat * nat)).

(* where a thread is inside a call; k is the key, acc what a copy has read so far *)
Inductive stage :=
| SFind                                        (* m_attributes.find *)
| SType                                        (* attr.type(), 240, 258, 276 *)
| SCast                                        (* any::get: type(), any.h:290 *)
| SPtr                                         (* any::get: m_content, any.h:291-292 *)
| SRef (h : nat)                               (* the load or store *)
| SDelete (h : nat).                           (* unique_ptr::reset: delete *)
Inductive pc := Idle | At (g : stage) (c : call) (k : nat) (acc : list (nat * nat)) | Done (r : result).
Record thread := Thread { todo : list call; at_ : pc }.
Record state := State { mem : shared; threads : list thread }.

Inductive event := Call (i : nat) (c : call) | Return (i : nat) (r : result).
Inductive out (A : Type) := Ok (a : A) | Undef.
Arguments Ok {A}. Arguments Undef {A}.

Fixpoint upd {A} (i : nat) (x : A) (l : list A) : list A :=
  match l, i with
  | [], _ => []
  | _ :: t, 0 => x :: t
  | y :: t, S j => y :: upd j x t
  end.

Definition key_of (c : call) : nat :=
  match c with CSet k _ | CGet k _ | CGetOr k _ _ | CGetOpt k _ | CHas k | CClear k => k | CCopy => 0 end.
(* a value was read *)
Definition gave (c : call) (v : nat) : result :=
  match c with CGetOr _ _ _ => RVal v | CGetOpt _ _ => ROpt (Some v) | _ => RVal v end.
(* no such key *)
Definition absent (c : call) : result :=
  match c with
  | CSet _ _ | CHas _ => RBool false
  | CGet _ _ => RBadAttribute
  | CGetOr _ _ d => RVal d
  | CGetOpt _ _ => ROpt None
  | CClear _ | CCopy => RUnit
  end.
(* the type asked for is another *)
Definition wrong (c : call) : result :=
  match c with CGet _ _ => RBadAttribute | CGetOr _ _ d => RVal d | CGetOpt _ _ => ROpt None | _ => RBadCast end.
(* the type a call asks the any for *)
Definition asked (c : call) (a : attr) : nat :=
  match c with CGet _ t | CGetOr _ t _ | CGetOpt _ t => t | _ => a_type a end.
(* the type of what an any holds; None: empty *)
Definition type_of (m : shared) (p : option nat) : out (option nat) :=
  match p with
  | None => Ok None
  | Some h => match nth_error (heap m) h with Some (Some (u, _)) => Ok (Some u) | _ => Undef end
  end.
Definition is_type (o : option nat) (t : nat) : bool := match o with Some u => u =? t | None => false end.

(* one step inside a call *)
Definition inside (m : shared) (g : stage) (c : call) (k : nat) (acc : list (nat * nat)) : out (shared * pc) :=
  match nth_error (attrs m) k with
  | None =>
      (* not found, or the end of the loop 197-203 *)
      Ok (m, Done (match c with CCopy => RCopy acc | _ => absent c end))
  | Some a =>
      match g with
      | SFind =>
          match c with
          | CHas _ => Ok (m, Done (RBool true))
          | CGet _ _ | CGetOr _ _ _ | CGetOpt _ _ => Ok (m, At SType c k acc)
          | CSet _ _ | CCopy => Ok (m, At SCast c k acc)
          | CClear _ =>
              (* any::clear, any.h:265-268: the pointer first, then the object *)
              match a_content a with
              | None => Ok (m, Done RUnit)
              | Some h => Ok (Shared (upd k (Attr (a_type a) None) (attrs m)) (heap m), At (SDelete h) c k acc)
              end
          end
      | SType =>
          match type_of m (a_content a) with
          | Undef => Undef
          | Ok o => if is_type o (asked c a) then Ok (m, At SCast c k acc) else Ok (m, Done (wrong c))
          end
      | SCast =>
          match type_of m (a_content a) with
          | Undef => Undef
          | Ok o => if is_type o (asked c a) then Ok (m, At SPtr c k acc) else Ok (m, Done RBadCast)
          end
      | SPtr =>
          match a_content a with
          | Some h => Ok (m, At (SRef h) c k acc)
          | None => Ok (m, Done RBadCast)
          end
      | SRef h =>
          match nth_error (heap m) h with
          | Some (Some (u, v)) =>
              match c with
              | CSet _ x =>
                  (* from_value, 45-48: the any given must hold the type of the assigner *)
                  match x with
                  | Some (t, w) => if t =? a_type a then Ok (Shared (attrs m) (upd h (Some (u, w)) (heap m)), Done (RBool true))
                                   else Ok (m, Done RBadCast)
                  | None => Ok (m, Done RBadCast)
                  end
              | CCopy => Ok (m, At SFind c (S k) (acc ++ [(a_type a, v)]))
              | _ => Ok (m, Done (gave c v))
              end
          | _ => Undef
          end
      | SDelete h =>
          match nth_error (heap m) h with
          | Some (Some _) => Ok (Shared (attrs m) (upd h None (heap m)), Done RUnit)
          | _ => Undef
          end
      end
  end.

(* a step of thread i; None: it has nothing to do *)
Definition step (s : state) (i : nat) : option (out (state * list event)) :=
  match nth_error (threads s) i with
  | None => None
  | Some (Thread todo p) =>
      match p with
      | Idle =>
          match todo with
          | [] => None
          | c :: cs => Some (Ok (State (mem s) (upd i (Thread cs (At SFind c (key_of c) [])) (threads s)), [Call i c]))
          end
      | At g c k acc =>
          match inside (mem s) g c k acc with
          | Undef => Some Undef
          | Ok (m, p') => Some (Ok (State m (upd i (Thread todo p') (threads s)), []))
          end
      | Done r => Some (Ok (State (mem s) (upd i (Thread todo Idle) (threads s)), [Return i r]))
      end
  end.
(* a schedule; threads that have nothing to do are passed over *)
Fixpoint run (s : state) (is : list nat) : out (state * list event) :=
  match is with
  | [] => Ok (s, [])
  | i :: t =>
      match step s i with
      | None => run s t
      | Some Undef => Undef
      | Some (Ok (s', e)) =>
          match run s' t with
          | Undef => Undef
          | Ok (s'', es) => Ok (s'', e ++ es)
          end
      end
  end.

(* register_attribute<t>(key, v), 152-160, for every key in turn *)
Definition registered (regs : list (nat * nat)) : shared :=
  Shared (map (fun p => Attr (fst (snd p)) (Some (fst p))) (combine (seq 0 (length regs)) regs)) (map Some regs).
Definition start (regs : list (nat * nat)) (progs : list (list call)) : state :=
  State (registered regs) (map (fun p => Thread p Idle) progs).
