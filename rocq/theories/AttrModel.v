(* Attributes: include/yato/attributes_interface.h (attributes_map) and
   include/yato/atomic_attributes.h (atomic_attributes).

   The content of an any is as in AnyModel: nothing, or a value with its type.

   Simplifications.  Allocations do not fail.  A std::map is a list of pairs in
   the order of the keys, an unordered_map a list of pairs in the order of
   iteration, which is taken to be that of insertion.  Maps that have been moved
   from are empty, as std::map's are with the default allocator.  Copies, moves
   and swaps are those of the default validator and lock, the only ones that
   compile: the type of their parameter is attributes_map<KeyType>. *)
From Coq Require Import List Bool Arith.
From Verif Require Import LifeModel AnyModel.
Import ListNotations.

(* what a call returns or throws *)
Inductive res (A : Type) :=
| Ret (a : A)
| BadAttribute
| BadCast.      (* bad_any_cast, or what copying an uncopyable any throws *)
Arguments Ret {A}. Arguments BadAttribute {A}. Arguments BadCast {A}.

Section Map.
Context {K V : Type}.
Variable ltb : K -> K -> bool.         (* operator< of the keys *)
Variable copyable : nat -> bool.       (* types that can be copied *)
Variable valid : K -> bool.            (* the validator *)

Definition any := option (val V).
Definition attrs := list (K * any).

(* What set_attribute is given, and the any it makes of it (lines 49-53): an any
   that is not const is not copied but wrapped. *)
Inductive arg :=
| Value (t : nat) (v : V)
| ConstAny (c : any)
| LvalueAny (c : any)
| MovedAny (c : any).

Definition any_of (x : arg) : any :=
  match x with
  | Value t v => Some (Plain t v)
  | ConstAny c | MovedAny c => c
  | LvalueAny c => Some (Inner c)
  end.
(* making that any copies the one given *)
Definition arg_ok (x : arg) : bool :=
  match x with
  | ConstAny (Some y) | LvalueAny (Some y) => clone_ok copyable y
  | _ => true
  end.

(* insert_or_assign_, lines 186-196: lower_bound, then insert before or assign *)
Fixpoint insert_or_assign (k : K) (x : any) (m : attrs) : attrs :=
  match m with
  | [] => [(k, x)]
  | (k', y) :: m' =>
      if ltb k' k then (k', y) :: insert_or_assign k x m'
      else if ltb k k' then (k, x) :: m
      else (k', x) :: m'
  end.

(* std::map::find and erase *)
Fixpoint find (k : K) (m : attrs) : option any :=
  match m with
  | [] => None
  | (k', y) :: m' => if ltb k' k then find k m' else if ltb k k' then None else Some y
  end.
Fixpoint erase (k : K) (m : attrs) : attrs :=
  match m with
  | [] => []
  | (k', y) :: m' => if ltb k' k then (k', y) :: erase k m' else if ltb k k' then m else m'
  end.

(* copying a map copies every any *)
Definition copies (m : attrs) : bool :=
  forallb (fun p => match snd p with Some y => clone_ok copyable y | None => true end) m.

Definition maps := nat -> option attrs.

Inductive op :=
| New (i : nat)
| Set_ (i : nat) (k : K) (x : arg)    (* i.set_attribute(k, x); *)
| Clear (i : nat) (k : K)             (* i.clear_attribute(k); *)
| NewCopy (i j : nat)
| NewMove (i j : nat)
| Assign (i j : nat)
| AssignMove (i j : nat)
| Swap (i j : nat)
| Delete (i : nat).

(* The state after the operation and what it returned: true for set_attribute
   and, for lack of anything better, for the others.  Using a map that does not
   exist is None. *)
Definition exec (o : op) (w : maps) : option (maps * res bool) :=
  match o with
  | New i => match w i with None => Some (upd w i (Some []), Ret true) | _ => None end          (* line 224 *)
  | Set_ i k x =>                                                                               (* lines 49-53, 206-210 *)
      match w i with
      | Some m => if arg_ok x then Some (upd w i (Some (insert_or_assign k (any_of x) m)), Ret true) else Some (w, BadCast)
      | None => None
      end
  | Clear i k => match w i with Some m => Some (upd w i (Some (erase k m)), Ret true) | None => None end (* lines 212-215 *)
  | NewCopy i j =>                                                                              (* lines 233-235 *)
      match w i, w j with
      | None, Some m => if copies m then Some (upd w i (Some m), Ret true) else Some (w, BadCast)
      | _, _ => None
      end
  | NewMove i j =>                                                                              (* lines 244-246 *)
      match w i, w j with
      | None, Some m => Some (upd (upd w j (Some [])) i (Some m), Ret true)
      | _, _ => None
      end
  | Assign i j =>                                                                               (* lines 237-242 *)
      match w i, w j with
      | Some _, Some m =>
          if i =? j then Some (w, Ret true) else
          if copies m then Some (upd w i (Some m), Ret true) else None (* the target is then unspecified *)
      | _, _ => None
      end
  | AssignMove i j =>                                                                           (* lines 248-253 *)
      match w i, w j with
      | Some _, Some m => if i =? j then None (* unspecified *) else Some (upd (upd w j (Some [])) i (Some m), Ret true)
      | _, _ => None
      end
  | Swap i j =>                                                                                 (* lines 255-259 *)
      match w i, w j with
      | Some m, Some n => Some (upd (upd w j (Some m)) i (Some n), Ret true)
      | _, _ => None
      end
  | Delete i => match w i with Some _ => Some (upd w i None, Ret true) | None => None end       (* line 231 *)
  end.

(* has_attribute, lines 264-267 *)
Definition has (k : K) (m : attrs) : bool := match find k m with Some _ => true | None => false end.

(* get_attribute, lines 273-280 *)
Definition get (k : K) (m : attrs) : res any := match find k m with Some c => Ret c | None => BadAttribute end.

(* any::type() == typeid(t), for a type that is not any *)
Definition is_type (t : nat) (c : any) : option V :=
  match c with
  | Some (Plain u v) => if u =? t then Some v else None
  | _ => None
  end.

(* get_attribute_as, lines 286-294 *)
Definition get_as (k : K) (t : nat) (m : attrs) : res V :=
  match get k m with
  | Ret c => match is_type t c with Some v => Ret v | None => BadAttribute end
  | BadAttribute => BadAttribute
  | BadCast => BadCast
  end.

(* get_attribute_as with a default, lines 300-309 *)
Definition get_as_or (k : K) (t : nat) (d : V) (m : attrs) : V :=
  match find k m with
  | None => d
  | Some c => match is_type t c with Some v => v | None => d end
  end.

(* get_attribute_optional, lines 315-327 *)
Definition get_optional (k : K) (t : nat) (m : attrs) : option V :=
  match find k m with
  | None => None
  | Some c => is_type t c
  end.

(* is_valide_attribute, lines 217-220: set_attribute does not ask *)
Definition is_valid (k : K) : bool := valid k.
End Map.
Arguments any : clear implicits. Arguments attrs : clear implicits. Arguments arg : clear implicits.
Arguments maps : clear implicits. Arguments op : clear implicits.

(* atomic_attributes *)
Section Atomic.
Context {K V : Type}.
Variable eqb : K -> K -> bool.      (* KeyEqual *)

(* attribute_info, lines 103-127: the type of the assigner, and the atomic in
   the any with its type *)
Record info := MkInfo { assigner : nat; value : option (nat * V) }.
Definition atomics := list (K * info).

Fixpoint afind (k : K) (m : atomics) : option info :=
  match m with
  | [] => None
  | (k', x) :: m' => if eqb k' k then Some x else afind k m'
  end.
Fixpoint aput (k : K) (x : info) (m : atomics) : atomics :=
  match m with
  | [] => []
  | (k', y) :: m' => if eqb k' k then (k', x) :: m' else (k', y) :: aput k x m'
  end.

(* register_attribute, lines 152-160: emplace does nothing if the key exists; the
   value is set in either case *)
Definition register (k : K) (t : nat) (v : V) (m : atomics) : atomics * bool :=
  match afind k m with
  | Some x => (aput k (MkInfo (assigner x) (Some (t, v))) m, false)
  | None => (m ++ [(k, MkInfo t (Some (t, v)))], true)
  end.

(* try_set_ and from_value, lines 135-144 and 45-48, for an any with content c *)
Definition set (k : K) (c : option (val V)) (m : atomics) : atomics * res bool :=
  match afind k m with
  | None => (m, Ret false)
  | Some x =>
      match value x, c with
      | Some (u, _), Some (Plain t v) =>
          if (u =? assigner x) && (t =? assigner x) then (aput k (MkInfo (assigner x) (Some (u, v))) m, Ret true)
          else (m, BadCast)
      | _, _ => (m, BadCast)
      end
  end.

(* do_clear_attribute, lines 175-181 *)
Definition clear (k : K) (m : atomics) : atomics :=
  match afind k m with
  | Some x => aput k (MkInfo (assigner x) None) m
  | None => m
  end.

(* has_attribute and is_valide_attribute, lines 184-187 and 223-226 *)
Definition ahas (k : K) (m : atomics) : bool := match afind k m with Some _ => true | None => false end.

(* get_attribute_as, lines 232-244 *)
Definition aget_as (k : K) (t : nat) (m : atomics) : res V :=
  match afind k m with
  | Some x => match value x with Some (u, v) => if u =? t then Ret v else BadAttribute | None => BadAttribute end
  | None => BadAttribute
  end.

(* get_attribute_as with a default, lines 250-262, and get_attribute_optional,
   lines 268-280 *)
Definition aget_optional (k : K) (t : nat) (m : atomics) : option V :=
  match afind k m with
  | Some x => match value x with Some (u, v) => if u =? t then Some v else None | None => None end
  | None => None
  end.
Definition aget_as_or (k : K) (t : nat) (d : V) (m : atomics) : V :=
  match aget_optional k t m with Some v => v | None => d end.

(* the copy constructor, lines 195-204, and from_atomic, lines 40-43: the copied
   entries so far, and those still to do *)
Fixpoint copy_from (done todo : atomics) : res atomics :=
  match todo with
  | [] => Ret done
  | (k, x) :: todo' =>
      match afind k done with
      | Some _ => copy_from done todo'
      | None =>
          match value x with
          | Some (u, v) =>
              if u =? assigner x then copy_from (done ++ [(k, MkInfo (assigner x) (Some (assigner x, v)))]) todo'
              else BadCast
          | None => BadCast
          end
      end
  end.
Definition copy (m : atomics) : res atomics := copy_from [] m.
End Atomic.
Arguments info : clear implicits. Arguments atomics : clear implicits.
