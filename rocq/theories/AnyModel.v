(* any: /repo/include/yato/any.h:56-425.

   An any owns a holder on the heap, or nothing.  A holder's payload is a value
   of some type, or again an any.  Types are numbered; [copyable] says which are
   copy assignable, which is what any_holder looks at (lines 70-106 against
   108-190).  A payload that is an any is modelled by its contents, without
   heap cells of its own.

   A copy from an any that is a non-const lvalue is not done by the copy
   constructor and the copy assignment (const any &) but by the templates
   any(ValueType &&) and operator=(ValueType &&) with ValueType = any &, which
   match better (lines 201-206 and 246-251); they make a holder whose payload
   is an any.  Overload resolution is the reader's; both ways are modelled.

   Allocations and copies may throw, according to a list of booleans.  Not
   modelled here: get_unsafe, get_opt, any_cast, references kept after the any
   changed (CastModel.v has them). *)
From Coq Require Import List Bool Arith.
From Verif Require Import LifeModel.
Import ListNotations.

Section Any.
Context {V : Type}.
Variable copyable : nat -> bool.

Inductive val :=
| Plain (t : nat) (v : V)
| Inner (a : option val).

Record aworld := MkAny {
  heap : nat -> option val;
  next : nat;                        (* addresses from here on are free *)
  anys : nat -> option (option nat); (* the variables; m_content *)
  allocs : nat;
  frees : nat;
  athrows : list bool
}.

Definition AM (A : Type) := aworld -> out aworld A.
Definition aret {A} (a : A) : AM A := fun w => Done a w.
Definition abind {A B} (m : AM A) (f : A -> AM B) : AM B := fun w =>
  match m w with Done a w' => f a w' | Threw w' => Threw w' | Undef => Undef end.
Definition athrow {A} : AM A := fun w => Threw w.

Local Notation "'do' x <- a ; b" := (abind a (fun x => b)) (at level 200, x name, a at level 100, b at level 200).
Local Notation "a ;; b" := (abind a (fun _ => b)) (at level 199, right associativity).

(* std::make_unique of a holder: lines 201-206, 214-219 and 103 *)
Definition make_holder (x : val) : AM nat := fun w =>
  match athrows w with
  | true :: l => Threw (MkAny (heap w) (next w) (anys w) (allocs w) (frees w) l)
  | l => Done (next w)
           (MkAny (upd (heap w) (next w) (Some x)) (S (next w)) (anys w) (S (allocs w)) (frees w) (tl l))
  end.

(* what unique_ptr does with its old pointer *)
Definition release (p : option nat) : AM unit := fun w =>
  match p with
  | None => Done tt w
  | Some a =>
      match heap w a with
      | None => Undef
      | Some _ => Done tt (MkAny (upd (heap w) a None) (next w) (anys w) (allocs w) (S (frees w)) (athrows w))
      end
  end.

Definition content (i : nat) : AM (option nat) := fun w =>
  match anys w i with Some p => Done p w | None => Undef end.

Definition set_content (i : nat) (p : option nat) : AM unit := fun w =>
  Done tt (MkAny (heap w) (next w) (upd (anys w) i (Some p)) (allocs w) (frees w) (athrows w)).

Definition deref (a : nat) : AM val := fun w =>
  match heap w a with Some x => Done x w | None => Undef end.

(* can a payload be copied?  Copying an any copies what it holds. *)
Fixpoint clone_ok (x : val) : bool :=
  match x with
  | Plain t _ => copyable t
  | Inner None => true
  | Inner (Some y) => clone_ok y
  end.

(* clone, lines 101-104, 141-146, 182-187 *)
Definition clone (a : nat) : AM nat :=
  do x <- deref a; if clone_ok x then make_holder x else athrow.

(* any(const any &), lines 208-212 *)
Definition copy_of (j : nat) : AM (option nat) :=
  do p <- content j;
  match p with
  | None => aret None
  | Some a => do b <- clone a; aret (Some b)
  end.

(* any(ValueType &&) with ValueType = any &, lines 201-206: the payload is copied from j *)
Definition holder_of (j : nat) : AM nat :=
  do p <- content j;
  match p with
  | None => make_holder (Inner None)
  | Some a => do x <- deref a; if clone_ok x then make_holder (Inner (Some x)) else athrow
  end.

(* any(...).swap( *this ): the temporary takes the old content away *)
Definition replace (i : nat) (p : option nat) : AM unit :=
  do old <- content i; set_content i p ;; release old.

(* the type of the content, lines 269-272 *)
Inductive atype := Void | OfAny | OfType (t : nat).
Definition type_of (i : nat) : AM atype :=
  do p <- content i;
  match p with
  | None => aret Void
  | Some a => do x <- deref a; aret (match x with Plain t _ => OfType t | Inner _ => OfAny end)
  end.

(* empty, lines 253-256 *)
Definition empty (i : nat) : AM bool := do p <- content i; aret (match p with None => true | _ => false end).

(* get<Ty>, lines 287-307, for a type that is not any *)
Definition get (i t : nat) : AM V :=
  do p <- content i;
  match p with
  | None => athrow
  | Some a => do x <- deref a;
              match x with
              | Plain u v => if u =? t then aret v else athrow
              | Inner _ => athrow
              end
  end.

(* get_or<Ty>, lines 309-329 *)
Definition get_or (i t : nat) (d : V) : AM V :=
  do p <- content i;
  match p with
  | None => aret d
  | Some a => do x <- deref a;
              match x with
              | Plain u v => if u =? t then aret v else aret d
              | Inner _ => aret d
              end
  end.

(* i.get<Ty>() = v *)
Definition store (i t : nat) (v : V) : AM unit :=
  do p <- content i;
  match p with
  | None => athrow
  | Some a => do x <- deref a;
              match x with
              | Plain u _ => if u =? t then fun w => Done tt (MkAny (upd (heap w) a (Some (Plain t v))) (next w) (anys w)
                                                                (allocs w) (frees w) (athrows w))
                             else athrow
              | Inner _ => athrow
              end
  end.

Inductive op :=
| New (i : nat)                        (* any i; *)
| NewPlain (i t : nat) (v : V)         (* any i(v), v of type t *)
| NewCopyConst (i j : nat)             (* any i(std::as_const(j)); *)
| NewCopyLvalue (i j : nat)            (* any i(j); *)
| NewMove (i j : nat)                  (* any i(std::move(j)); *)
| Delete (i : nat)
| AssignConst (i j : nat)              (* i = std::as_const(j); *)
| AssignLvalue (i j : nat)             (* i = j; *)
| AssignMove (i j : nat)
| AssignPlain (i t : nat) (v : V)      (* i = v; also emplace<Ty>(v) *)
| Clear (i : nat)
| Swap (i j : nat)
| Store (i t : nat) (v : V).           (* i.get<Ty>() = v; *)

(* a constructor: the variable exists only if making its content does not throw *)
Definition declare (i : nat) (m : AM (option nat)) : AM unit := fun w =>
  match anys w i with
  | Some _ => Undef
  | None => (do p <- m; set_content i p) w
  end.

Definition undeclare (i : nat) : AM unit := fun w =>
  Done tt (MkAny (heap w) (next w) (upd (anys w) i None) (allocs w) (frees w) (athrows w)).

Definition exec (o : op) : AM unit :=
  match o with
  | New i => declare i (aret None)
  | NewPlain i t v => declare i (do a <- make_holder (Plain t v); aret (Some a))
  | NewCopyConst i j => declare i (copy_of j)
  | NewCopyLvalue i j => declare i (do a <- holder_of j; aret (Some a))
  | NewMove i j => do p <- content j; declare i (set_content j None ;; aret p)
  | Delete i => do p <- content i; undeclare i ;; release p
  | AssignConst i j => do p <- copy_of j; replace i p
  | AssignLvalue i j => do a <- holder_of j; replace i (Some a)
  | AssignMove i j =>                  (* lines 239-244 *)
      do p <- content i; do q <- content j;
      set_content i q ;; set_content j p ;; replace j None
  | AssignPlain i t v => do a <- make_holder (Plain t v); replace i (Some a)
  | Clear i => replace i None          (* lines 264-267 *)
  | Swap i j =>                        (* lines 227-231 *)
      do p <- content i; do q <- content j; set_content i q ;; set_content j p
  | Store i t v => store i t v
  end.

Definition astart (oracle : list bool) : aworld := MkAny (fun _ => None) 0 (fun _ => None) 0 0 oracle.

End Any.
Arguments val : clear implicits.
Arguments aworld : clear implicits.
Arguments op : clear implicits.
