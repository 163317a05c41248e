(* storage: include/yato/storage.h.

   Both variants: storage_always_stack keeps the object in place, in one cell of
   LifeModel; storage_always_heap keeps a unique_ptr, in the heap of AnyModel
   with objects of one type.  Which one yato::storage is depends on the size of
   the type. *)
From Coq Require Import List Bool Arith.
From Verif Require Import LifeModel AnyModel.
Import ListNotations.

Inductive op (V : Type) :=
| New (i : nat)               (* storage<T> i; *)
| NewValue (i : nat) (v : V)  (* storage<T> i(v); *)
| NewCopy (i j : nat)         (* storage<T> i(j); *)
| NewMove (i j : nat)         (* storage<T> i(std::move(j)); *)
| Delete (i : nat)            (* i goes out of scope *)
| Assign (i j : nat)          (* i = j; *)
| AssignMove (i j : nat)      (* i = std::move(j); *)
| Swap (i j : nat)            (* i.swap(j); *)
| Write (i : nat) (v : V)     (* *i = v; *)
| Emplace (i : nat) (v : V).  (* new (i.get()) T(v); *)
Arguments New {V}. Arguments NewValue {V}. Arguments NewCopy {V}. Arguments NewMove {V}. Arguments Delete {V}.
Arguments Assign {V}. Arguments AssignMove {V}. Arguments Swap {V}. Arguments Write {V}. Arguments Emplace {V}.

(* storage_impl<_T, _SizeLimit, false>, lines 116-243 *)
Section Stack.
Context {V : Type}.
Notation world := (world V unit).
Notation M := (@M V unit).
Local Notation "'do' x <- a ; b" := (bind a (fun x => b)) (at level 200, x name, a at level 100, b at level 200).
Local Notation "a ;; b" := (bind a (fun _ => b)) (at level 199, right associativity).

Definition tally (b e : nat) : M unit := fun w => Done tt (count b e 0 w).

(* operator=, both, lines 193-209 *)
Definition stack_assign (i j : nat) : M unit :=
  do _ <- fields i; do _ <- fields j;
  if i =? j then ret tt else destroy i 0 ;; do v <- read j 0; construct i 0 v.

(* swap, lines 182-191: with a copy in a local variable *)
Definition stack_swap (i j : nat) : M unit :=
  do _ <- fields i; do _ <- fields j;
  if i =? j then ret tt else
  do v <- read i 0; do b <- next_throws;
  if b then throw else
  tally 1 0 ;;
  on_throw (destroy i 0 ;; do u <- read j 0; construct i 0 u ;; destroy j 0 ;; construct j 0 v) (tally 0 1) ;;
  tally 0 1.

Definition stack_exec (o : op V) : M unit :=
  match o with
  | New i => create i 1 tt (ret tt)                                              (* lines 158-160 *)
  | NewValue i v => create i 1 tt (construct i 0 v)                              (* lines 162-165 *)
  | NewCopy i j | NewMove i j => create i 1 tt (do v <- read j 0; construct i 0 v) (* lines 167-175 *)
  | Delete i => do _ <- fields i; destroy i 0 ;; vanish i 1                      (* lines 177-180 *)
  | Assign i j | AssignMove i j => stack_assign i j
  | Swap i j => stack_swap i j
  | Write i v => do _ <- fields i; assign i 0 v
  | Emplace i v => do _ <- fields i; construct i 0 v
  end.

(* operator*, get, operator->, lines 211-242 *)
Definition stack_get (i : nat) : M V := do _ <- fields i; read i 0.
End Stack.

(* storage_impl<_T, _SizeLimit, true>, lines 20-114 *)
Section Heap.
Context {V : Type}.
Notation world := (aworld V).
Local Notation "'do' x <- a ; b" := (abind a (fun x => b)) (at level 200, x name, a at level 100, b at level 200).
Local Notation "a ;; b" := (abind a (fun _ => b)) (at level 199, right associativity).

Notation AM := (@AM V).
Definition aundef {A} : AM A := fun _ => Undef.

(* *other.get() *)
Definition target (j : nat) : AM (val V) :=
  do p <- content j; match p with Some a => deref a | None => aundef end.

Definition heap_exec (o : op V) : AM unit :=
  match o with
  | New i => declare i (aret None)                                                        (* lines 38-40 *)
  | NewValue i v => declare i (do a <- make_holder (Plain 0 v); aret (Some a))            (* lines 42-45 *)
  | NewCopy i j => declare i (do x <- target j; do a <- make_holder x; aret (Some a))     (* lines 47-50 *)
  | NewMove i j => do p <- content j; declare i (set_content j None ;; aret p)            (* lines 52-55 *)
  | Delete i => do p <- content i; undeclare i ;; release p                               (* lines 57-59 *)
  | Assign i j =>                                                                         (* lines 68-75 *)
      do _ <- content i; do _ <- content j;
      if i =? j then aret tt else do x <- target j; do a <- make_holder x; replace i (Some a)
  | AssignMove i j =>                                                                     (* lines 77-83 *)
      do _ <- content i; do p <- content j;
      if i =? j then aret tt else set_content j None ;; replace i p
  | Swap i j =>                                                                           (* lines 61-66 *)
      do p <- content i; do q <- content j;
      if i =? j then aret tt else set_content i q ;; set_content j p
  | Write i v =>                                                                          (* lines 105-113 *)
      do p <- content i;
      match p with
      | Some a => do _ <- deref a; fun w =>
          Done tt (MkAny (upd (heap w) a (Some (Plain 0 v))) (next w) (anys w) (allocs w) (frees w) (athrows w))
      | None => aundef
      end
  | Emplace _ _ => aundef (* not for this variant *)
  end.

(* get as a pointer: null, or the object *)
Definition heap_get (i : nat) : AM (option (val V)) :=
  do p <- content i; match p with Some a => do x <- deref a; aret (Some x) | None => aret None end.
End Heap.
