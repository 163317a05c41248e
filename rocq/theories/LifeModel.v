(* Objects in raw storage, shared by the models of optional, variant, storage
   and dynamic_array.

   A place is a piece of properly aligned storage for one object; it is raw or
   holds an object with a value.  Places are numbered by the variable they
   belong to and an index.  Every operation of the element type is an operation
   here: constructing, assigning, moving from, reading, destroying.
   Destroying, reading or assigning where there is no object is undefined.
   Constructing over an object, and giving up storage that holds one, is not
   undefined but the object is then never destroyed; such objects are counted.

   Whether a constructor or an assignment throws is decided by a list of
   booleans, one consumed by each call.  An element operation that throws has
   no effect.  Destructors do not throw. *)
From Coq Require Import List Bool Arith.
Import ListNotations.

Record world (V F : Type) := MkWorld {
  cells : nat -> nat -> option V;    (* storage *)
  vars : nat -> option F;            (* the variables that exist, and their fields *)
  built : nat;                       (* objects constructed *)
  ended : nat;                       (* objects destroyed *)
  lost : nat;                        (* objects whose storage went away undestroyed *)
  throws : list bool
}.
Arguments MkWorld {V F}. Arguments cells {V F}. Arguments vars {V F}. Arguments built {V F}.
Arguments ended {V F}. Arguments lost {V F}. Arguments throws {V F}.

Inductive out (W A : Type) :=
| Done (a : A) (w : W)
| Threw (w : W)
| Undef.
Arguments Done {W A}. Arguments Threw {W A}. Arguments Undef {W A}.

Section Life.
Context {V F : Type}.
(* the value of an object that has been moved from *)
Variable husk : V -> V.

Definition M (A : Type) := world V F -> out (world V F) A.

Definition ret {A} (a : A) : M A := fun w => Done a w.
Definition bind {A B} (m : M A) (f : A -> M B) : M B := fun w =>
  match m w with
  | Done a w' => f a w'
  | Threw w' => Threw w'
  | Undef => Undef
  end.
Definition undef {A} : M A := fun _ => Undef.
Definition throw {A} : M A := fun w => Threw w.
(* m, and then h if it threw, which goes on *)
Definition on_throw {A} (m : M A) (h : M unit) : M A := fun w =>
  match m w with
  | Threw w' => match h w' with Done _ w'' => Threw w'' | Threw w'' => Threw w'' | Undef => Undef end
  | r => r
  end.

Definition upd {A} (f : nat -> A) (i : nat) (x : A) : nat -> A := fun j => if j =? i then x else f j.

Definition set_cell (i k : nat) (c : option V) (w : world V F) : world V F :=
  MkWorld (upd (cells w) i (upd (cells w i) k c)) (vars w) (built w) (ended w) (lost w) (throws w).

Definition set_var (i : nat) (x : option F) (w : world V F) : world V F :=
  MkWorld (cells w) (upd (vars w) i x) (built w) (ended w) (lost w) (throws w).

Definition count (b e l : nat) (w : world V F) : world V F :=
  MkWorld (cells w) (vars w) (built w + b) (ended w + e) (lost w + l) (throws w).

Definition lives (c : option V) : nat := match c with Some _ => 1 | None => 0 end.

(* does the next element operation throw? *)
Definition next_throws : M bool := fun w =>
  match throws w with
  | [] => Done false w
  | b :: l => Done b (MkWorld (cells w) (vars w) (built w) (ended w) (lost w) l)
  end.

(* new (place) T(v) *)
Definition construct (i k : nat) (v : V) : M unit :=
  bind next_throws (fun b => if b then throw else fun w =>
    Done tt (count 1 0 (lives (cells w i k)) (set_cell i k (Some v) w))).

(* place->~T() *)
Definition destroy (i k : nat) : M unit := fun w =>
  match cells w i k with
  | Some _ => Done tt (count 0 1 0 (set_cell i k None w))
  | None => Undef
  end.

(* reading the object *)
Definition read (i k : nat) : M V := fun w =>
  match cells w i k with
  | Some v => Done v w
  | None => Undef
  end.

(* what a move leaves behind *)
Definition hollow (i k : nat) : M unit := fun w =>
  match cells w i k with
  | Some v => Done tt (set_cell i k (Some (husk v)) w)
  | None => Undef
  end.

(* new (place) T(std::move(other)) *)
Definition move_construct (i k j l : nat) : M unit :=
  bind (read j l) (fun v => bind (construct i k v) (fun _ => hollow j l)).

(* place = v *)
Definition assign (i k : nat) (v : V) : M unit :=
  bind (read i k) (fun _ => bind next_throws (fun b => if b then throw else fun w =>
    Done tt (set_cell i k (Some v) w))).

(* place = std::move(other); assigning to itself keeps the value *)
Definition move_assign (i k j l : nat) : M unit :=
  bind (read j l) (fun v => bind (read i k) (fun _ => bind next_throws (fun b => if b then throw else fun w =>
    match hollow j l w with
    | Done _ w' => Done tt (set_cell i k (Some v) w')
    | Threw w' => Threw w'
    | Undef => Undef
    end))).

(* std::swap of two objects: T tmp(std::move(a)); a = std::move(b); b = std::move(tmp); *)
Definition swap_objects (i k j l : nat) : M unit :=
  bind (read i k) (fun v => bind next_throws (fun b => if b then throw else
    bind (fun w => Done tt (count 1 0 0 w)) (fun _ => bind (hollow i k) (fun _ =>
      bind (on_throw (bind (move_assign i k j l) (fun _ => assign j l v)) (fun w => Done tt (count 0 1 0 w)))
        (fun _ w => Done tt (count 0 1 0 w)))))).

(* the fields of a variable; using one that does not exist is undefined *)
Definition fields (i : nat) : M F := fun w =>
  match vars w i with
  | Some x => Done x w
  | None => Undef
  end.

Definition set_fields (i : nat) (x : F) : M unit := fun w => Done tt (set_var i (Some x) w).

(* the storage of a variable with n places goes away *)
Fixpoint vanish_cells (i : nat) (n : nat) (w : world V F) : world V F :=
  match n with
  | 0 => w
  | S n' => let w' := vanish_cells i n' w in count 0 0 (lives (cells w' i n')) (set_cell i n' None w')
  end.

Definition vanish (i n : nat) : M unit := fun w => Done tt (set_var i None (vanish_cells i n w)).

(* running a constructor: the variable exists only if it does not throw *)
Definition create (i n : nat) (x : F) (body : M unit) : M unit := fun w =>
  match vars w i with
  | Some _ => Undef
  | None => on_throw body (vanish i n) (set_var i (Some x) w)
  end.

End Life.

Definition start {V F : Type} (oracle : list bool) : world V F :=
  MkWorld (fun _ _ => None) (fun _ => None) 0 0 0 oracle.
