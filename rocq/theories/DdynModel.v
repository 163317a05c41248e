(* The debug build of dynamic_array: include/yato/dynamic_array.h with the assertions of
   include/yato/assertion.h:100-106, which end the program.  Everything else, and what
   is simplified, is in DynModel. *)
From Coq Require Import List Bool Arith.
From Verif Require Import LifeModel DynModel.
Import ListNotations.

Section Model.
Context {V : Type}.
Notation world := (dworld V).
(* None: an assertion ends the program *)
Definition DB (A : Type) := world -> option (out world A).

Definition plain {A} (m : DM A) : DB A := fun w => Some (m w).
Definition bbind {A B} (m : DB A) (f : A -> DB B) : DB B := fun w =>
  match m w with
  | Some (Done a w') => f a w'
  | Some (Threw w') => Some (Threw w')
  | Some Undef => Some Undef
  | None => None
  end.
(* YATO_REQUIRES, YATO_ASSERT *)
Definition require (c : bool) : DB unit := fun w => if c then Some (Done tt w) else None.
Definition no_memory (f : fields) : bool := match m_data f with None => true | Some _ => false end.

(* _allocate, lines 46-52, with 48 and 51 *)
Definition d_allocate (i n : nat) : DB unit :=
  bbind (plain (fields_of i)) (fun f =>
  bbind (require (no_memory f)) (fun _ =>
  bbind (plain (allocate i n)) (fun _ =>
  bbind (plain (fields_of i)) (fun f => require (negb (no_memory f)))))).

(* a constructor, see DynModel *)
Definition d_born (i a : nat) (body : DB unit) : DB unit := fun w =>
  match arrays w i with
  | Some _ => Some Undef
  | None =>
      match bbind (plain (put_fields i (Some (MkFields a 0 None)))) (fun _ => body) w with
      | Some (Done _ w') => Some (Done tt w')
      | Some (Threw w') => Some (match put_fields i None w' with Done _ w'' => Threw w'' | Threw w'' => Threw w'' | Undef => Undef end)
      | Some Undef => Some Undef
      | None => None
      end
  end.

(* operator[], lines 169-179 *)
Definition d_index (i k : nat) : DB V :=
  bbind (plain (fields_of i)) (fun f =>
  bbind (require (k <? m_size f)) (fun _ =>
  bbind (require (negb (no_memory f))) (fun _ => plain (index i k)))).
(* at, lines 181-195 *)
Definition d_at (i k : nat) : DB V :=
  bbind (plain (fields_of i)) (fun f => if m_size f <=? k then plain dthrow else d_index i k).
(* front and back, lines 237-259 *)
Definition d_front (i : nat) : DB V :=
  bbind (plain (fields_of i)) (fun f =>
  bbind (require (negb (m_size f =? 0))) (fun _ =>
  bbind (require (negb (no_memory f))) (fun _ => plain (front i)))).
Definition d_back (i : nat) : DB V :=
  bbind (plain (fields_of i)) (fun f =>
  bbind (require (negb (m_size f =? 0))) (fun _ =>
  bbind (require (negb (no_memory f))) (fun _ => plain (back i)))).

Variable zero : V.
Variable std_alloc : nat.
Variables propagates_move propagates_swap : bool.

(* the operations that allocate or use operator[]; the rest has no assertions *)
Definition d_exec (o : op V) : DB unit :=
  match o with
  | NewSize i n a => d_born i a (bbind (d_allocate i n) (fun _ => plain (construct_all i (repeat zero n))))     (* lines 108-113 *)
  | NewValue i n v a => d_born i a (bbind (d_allocate i n) (fun _ => plain (construct_all i (repeat v n))))     (* lines 115-120 *)
  | NewList i l a => d_born i a (bbind (d_allocate i (length l)) (fun _ => plain (construct_all i l)))          (* lines 122-127 *)
  | AssignList i l =>                                                                                           (* lines 162-167 *)
      bbind (plain (destroy_all i)) (fun _ => bbind (d_allocate i (length l)) (fun _ =>
        plain (dbind (construct_all i l) (fun _ => dundef))))
  | Assign i n v =>                                                                                             (* lines 272-277 *)
      bbind (plain (destroy_all i)) (fun _ => bbind (d_allocate i n) (fun _ => plain (construct_all i (repeat v n))))
  | Resize i n =>                                                                                               (* lines 292-297 *)
      bbind (plain (destroy_all i)) (fun _ => bbind (d_allocate i n) (fun _ => plain (construct_all i (repeat zero n))))
  | AssignOwn i n k =>
      bbind (d_index i k) (fun _ => bbind (plain (fields_of i)) (fun f =>
        match m_data f with
        | Some b =>
            bbind (plain (destroy_all i)) (fun _ => bbind (d_allocate i n) (fun _ =>
              match n with
              | 0 => plain (dret tt)
              | S _ => plain (dbind (peek b k) (fun v => construct_all i (repeat v n)))
              end))
        | None => plain dundef
        end))
  | Write i k v => bbind (d_index i k) (fun _ => plain (exec zero std_alloc propagates_move propagates_swap (Write i k v)))
  | _ => plain (exec zero std_alloc propagates_move propagates_swap o)
  end.
End Model.
