(* dynamic_array: include/yato/dynamic_array.h.

   Memory is a set of blocks, each obtained from an allocator and made of raw
   places or objects.  Destroying or reading a raw place, using a block that was
   deallocated, and deallocating a block with another size or through an
   allocator that does not compare equal is undefined.  Allocations and element
   constructors throw as a list of booleans says, one consumed by each call.

   Simplifications.  An allocator is a number, and two compare equal when the
   numbers are equal.  Allocating no element yields a block with no places.  The
   loop of _destroy computes m_data - 1, which C++ leaves undefined and which is
   taken to work here.  The assertions, active only in debug builds, are left
   out.  assign(size, init list) (lines 282-287) compiles only for elements that
   can be built from a pointer and is left out. *)
From Coq Require Import List Bool Arith.
From Verif Require Import LifeModel.
Import ListNotations.

(* lines 41-43 *)
Record fields := MkFields { m_allocator : nat; m_size : nat; m_data : option nat }.

Record dworld (V : Type) := MkDyn {
  blocks : nat -> option (nat * list (option V));   (* the allocator and the places *)
  fresh : nat;
  arrays : nat -> option fields;
  obtained : nat;    (* blocks allocated *)
  returned : nat;    (* blocks deallocated *)
  made : nat;        (* objects constructed *)
  unmade : nat;      (* objects destroyed *)
  fails : list bool
}.
Arguments MkDyn {V}. Arguments blocks {V}. Arguments fresh {V}. Arguments arrays {V}. Arguments obtained {V}.
Arguments returned {V}. Arguments made {V}. Arguments unmade {V}. Arguments fails {V}.

Definition dstart {V : Type} (oracle : list bool) : dworld V :=
  MkDyn (fun _ => None) 0 (fun _ => None) 0 0 0 0 oracle.

(* the k-th of a list replaced *)
Fixpoint poke {A : Type} (l : list A) (k : nat) (x : A) : list A :=
  match l, k with
  | [], _ => []
  | _ :: l', 0 => x :: l'
  | y :: l', S k' => y :: poke l' k' x
  end.

Section Model.
Context {V : Type}.
Notation world := (dworld V).
Definition DM (A : Type) := world -> out world A.

Definition dret {A} (a : A) : DM A := fun w => Done a w.
Definition dbind {A B} (m : DM A) (f : A -> DM B) : DM B := fun w =>
  match m w with
  | Done a w' => f a w'
  | Threw w' => Threw w'
  | Undef => Undef
  end.
Definition dthrow {A} : DM A := fun w => Threw w.
Definition dundef {A} : DM A := fun _ => Undef.

Definition fields_of (i : nat) : DM fields := fun w =>
  match arrays w i with Some f => Done f w | None => Undef end.

Definition put_fields (i : nat) (f : option fields) : DM unit := fun w =>
  Done tt (MkDyn (blocks w) (fresh w) (upd (arrays w) i f) (obtained w) (returned w) (made w) (unmade w) (fails w)).

Definition next_fails : DM bool := fun w =>
  match fails w with
  | [] => Done false w
  | b :: l => Done b (MkDyn (blocks w) (fresh w) (arrays w) (obtained w) (returned w) (made w) (unmade w) l)
  end.

Definition set_blocks (m : nat -> option (nat * list (option V))) (w : world) : world :=
  MkDyn m (fresh w) (arrays w) (obtained w) (returned w) (made w) (unmade w) (fails w).

(* allocator_traits::allocate *)
Definition obtain (a n : nat) : DM nat := fun w =>
  Done (fresh w) (MkDyn (upd (blocks w) (fresh w) (Some (a, repeat None n))) (S (fresh w)) (arrays w)
    (S (obtained w)) (returned w) (made w) (unmade w) (fails w)).

(* allocator_traits::construct at place k *)
Definition make (b k : nat) (v : V) : DM unit :=
  dbind next_fails (fun x => if x then dthrow else fun w =>
    match blocks w b with
    | Some (a, cs) =>
        match nth_error cs k with
        | Some _ => Done tt (MkDyn (upd (blocks w) b (Some (a, poke cs k (Some v)))) (fresh w) (arrays w)
                      (obtained w) (returned w) (S (made w)) (unmade w) (fails w))
        | None => Undef
        end
    | None => Undef
    end).

(* allocator_traits::destroy at place k *)
Definition unmake (b k : nat) : DM unit := fun w =>
  match blocks w b with
  | Some (a, cs) =>
      match nth_error cs k with
      | Some (Some _) => Done tt (MkDyn (upd (blocks w) b (Some (a, poke cs k None))) (fresh w) (arrays w)
                           (obtained w) (returned w) (made w) (S (unmade w)) (fails w))
      | _ => Undef
      end
  | None => Undef
  end.

(* allocator_traits::deallocate *)
Definition give_back (a b n : nat) : DM unit := fun w =>
  match blocks w b with
  | Some (a', cs) =>
      if (a =? a') && (length cs =? n) then
        Done tt (MkDyn (upd (blocks w) b None) (fresh w) (arrays w) (obtained w) (S (returned w)) (made w) (unmade w) (fails w))
      else Undef
  | None => Undef
  end.

Definition peek (b k : nat) : DM V := fun w =>
  match blocks w b with
  | Some (_, cs) => match nth_error cs k with Some (Some v) => Done v w | _ => Undef end
  | None => Undef
  end.

Definition scribble (b k : nat) (v : V) : DM unit :=
  dbind (peek b k) (fun _ w =>
    match blocks w b with
    | Some (a, cs) => Done tt (set_blocks (upd (blocks w) b (Some (a, poke cs k (Some v)))) w)
    | None => Undef
    end).

(* _allocate, lines 46-52: the size is set before the allocation may throw *)
Definition allocate (i n : nat) : DM unit :=
  dbind (fields_of i) (fun f =>
  dbind (put_fields i (Some (MkFields (m_allocator f) n (m_data f)))) (fun _ =>
  dbind next_fails (fun x => if x then dthrow else
  dbind (obtain (m_allocator f) n) (fun b =>
  put_fields i (Some (MkFields (m_allocator f) n (Some b))))))).

(* _construct and _copy_construct, lines 54-68: the values still to be built,
   from place k on *)
Fixpoint make_all (b k : nat) (vs : list V) : DM unit :=
  match vs with
  | [] => dret tt
  | v :: vs' => dbind (make b k v) (fun _ => make_all b (S k) vs')
  end.

Definition construct_all (i : nat) (vs : list V) : DM unit :=
  dbind (fields_of i) (fun f =>
    match m_data f with
    | Some b => make_all b 0 vs
    | None => match vs with [] => dret tt | _ => dundef end
    end).

(* the loop of _destroy, lines 73-75: the places below n, last first *)
Fixpoint unmake_all (b n : nat) : DM unit :=
  match n with
  | 0 => dret tt
  | S k => dbind (unmake b k) (fun _ => unmake_all b k)
  end.

(* _destroy, lines 70-80 *)
Definition destroy_all (i : nat) : DM unit :=
  dbind (fields_of i) (fun f =>
    match m_data f with
    | Some b =>
        dbind (unmake_all b (m_size f)) (fun _ =>
        dbind (give_back (m_allocator f) b (m_size f)) (fun _ =>
        put_fields i (Some (MkFields (m_allocator f) 0 None))))
    | None => dret tt
    end).

(* _move_assign, lines 84-96: the old array is not destroyed.  propagates is propagate_on_container_move_assignment. *)
Definition take (propagates : bool) (i j : nat) : DM unit :=
  dbind (fields_of i) (fun f =>
  dbind (fields_of j) (fun g =>
    if propagates || (m_allocator f =? m_allocator g) then
      dbind (put_fields i (Some (MkFields (m_allocator g) (m_size g) (m_data g)))) (fun _ =>
      dbind (fields_of j) (fun g' => put_fields j (Some (MkFields (m_allocator g') 0 None))))
    else dthrow)).

(* running a constructor: if it throws, the variable does not exist and its
   destructor does not run *)
Definition born (i a : nat) (body : DM unit) : DM unit := fun w =>
  match arrays w i with
  | Some _ => Undef
  | None =>
      match dbind (put_fields i (Some (MkFields a 0 None))) (fun _ => body) w with
      | Done _ w' => Done tt w'
      | Threw w' => match put_fields i None w' with Done _ w'' => Threw w'' | Threw w'' => Threw w'' | Undef => Undef end
      | Undef => Undef
      end
  end.

(* The element type's default value, and the default allocator. *)
Variable zero : V.
Variable std_alloc : nat.
Variables propagates_move propagates_swap : bool.

Inductive op :=
| New (i a : nat)                     (* dynamic_array<T> i(a); *)
| NewSize (i n a : nat)               (* dynamic_array<T> i(n, a); *)
| NewValue (i n : nat) (v : V) (a : nat)  (* dynamic_array<T> i(n, v, a); *)
| NewList (i : nat) (l : list V) (a : nat) (* dynamic_array<T> i({...}, a); *)
| NewMove (i j : nat)                 (* dynamic_array<T> i(std::move(j)); *)
| Delete (i : nat)                    (* i goes out of scope *)
| AssignMove (i j : nat)              (* i = std::move(j); *)
| AssignList (i : nat) (l : list V)   (* i = {...}; *)
| Swap (i j : nat)                    (* i.swap(j); *)
| Assign (i n : nat) (v : V)          (* i.assign(n, v); *)
| AssignOwn (i n k : nat)             (* i.assign(n, i[k]); *)
| Resize (i n : nat)                  (* i.resize(n); *)
| Clear (i : nat)                     (* i.clear(); *)
| Write (i k : nat) (v : V).          (* i[k] = v; *)

(* operator[], lines 169-179 *)
Definition index (i k : nat) : DM V :=
  dbind (fields_of i) (fun f => match m_data f with Some b => peek b k | None => dundef end).

(* at, lines 181-195 *)
Definition at_ (i k : nat) : DM V :=
  dbind (fields_of i) (fun f => if m_size f <=? k then dthrow else index i k).

(* size, empty, get_allocator, lines 197-215 *)
Definition size (i : nat) : DM nat := dbind (fields_of i) (fun f => dret (m_size f)).
Definition empty (i : nat) : DM bool := dbind (size i) (fun n => dret (n =? 0)).
Definition get_allocator (i : nat) : DM nat := dbind (fields_of i) (fun f => dret (m_allocator f)).

(* front and back, lines 237-259 *)
Definition front (i : nat) : DM V := index i 0.
Definition back (i : nat) : DM V := dbind (fields_of i) (fun f => index i (m_size f - 1)).

Definition exec (o : op) : DM unit :=
  match o with
  | New i a => born i a (dret tt)                                                          (* lines 100-106 *)
  | NewSize i n a => born i a (dbind (allocate i n) (fun _ => construct_all i (repeat zero n)))   (* lines 108-113 *)
  | NewValue i n v a => born i a (dbind (allocate i n) (fun _ => construct_all i (repeat v n)))   (* lines 115-120 *)
  | NewList i l a => born i a (dbind (allocate i (length l)) (fun _ => construct_all i l))        (* lines 122-127 *)
  | NewMove i j => born i std_alloc (take propagates_move i j)                                    (* lines 136-139 *)
  | Delete i => dbind (destroy_all i) (fun _ => put_fields i None)                                (* lines 129-132 *)
  | AssignMove i j => if i =? j then dret tt else take propagates_move i j                        (* lines 154-160 *)
  | AssignList i l =>                                                                             (* lines 162-167 *)
      dbind (destroy_all i) (fun _ => dbind (allocate i (length l)) (fun _ =>
        dbind (construct_all i l) (fun _ => dundef (* no return statement *))))
  | Swap i j =>                                                                                   (* lines 141-150 *)
      if propagates_swap then
        if i =? j then dret tt else
        dbind (fields_of i) (fun f => dbind (fields_of j) (fun g =>
          dbind (put_fields i (Some g)) (fun _ => put_fields j (Some f))))
      else dundef (* does not compile *)
  | Assign i n v =>                                                                               (* lines 272-277 *)
      dbind (destroy_all i) (fun _ => dbind (allocate i n) (fun _ => construct_all i (repeat v n)))
  | AssignOwn i n k =>                          (* the value is a reference to an element of i *)
      dbind (fields_of i) (fun f =>
        match m_data f with
        | Some b =>
            dbind (peek b k) (fun _ => dbind (destroy_all i) (fun _ => dbind (allocate i n) (fun _ =>
              match n with
              | 0 => dret tt
              | S _ => dbind (peek b k) (fun v => construct_all i (repeat v n))
              end)))
        | None => dundef
        end)
  | Resize i n =>                                                                                 (* lines 292-297 *)
      dbind (destroy_all i) (fun _ => dbind (allocate i n) (fun _ => construct_all i (repeat zero n)))
  | Clear i => destroy_all i                                                                      (* lines 264-267 *)
  | Write i k v => dbind (fields_of i) (fun f => match m_data f with Some b => scribble b k v | None => dundef end)
  end.

End Model.
Arguments op : clear implicits.
