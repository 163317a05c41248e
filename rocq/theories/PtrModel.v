(* optional<Ty_*>: /repo/include/yato/optional.h, the storage for pointers of
   lines 122-185 under the same basic_optional (lines 199-1090) as in
   OptModel.v; and flatten of nested optionals.

   A pointer is a number, 0 the null pointer.  The memory gives for each
   optional variable that exists its m_ptr.  Reading a variable that does not
   exist is undefined (None).  Nothing throws except get.  The operations are
   those of OptModel.op, so that both kinds of optional run the same programs.
   YATO_REQUIRES is empty (release build). *)
From Coq Require Import List Bool Arith.
From Verif Require Import OptModel.
Import ListNotations.

Definition mem := nat -> option nat.
Definition none : mem := fun _ => None.

Definition upd (m : mem) (i : nat) (x : option nat) : mem := fun k => if k =? i then x else m k.

(* m_ptr of an existing variable *)
Definition ptr (m : mem) (i : nat) (k : nat -> option mem) : option mem :=
  match m i with
  | Some p => k p
  | None => None
  end.

(* optional_storage::is_stored, lines 155-159 *)
Definition stored (p : nat) : bool := negb (p =? 0).

(* optional_storage::construct and destroy, lines 143-153; set_stored, lines
   161-163, does nothing.  construct_ and destroy_, lines 901-915. *)
Definition construct_p (i p : nat) (m : mem) : option mem := ptr m i (fun _ => Some (upd m i (Some p))).
Definition destroy_p (i : nat) (m : mem) : option mem :=
  ptr m i (fun p => if stored p then Some (upd m i (Some 0)) else Some m).

(* optional_storage(): m_ptr = nullptr, line 184 *)
Definition new_p (i : nat) (m : mem) : mem := upd m i (Some 0).

(* copy_constructor_, lines 933-943 *)
Definition copy_constructor_p (i j : nat) (m : mem) : option mem :=
  ptr m j (fun q => if stored q then construct_p i q m else Some m).

(* move_constructor_, lines 945-956 *)
Definition move_constructor_p (i j : nat) (m : mem) : option mem :=
  ptr m j (fun q =>
    if stored q then
      match construct_p i q m with
      | Some m' => destroy_p j m'
      | None => None
      end
    else Some m).

(* copy_assign_ and move_assign_, lines 958-988, which do the same to pointers *)
Definition assign_p (i j : nat) (m : mem) : option mem :=
  ptr m i (fun p => ptr m j (fun q =>
    if stored p && stored q then Some (upd m i (Some q))
    else match destroy_p i m with
         | Some m' => ptr m' j (fun q' => if stored q' then construct_p i q' m' else Some m')
         | None => None
         end)).

(* swap_, lines 917-931 *)
Definition swap_p (i j : nat) (m : mem) : option mem :=
  ptr m i (fun p => ptr m j (fun q =>
    if stored p && stored q then Some (upd (upd m i (Some q)) j (Some p))
    else if stored q then move_constructor_p i j m
    else destroy_p i m)).

(* emplace, lines 375-385 *)
Definition emplace_p (i p : nat) (m : mem) : option mem :=
  match destroy_p i m with
  | Some m' => construct_p i p m'
  | None => None
  end.

(* i.emplace(j.get_unsafe()): the argument is a reference to m_ptr of j, read
   when construct is called *)
Definition emplace_from_p (i j : nat) (m : mem) : option mem :=
  match destroy_p i m with
  | Some m' => ptr m' j (fun q => construct_p i q m')
  | None => None
  end.

(* exists_impl_, lines 1023-1028 *)
Definition exists_p (j : nat) (f : nat -> bool) (m : mem) : bool :=
  match m j with
  | Some q => stored q && f q
  | None => false
  end.

(* map_impl_, lines 1005-1012, to the same type *)
Definition map_p (i j : nat) (f : nat -> nat) (m : mem) : option mem :=
  ptr m j (fun q => if stored q then construct_p i (f q) m else Some m).

(* A variable that is being created must not exist; the one it is made from must. *)
Definition create_p (i : nat) (m : mem) (body : mem -> option mem) : option mem :=
  match m i with
  | None => body (new_p i m)
  | Some _ => None
  end.

(* get, lines 469-513; None when it throws *)
Definition get_p (i : nat) (m : mem) : option nat :=
  match m i with
  | Some p => if stored p then Some p else None
  | None => None
  end.

(* get_or, lines 566-575 *)
Definition get_or_p (i d : nat) (m : mem) : nat :=
  match m i with
  | Some p => if stored p then p else d
  | None => d
  end.

(* empty, lines 654-662 *)
Definition empty_p (i : nat) (m : mem) : bool :=
  match m i with
  | Some p => negb (stored p)
  | None => true
  end.

(* The operations of OptModel.op, and `i.get() = p`, which throws when i is
   empty and otherwise writes m_ptr. *)
Inductive pop :=
| Plain (o : op nat)
| Through (i p : nat).

Definition exec_p (o : pop) (m : mem) : option mem :=
  match o with
  | Plain (New i) => create_p i m (fun m' => Some m')
  | Plain (NewValue i p) => create_p i m (construct_p i p)
  | Plain (NewCopy i j) => create_p i m (copy_constructor_p i j)
  | Plain (NewMove i j) => create_p i m (move_constructor_p i j)
  | Plain (NewFilter i j f) => create_p i m (fun m' => if exists_p j f m' then copy_constructor_p i j m' else Some m')
  | Plain (NewFilterMove i j f) => create_p i m (fun m' => if exists_p j f m' then move_constructor_p i j m' else Some m')
  | Plain (NewMap i j f) => create_p i m (map_p i j f)
  | Plain (Delete i) => match destroy_p i m with Some m' => Some (upd m' i None) | None => None end
  | Plain (Emplace i p) => emplace_p i p m
  | Plain (EmplaceFrom i j) => emplace_from_p i j m
  | Plain (Reset i) => destroy_p i m
  | Plain (CopyAssign i j) => assign_p i j m
  | Plain (MoveAssign i j) => assign_p i j m
  | Plain (Swap i j) => swap_p i j m
  | Through i p => ptr m i (fun q => if stored q then Some (upd m i (Some p)) else Some m)
  end.

Fixpoint run_p (l : list pop) (m : mem) : option mem :=
  match l with
  | [] => Some m
  | o :: l' => match exec_p o m with Some m' => run_p l' m' | None => None end
  end.

(* --- flatten, lines 1030-1070 --- *)

(* basic_optional<basic_optional<... V>> with [n] levels around the innermost *)
Fixpoint nested (n : nat) (V : Type) : Type :=
  match n with
  | 0 => option V
  | S n' => option (nested n' V)
  end.

(* flatten of an lvalue, lines 1030-1038 and 1050-1057 *)
Fixpoint flatten (n : nat) {V : Type} : nested n V -> option V :=
  match n return nested n V -> option V with
  | 0 => fun o => o
  | S n' => fun o => match o with Some x => flatten n' x | None => None end
  end.

(* flatten of an rvalue, lines 1040-1048 and 1059-1066: the innermost optional
   is moved from, which empties it (move_constructor_); second component: what
   remains in the argument *)
Fixpoint flatten_move (n : nat) {V : Type} : nested n V -> option V * nested n V :=
  match n return nested n V -> option V * nested n V with
  | 0 => fun o => (o, None)
  | S n' => fun o =>
      match o with
      | Some x => (fst (flatten_move n' x), Some (snd (flatten_move n' x)))
      | None => (None, None)
      end
  end.
