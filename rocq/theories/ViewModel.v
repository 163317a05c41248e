(* vector_view: include/yato/vector_view.h, over an array of elements.

   The view keeps two iterators into the array and the number of places it was
   given.  Iterators are places counted from the beginning of the array; making
   one further than its end, or reading or writing a place that is not in it, is
   undefined.  An element that was moved from is Hollow until it is assigned.

   std::move and std::move_backward are called on overlapping ranges.  C++ leaves
   that undefined when the destination lies on the side the algorithm reads
   next; what the usual libraries do is modelled: for trivially copyable elements
   the whole range is moved as by memmove, for others one element after the
   other.

   Simplifications.  The assertions, active only in debug builds, are left out.
   Sizes and distances are natural numbers: a view whose end precedes its
   beginning is out of the model, except that pop_back of an empty view makes one
   which nothing is stated about.  Element assignments do not throw. *)
From Coq Require Import List Bool Arith.
Import ListNotations.

Inductive cell (V : Type) := Has (v : V) | Hollow.
Arguments Has {V}. Arguments Hollow {V}.

Inductive res (A : Type) := Ok (a : A) | OutOfRange | UB.
Arguments Ok {A}. Arguments OutOfRange {A}. Arguments UB {A}.

Definition bind {A B : Type} (m : res A) (f : A -> res B) : res B :=
  match m with Ok a => f a | OutOfRange => OutOfRange | UB => UB end.
Notation "'do' x <- m ; e" := (bind m (fun x => e)) (at level 200, x pattern, m at level 100, e at level 200).

(* lines 36-38 *)
Record view := MkView { m_begin : nat; m_end : nat; m_max : nat }.

Section Model.
Context {V : Type}.
Notation memory := (list (cell V)).

Definition read (m : memory) (p : nat) : res (cell V) :=
  match nth_error m p with Some c => Ok c | None => UB end.

Fixpoint put (m : memory) (p : nat) (c : cell V) : memory :=
  match m, p with
  | [], _ => []
  | _ :: m', 0 => c :: m'
  | d :: m', S p' => d :: put m' p' c
  end.

Definition write (m : memory) (p : nat) (c : cell V) : res memory :=
  if p <? length m then Ok (put m p c) else UB.

(* *to = std::move( *from) for an element that is not trivially copyable *)
Definition move_one (m : memory) (from to : nat) : res memory :=
  do c <- read m from;
  do m1 <- write m from Hollow;
  write m1 to c.

(* std::move(first, first + n, to), element by element *)
Fixpoint move_up (m : memory) (first n to : nat) : res memory :=
  match n with
  | 0 => Ok m
  | S n' => do m1 <- move_one m first to; move_up m1 (S first) n' (S to)
  end.

(* std::move_backward(first, first + n, to + n), element by element *)
Fixpoint move_down (m : memory) (first n to : nat) : res memory :=
  match n with
  | 0 => Ok m
  | S n' => do m1 <- move_one m (first + n') (to + n'); move_down m1 first n' to
  end.

(* memmove of n places *)
Definition memmove (m : memory) (first n to : nat) : res memory :=
  if (first + n <=? length m) && (to + n <=? length m)
  then Ok (firstn to m ++ firstn n (skipn first m) ++ skipn (to + n) m)
  else UB.

Definition std_move (trivial : bool) (m : memory) (first n to : nat) : res memory :=
  if trivial then memmove m first n to else move_up m first n to.

Definition std_move_backward (trivial : bool) (m : memory) (first n to : nat) : res memory :=
  if trivial then memmove m first n to else move_down m first n to.

(* std::fill *)
Fixpoint fill (m : memory) (first n : nat) (c : cell V) : res memory :=
  match n with
  | 0 => Ok m
  | S n' => do m1 <- write m first c; fill m1 (S first) n' c
  end.

(* std::copy from another container *)
Fixpoint copy_in (m : memory) (first : nat) (l : list (cell V)) : res memory :=
  match l with
  | [] => Ok m
  | c :: l' => do m1 <- write m first c; copy_in m1 (S first) l'
  end.

(* std::next(m_begin, count) *)
Definition next (m : memory) (p count : nat) : res nat :=
  if p + count <=? length m then Ok (p + count) else UB.

(* lines 74-77 *)
Definition make (data max : nat) : view := MkView data data max.

(* lines 79-82 *)
Definition make_from (first last max : nat) : view := MkView first last max.

(* lines 156-160 *)
Definition size (v : view) : nat := m_end v - m_begin v.

(* lines 162-166 *)
Definition empty (v : view) : bool := m_begin v =? m_end v.

(* lines 42-46 *)
Definition resize_ (m : memory) (v : view) (count : nat) : res view :=
  do e <- next m (m_begin v) count;
  Ok (MkView (m_begin v) e (m_max v)).

(* lines 171-175 *)
Definition assign (m : memory) (v : view) (count : nat) (c : cell V) : res (memory * view) :=
  do v1 <- resize_ m v count;
  do m1 <- fill m (m_begin v1) (size v1) c;
  Ok (m1, v1).

(* lines 180-185 *)
Definition resize (m : memory) (v : view) (count : nat) : res (memory * view) :=
  if count =? size v then Ok (m, v) else
  do v1 <- resize_ m v count;
  Ok (m, v1).

(* lines 190-202 *)
Definition resize_with (m : memory) (v : view) (count : nat) (c : cell V) : res (memory * view) :=
  if count <? size v then do v1 <- resize_ m v count; Ok (m, v1)
  else if size v <? count then
    do v1 <- resize_ m v count;
    do m1 <- fill m (m_end v) (m_end v1 - m_end v) c;
    Ok (m1, v1)
  else Ok (m, v).

(* lines 226-238 *)
Definition index (m : memory) (v : view) (i : nat) : res (cell V) := read m (m_begin v + i).

Definition set_index (m : memory) (v : view) (i : nat) (c : cell V) : res memory := write m (m_begin v + i) c.

(* lines 240-254 *)
Definition at_ (m : memory) (v : view) (i : nat) : res (cell V) :=
  if size v <=? i then OutOfRange else index m v i.

(* lines 256-276 *)
Definition front (m : memory) (v : view) : res (cell V) := read m (m_begin v).
Definition back (m : memory) (v : view) : res (cell V) :=
  match m_end v with 0 => UB | S e => read m e end.

(* lines 281-284 *)
Definition clear (m : memory) (v : view) : res (memory * view) :=
  Ok (m, MkView (m_begin v) (m_begin v) (m_max v)).

(* lines 286-296 *)
Definition push_back (m : memory) (v : view) (c : cell V) : res (memory * view) :=
  do m1 <- write m (m_end v) c;
  Ok (m1, MkView (m_begin v) (S (m_end v)) (m_max v)).

(* lines 301-305 *)
Definition pop_back (m : memory) (v : view) : res (memory * view) :=
  match m_end v with
  | 0 => UB
  | S e => Ok (m, MkView (m_begin v) e (m_max v))
  end.

Section Elements.
Variable trivial : bool.   (* the elements are trivially copyable *)

(* lines 48-58 *)
Definition prepare_insert (m : memory) (v : view) (pos count : nat) : res (memory * view) :=
  if count =? 0 then Ok (m, v) else
  do v1 <- resize_ m v (size v + count);
  do _ <- next m (m_begin v + pos) count;
  do m1 <- std_move trivial m (m_begin v + pos) (m_end v1 - (m_begin v + pos)) (m_begin v + pos + count);
  Ok (m1, v1).

(* lines 60-69 *)
Definition erase_n (m : memory) (v : view) (pos count : nat) : res (memory * view) :=
  if count =? 0 then Ok (m, v) else
  do m1 <- std_move_backward trivial m (m_begin v + pos + count) (m_end v - (m_begin v + pos + count)) (m_begin v + pos);
  do v1 <- resize_ m1 v (size v - count);
  Ok (m1, v1).

(* lines 311-327: a value outside the array, or a reference to the k-th element *)
Inductive operand := Outside (c : cell V) | Inside (k : nat).

Definition fetch (m : memory) (v : view) (a : operand) : res (cell V) :=
  match a with Outside c => Ok c | Inside k => index m v k end.

Definition insert (m : memory) (v : view) (pos : nat) (a : operand) : res (memory * view) :=
  do (m1, v1) <- prepare_insert m v pos 1;
  do c <- fetch m1 v1 a;
  do m2 <- write m1 (m_begin v + pos) c;
  Ok (m2, v1).

(* lines 333-350 *)
Definition insert_range (m : memory) (v : view) (pos : nat) (l : list (cell V)) : res (memory * view) :=
  do (m1, v1) <- prepare_insert m v pos (length l);
  do m2 <- copy_in m1 (m_begin v + pos) l;
  Ok (m2, v1).

(* lines 356-360 *)
Definition erase (m : memory) (v : view) (pos : nat) : res (memory * view) := erase_n m v pos 1.

(* lines 366-372 *)
Definition erase_range (m : memory) (v : view) (first last : nat) : res (memory * view) :=
  erase_n m v first (last - first).
End Elements.
End Model.
Arguments operand : clear implicits.
