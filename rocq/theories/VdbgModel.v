(* vector_view in a debug build: include/yato/vector_view.h with its YATO_REQUIRES.
   A failed one stops the program (assertion.h 92-120).  With [debug] off nothing is
   checked: a release build.

   The functions are those of ViewModel, with the same memory and the same
   simplifications; but iterators given to insert and erase are places of the array,
   which may lie outside the view.  A place beyond the end of the array is no
   iterator. *)
From Coq Require Import List Bool Arith.
From Verif Require Import ViewModel.
Import ListNotations.

Inductive out (A : Type) := Go (a : A) | Stop | Thrown | Wild.
Arguments Go {A}. Arguments Stop {A}. Arguments Thrown {A}. Arguments Wild {A}.

Definition after {A B : Type} (x : out A) (f : A -> out B) : out B :=
  match x with Go a => f a | Stop => Stop | Thrown => Thrown | Wild => Wild end.
Notation "'let*' x := m 'in' e" := (after m (fun x => e)) (at level 200, x pattern, m at level 100, e at level 200).

(* a part that asserts nothing *)
Definition lift {A : Type} (r : res A) : out A :=
  match r with Ok a => Go a | OutOfRange => Thrown | UB => Wild end.

Section Model.
Context {V : Type}.
Notation memory := (list (cell V)).
Variable debug : bool.
Variable trivial : bool.

(* assertion.h *)
Definition requires {A : Type} (c : bool) (k : out A) : out A := if debug && negb c then Stop else k.

(* lines 42-46 *)
Definition dresize_ (m : memory) (v : view) (count : nat) : out view :=
  requires (count <=? m_max v) (lift (resize_ m v count)).

(* lines 171-175 *)
Definition dassign (m : memory) (v : view) (count : nat) (c : cell V) : out (memory * view) :=
  let* v1 := dresize_ m v count in
  let* m1 := lift (fill m (m_begin v1) (size v1) c) in
  Go (m1, v1).

(* lines 180-185 *)
Definition dresize (m : memory) (v : view) (count : nat) : out (memory * view) :=
  if count =? size v then Go (m, v) else
  let* v1 := dresize_ m v count in
  Go (m, v1).

(* lines 190-202 *)
Definition dresize_with (m : memory) (v : view) (count : nat) (c : cell V) : out (memory * view) :=
  if count <? size v then let* v1 := dresize_ m v count in Go (m, v1)
  else if size v <? count then
    let* v1 := dresize_ m v count in
    let* m1 := lift (fill m (m_end v) (m_end v1 - m_end v) c) in
    Go (m1, v1)
  else Go (m, v).

(* lines 226-238 *)
Definition dindex (m : memory) (v : view) (i : nat) : out (cell V) :=
  requires (i <? size v) (lift (index m v i)).
Definition dset_index (m : memory) (v : view) (i : nat) (c : cell V) : out memory :=
  requires (i <? size v) (lift (set_index m v i c)).

(* lines 240-254 *)
Definition dat (m : memory) (v : view) (i : nat) : out (cell V) :=
  if size v <=? i then Thrown else dindex m v i.

(* lines 286-296 *)
Definition dpush_back (m : memory) (v : view) (c : cell V) : out (memory * view) :=
  requires (size v <? m_max v) (lift (push_back m v c)).

(* lines 301-305 *)
Definition dpop_back (m : memory) (v : view) : out (memory * view) :=
  requires (negb (empty v)) (lift (pop_back m v)).

(* lines 48-58: 50 compares the distance of the place from the beginning, which may
   be negative, with the size.  A range whose end precedes its beginning is not one. *)
Definition dprepare_insert (m : memory) (v : view) (p count : nat) : out (memory * view) :=
  requires (p <=? m_end v)
  (if count =? 0 then Go (m, v) else
   let* v1 := dresize_ m v (size v + count) in
   if m_end v1 <? p then Wild else
   let* _ := lift (next m p count) in
   let* m1 := lift (std_move trivial m p (m_end v1 - p) (p + count)) in
   Go (m1, v1)).

(* lines 60-69; size() - count wraps if the place is before the view, and then no
   array is that large *)
Definition derase_n (m : memory) (v : view) (p count : nat) : out (memory * view) :=
  requires (p <=? m_end v)
  (if count =? 0 then Go (m, v) else
   if m_end v <? p + count then Wild else
   let* m1 := lift (std_move_backward trivial m (p + count) (m_end v - (p + count)) p) in
   if size v <? count then requires false Wild else
   let* v1 := dresize_ m1 v (size v - count) in
   Go (m1, v1)).

(* lines 311-327 *)
Definition dinsert (m : memory) (v : view) (p : nat) (a : operand V) : out (memory * view) :=
  let* (m1, v1) := dprepare_insert m v p 1 in
  let* c := lift (fetch m1 v1 a) in
  let* m2 := lift (write m1 p c) in
  Go (m2, v1).

(* lines 333-350 *)
Definition dinsert_range (m : memory) (v : view) (p : nat) (l : list (cell V)) : out (memory * view) :=
  let* (m1, v1) := dprepare_insert m v p (length l) in
  let* m2 := lift (copy_in m1 p l) in
  Go (m2, v1).

(* lines 333-341 with last before first: 337 *)
Definition dinsert_backward : out (memory * view) := requires false Wild.

(* lines 356-360 *)
Definition derase (m : memory) (v : view) (p : nat) : out (memory * view) :=
  requires (negb (empty v)) (derase_n m v p 1).

(* lines 366-372; in a release build a range from p back to q opens a gap: count is
   negative, so next goes back, prev goes forth and the size grows *)
Definition derase_range (m : memory) (v : view) (p q : nat) : out (memory * view) :=
  requires (p <=? q) (requires (q - p <=? size v)
  (if p <=? q then derase_n m v p (q - p) else
   if m_end v <? q then Wild else
   let* _ := lift (next m (m_end v) (p - q)) in
   let* m1 := lift (std_move_backward trivial m q (m_end v - q) p) in
   let* v1 := dresize_ m1 v (size v + (p - q)) in
   Go (m1, v1))).

Inductive call :=
  | Assign (n : nat) (c : cell V) | Resize (n : nat) | ResizeWith (n : nat) (c : cell V)
  | SetIndex (i : nat) (c : cell V) | Index (i : nat) | At (i : nat) | Front | Back
  | Clear | PushBack (c : cell V) | PopBack
  | Insert (p : nat) (a : operand V) | InsertRange (p : nat) (l : memory) | InsertBackward
  | Erase (p : nat) | EraseRange (p q : nat).

Definition change (x : out (memory * view)) : out (memory * view * option (cell V)) :=
  let* s := x in Go (s, None).
Definition reading (m : memory) (v : view) (x : out (cell V)) : out (memory * view * option (cell V)) :=
  let* c := x in Go ((m, v), Some c).

Definition exec (o : call) (m : memory) (v : view) : out (memory * view * option (cell V)) :=
  match o with
  | Assign n c => change (dassign m v n c)
  | Resize n => change (dresize m v n)
  | ResizeWith n c => change (dresize_with m v n c)
  | SetIndex i c => change (let* m1 := dset_index m v i c in Go (m1, v))
  | Index i => reading m v (dindex m v i)
  | At i => reading m v (dat m v i)
  | Front => reading m v (lift (front m v))                        (* lines 256-265 *)
  | Back => reading m v (lift (back m v))                          (* lines 267-276 *)
  | Clear => change (lift (clear m v))                             (* lines 281-284 *)
  | PushBack c => change (dpush_back m v c)
  | PopBack => change (dpop_back m v)
  | Insert p a => change (dinsert m v p a)
  | InsertRange p l => change (dinsert_range m v p l)
  | InsertBackward => change dinsert_backward
  | Erase p => change (derase m v p)
  | EraseRange p q => change (derase_range m v p q)
  end.

(* a program that catches the exceptions of at *)
Fixpoint play (os : list call) (m : memory) (v : view) : out (memory * view) :=
  match os with
  | [] => Go (m, v)
  | o :: os' =>
      match exec o m v with
      | Go (m1, v1, _) => play os' m1 v1
      | Thrown => play os' m v
      | Stop => Stop
      | Wild => Wild
      end
  end.
End Model.
Arguments call : clear implicits.
