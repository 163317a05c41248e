(* What a user of vector_view expects: a vector that lives in the places it was
   given. *)
From Coq Require Import List Bool Arith.
From Verif Require Import ViewModel.
Import ListNotations.

Section Spec.
Context {V : Type}.
Notation elements := (list (cell V)).

Inductive op :=
  | Assign (n : nat) (c : cell V) | Resize (n : nat) | ResizeWith (n : nat) (c : cell V) | SetIndex (i : nat) (c : cell V)
  | Clear | PushBack (c : cell V) | PopBack
  | Insert (pos : nat) (a : operand V) | InsertRange (pos : nat) (l : elements) | Erase (pos : nat) | EraseRange (first last : nat).

(* the elements between the iterators *)
Definition content (m : elements) (v : view) : elements := firstn (size v) (skipn (m_begin v) m).

(* the places of the view are in the array, and the end is among them *)
Definition valid (m : elements) (v : view) : Prop :=
  m_begin v <= m_end v /\ m_end v <= m_begin v + m_max v /\ m_begin v + m_max v <= length m.

(* the arrays are equal outside the places of the view *)
Definition outside_kept (v : view) (m m' : elements) : Prop :=
  length m' = length m /\
  forall p, p < m_begin v \/ m_begin v + m_max v <= p -> nth_error m' p = nth_error m p.

(* the documented contract of the operations, for a view with n places showing l *)
Definition contract (n : nat) (l : elements) (o : op) : Prop :=
  match o with
  | Assign k _ | Resize k | ResizeWith k _ => k <= n
  | SetIndex i _ => i < length l
  | Clear => True
  | PushBack _ => length l < n
  | PopBack => l <> []
  | Insert pos a => pos <= length l /\ length l < n /\ match a with Outside _ => True | Inside k => k < length l end
  | InsertRange pos x => pos <= length l /\ length l + length x <= n
  | Erase pos => pos < length l
  | EraseRange i j => i <= j /\ j <= length l
  end.

(* what has to hold besides for insert and erase to work: twice the room an
   insertion needs; elements that are trivially copyable, or an insertion at the
   end, or an erasure of no fewer elements than follow; an inserted element of
   the view itself must not lie behind the position *)
Definition spared (trivial : bool) (n : nat) (l : elements) (o : op) : Prop :=
  match o with
  | Insert pos a =>
      (trivial = true \/ pos = length l) /\ length l + 2 <= n /\ match a with Outside _ => True | Inside k => k <= pos end
  | InsertRange pos x => x = [] \/ (trivial = true \/ pos = length l) /\ length l + 2 * length x <= n
  | Erase pos => trivial = true \/ length l <= pos + 2
  | EraseRange i j => trivial = true \/ i = j \/ length l - j <= j - i
  | _ => True
  end.

(* the value an operand denotes before the call *)
Definition denotes (l : elements) (a : operand V) (c : cell V) : Prop :=
  match a with Outside d => c = d | Inside k => nth_error l k = Some c end.

Definition effect (o : op) (l l' : elements) : Prop :=
  match o with
  | Assign k c => l' = repeat c k
  | Resize k => length l' = k /\ forall i, i < k -> i < length l -> nth_error l' i = nth_error l i
  | ResizeWith k c => l' = firstn k l ++ repeat c (k - length l)
  | SetIndex i c => l' = firstn i l ++ c :: skipn (S i) l
  | Clear => l' = []
  | PushBack c => l' = l ++ [c]
  | PopBack => exists c, l = l' ++ [c]
  | Insert pos a => exists c, denotes l a c /\ l' = firstn pos l ++ c :: skipn pos l
  | InsertRange pos x => l' = firstn pos l ++ x ++ skipn pos l
  | Erase pos => l' = firstn pos l ++ skipn (S pos) l
  | EraseRange i j => l' = firstn i l ++ skipn j l
  end.

Definition run_op (trivial : bool) (o : op) (m : elements) (v : view) : res (elements * view) :=
  match o with
  | Assign k c => assign m v k c
  | Resize k => resize m v k
  | ResizeWith k c => resize_with m v k c
  | SetIndex i c => do m1 <- set_index m v i c; Ok (m1, v)
  | Clear => clear m v
  | PushBack c => push_back m v c
  | PopBack => pop_back m v
  | Insert pos a => insert trivial m v pos a
  | InsertRange pos x => insert_range trivial m v pos x
  | Erase pos => erase trivial m v pos
  | EraseRange i j => erase_range trivial m v i j
  end.

Fixpoint run_ops (trivial : bool) (l : list op) (m : elements) (v : view) : res (elements * view) :=
  match l with
  | [] => Ok (m, v)
  | o :: l' => do (m1, v1) <- run_op trivial o m v; run_ops trivial l' m1 v1
  end.

(* the lists a history leads to *)
Inductive follows (trivial : bool) (n : nat) : list op -> elements -> elements -> Prop :=
  | follows_nil : forall l, follows trivial n [] l l
  | follows_cons : forall o os l l' l'',
      contract n l o -> spared trivial n l o -> effect o l l' -> follows trivial n os l' l'' ->
      follows trivial n (o :: os) l l''.

(* no operation of the history breaks its contract, whatever list it meets *)
Fixpoint careful (trivial : bool) (n : nat) (os : list op) (l : elements) : Prop :=
  match os with
  | [] => True
  | o :: os' => contract n l o /\ spared trivial n l o /\ forall l', effect o l l' -> careful trivial n os' l'
  end.
End Spec.
Arguments op : clear implicits.
