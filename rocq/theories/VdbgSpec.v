(* What the assertions of vector_view should do: stop a program that breaks the
   contract of a function, and no other. *)
From Coq Require Import List Bool Arith.
From Verif Require Import ViewModel ViewSpec VdbgModel.
Import ListNotations.

Section Spec.
Context {V : Type}.
Notation elements := (list (cell V)).

(* the iterators given are places of the array or its end *)
Definition iterators (m : elements) (o : call V) : Prop :=
  match o with
  | Insert p _ | InsertRange p _ | Erase p => p <= length m
  | EraseRange p q => p <= length m /\ q <= length m
  | _ => True
  end.

(* the contract, for a view with n places of which k are in use, and whose elements
   are at the places from b on *)
Definition keeps (n b k : nat) (o : call V) : Prop :=
  match o with
  | Assign j _ | Resize j | ResizeWith j _ => j <= n
  | SetIndex i _ | Index i => i < k
  | At _ | Clear => True
  | Front | Back | PopBack => 0 < k
  | PushBack _ => k < n
  | Insert p a => b <= p <= b + k /\ k < n /\ match a with Outside _ => True | Inside i => i < k end
  | InsertRange p x => b <= p <= b + k /\ k + length x <= n
  | InsertBackward => False
  | Erase p => b <= p < b + k
  | EraseRange p q => b <= p /\ p <= q /\ q <= b + k
  end.

(* what is checked *)
Definition checked (n b k : nat) (o : call V) : Prop :=
  match o with
  | Assign j _ | Resize j | ResizeWith j _ => j <= n
  | SetIndex i _ | Index i => i < k
  | At _ | Clear | Front | Back => True
  | PopBack => 0 < k
  | PushBack _ => k < n
  | Insert p _ => p <= b + k /\ k < n
  | InsertRange p x => p <= b + k /\ k + length x <= n
  | InsertBackward => False
  | Erase p => p <= b + k /\ 0 < k
  | EraseRange p q => p <= q /\ q - p <= k /\ p <= b + k
  end.

(* what of the contract is not checked: that there is an element to show at the front or the back;
   that the place is not before the beginning; that an element to erase is before the
   end; that an inserted element of the view itself is one *)
Definition gap (b k : nat) (o : call V) : Prop :=
  match o with
  | Front | Back => k = 0
  | Insert p a => p < b \/ match a with Outside _ => False | Inside i => k <= i end
  | InsertRange p _ => p < b
  | Erase p => p < b \/ p = b + k
  | EraseRange p q => p < b \/ b + k < q
  | _ => False
  end.

(* the calls whose contract is checked in full and which move no elements *)
Definition plain (o : call V) : Prop :=
  match o with
  | Front | Back | Insert _ _ | InsertRange _ _ | InsertBackward | Erase _ | EraseRange _ _ => False
  | _ => True
  end.

(* the number of elements after a plain call, or None for a call that has to be
   stopped *)
Definition next_size (n k : nat) (o : call V) : option nat :=
  match o with
  | Assign j _ | Resize j | ResizeWith j _ => if j <=? n then Some j else None
  | SetIndex i _ | Index i => if i <? k then Some k else None
  | Clear => Some 0
  | PushBack _ => if k <? n then Some (S k) else None
  | PopBack => match k with 0 => None | S j => Some j end
  | _ => Some k
  end.
Fixpoint sizes (n k : nat) (os : list (call V)) : option nat :=
  match os with
  | [] => Some k
  | o :: os' => match next_size n k o with Some j => sizes n j os' | None => None end
  end.

(* the operation of ViewSpec a call is *)
Definition as_op (b : nat) (o : call V) : option (op V) :=
  match o with
  | Assign n c => Some (ViewSpec.Assign n c)
  | Resize n => Some (ViewSpec.Resize n)
  | ResizeWith n c => Some (ViewSpec.ResizeWith n c)
  | SetIndex i c => Some (ViewSpec.SetIndex i c)
  | Clear => Some ViewSpec.Clear
  | PushBack c => Some (ViewSpec.PushBack c)
  | PopBack => Some ViewSpec.PopBack
  | Insert p a => Some (ViewSpec.Insert (p - b) a)
  | InsertRange p l => Some (ViewSpec.InsertRange (p - b) l)
  | Erase p => Some (ViewSpec.Erase (p - b))
  | EraseRange p q => Some (ViewSpec.EraseRange (p - b) (q - b))
  | Index _ | At _ | Front | Back | InsertBackward => None
  end.

(* what a plain call does to the elements l and what it shows *)
Definition does (o : call V) (l l' : elements) (shown : option (cell V)) : Prop :=
  match as_op 0 o with
  | Some p => effect p l l' /\ shown = None
  | None => l' = l /\ match o with
                      | Index i | At i => shown = nth_error l i /\ i < length l
                      | _ => False
                      end
  end.

(* the elements after a program of plain calls none of which is stopped; at leaves
   them as they are whether it throws or not *)
Inductive leads : list (call V) -> elements -> elements -> Prop :=
  | leads_nil : forall l, leads [] l l
  | leads_cons : forall o os l l1 l2 x, does o l l1 x -> leads os l1 l2 -> leads (o :: os) l l2
  | leads_thrown : forall i os l l1, length l <= i -> leads os l l1 -> leads (At i :: os) l l1.
End Spec.
