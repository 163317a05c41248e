(* What users of an allocator rely on.  [arrays] is the user's view: the
   pointers handed out and not given back, with their numbers of objects, and
   the block each was cut from. *)
From Coq Require Import ZArith List Bool.
From Verif Require Import AlignModel.
Import ListNotations.
Local Open Scope Z_scope.

Record array := MkArray { ptr : Z; count : Z; base : Z }.

(* half-open address ranges *)
Definition apart (a la b lb : Z) : Prop := a + la <= b \/ b + lb <= a.

(* operator new[]: a block inside the address space, apart from the live ones,
   aligned for any fundamental type *)
Definition new_gives (live : list (Z * Z)) (b len : Z) : Prop :=
  0 < b /\ b + len < 2 ^ 64 /\ b mod 16 = 0 /\
  forall b' len', In (b', len') live -> apart b len b' len'.

Definition inside (size : Z) (x : array) (a : Z) : Prop := ptr x <= a < ptr x + count x * size.

(* what a program may do *)
Definition may (A size : Z) (h : heap) (arrays : list array) (e : event) : Prop :=
  match e with
  | Allocate n b => 1 <= n /\ n * size + A + 16 + n * A < 2 ^ 63 /\ new_gives (blocks h) b (request A size n)
  | Write a v => 0 <= v < 256 /\ exists x, In x arrays /\ inside size x a
  | Deallocate p => exists x, In x arrays /\ ptr x = p
  end.

(* the user's view afterwards *)
Fixpoint drop_ptr (p : Z) (l : list array) : list array :=
  match l with
  | [] => []
  | x :: l' => if ptr x =? p then l' else x :: drop_ptr p l'
  end.

Definition view (arrays : list array) (e : event) (r : option Z) : list array :=
  match e, r with
  | Allocate n b, Some p => MkArray p n b :: arrays
  | Deallocate p, _ => drop_ptr p arrays
  | _, _ => arrays
  end.

(* a history in which every step is allowed *)
Inductive history (A size : Z) : heap -> list array -> Prop :=
| Start : forall m, (forall a, 0 <= m a < 256) -> history A size (MkHeap m []) []
| Step : forall h arrays e r h',
    history A size h arrays -> may A size h arrays e ->
    exec A size h e = Some (r, h') ->
    history A size h' (view arrays e r).

(* The blocks that are live are those of the arrays the user still has. *)
Definition blocks_of (h : heap) : list Z := map fst (blocks h).

Record well_placed (A size : Z) (h : heap) (arrays : list array) : Prop := {
  aligned : forall x, In x arrays -> ptr x mod A = 0;
  contained : forall x, In x arrays ->
    exists len, In (base x, len) (blocks h) /\
    base x <= ptr x /\ ptr x + count x * size <= base x + len;
  separate : forall i j x y, nth_error arrays i = Some x -> nth_error arrays j = Some y -> i <> j ->
    apart (ptr x) (count x * size) (ptr y) (count y * size);
  accounted : map base arrays = blocks_of h
}.
