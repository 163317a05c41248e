(* What programs over transform iterators mean.  With one function they are programs over plain
   indices of the list of results; with several, the function that is applied is known from the
   program text. *)
From Coq Require Import List Bool Arith ZArith.
From Verif Require Import TranModel.
Import ListNotations.

Section Spec.
Variables A B : Type.
Variable f : A -> B.

(* a list of results, and indices into it *)
Record shelf := Shelf { index : nat -> option nat; cells : list B }.
Definition put_at (s : shelf) (x i : nat) : shelf :=
  Shelf (fun y => if y =? x then Some i else index s y) (cells s).
Definition drop (s : shelf) (x : nat) : shelf :=
  Shelf (fun y => if y =? x then None else index s y) (cells s).
(* the index d further, if the list goes that far *)
Definition further (s : shelf) (i : nat) (d : Z) : option nat :=
  let j := (Z.of_nat i + d)%Z in
  if (j <? 0)%Z then None else if length (cells s) <? Z.to_nat j then None else Some (Z.to_nat j).
Definition on (s : shelf) (x : nat) (d : Z) (g : nat -> nat -> shelf) : option (seen B * shelf) :=
  match index s x with
  | None => None
  | Some i => match further s i d with None => None | Some j => Some (Nothing, g i j) end
  end.
Definition asks (s : shelf) (x y : nat) (g : nat -> nat -> seen B) : option (seen B * shelf) :=
  match index s x, index s y with Some i, Some j => Some (g i j, s) | _, _ => None end.

Definition does (o : top A B) (s : shelf) : option (seen B * shelf) :=
  match o with
  | Make x b _ => option_map (fun i => (Nothing, put_at s x i)) (further s 0 b)
  | Copy x y => match index s y with Some i => Some (Nothing, put_at s x i) | None => None end
  | Move x y =>
      match index s y with Some i => Some (Nothing, if x =? y then s else drop (put_at s x i) y) | None => None end
  | Swap x y =>
      match index s x, index s y with Some i, Some j => Some (Nothing, put_at (put_at s x j) y i) | _, _ => None end
  | Inc x => on s x 1 (fun _ j => put_at s x j)
  | Dec x => on s x (-1) (fun _ j => put_at s x j)
  | PostInc z x => on s x 1 (fun i j => put_at (put_at s x j) z i)
  | PostDec z x => on s x (-1) (fun i j => put_at (put_at s x j) z i)
  | Advance x d => on s x d (fun _ j => put_at s x j)
  | Retreat x d => on s x (- d) (fun _ j => put_at s x j)
  | Plus z x d => on s x d (fun _ j => put_at s z j)
  | Minus x y => asks s x y (fun i j => Number (Z.of_nat i - Z.of_nat j))
  | Equal x y => asks s x y (fun i j => Answer (i =? j))
  | Unequal x y => asks s x y (fun i j => Answer (negb (i =? j)))
  | Less x y => asks s x y (fun i j => Answer (i <? j))
  | Greater x y => asks s x y (fun i j => Answer (j <? i))
  | NotGreater x y => asks s x y (fun i j => Answer (i <=? j))
  | NotLess x y => asks s x y (fun i j => Answer (j <=? i))
  | Read x =>
      match index s x with Some i => option_map (fun v => (Value v, s)) (nth_error (cells s) i) | None => None end
  | Put q a =>
      if (q <? 0)%Z then None else
      let i := Z.to_nat q in
      if i <? length (cells s) then Some (Nothing, Shelf (index s) (firstn i (cells s) ++ f a :: skipn (S i) (cells s))) else None
  end.
Fixpoint story (os : list (top A B)) (s : shelf) : option (list (seen B) * list B) :=
  match os with
  | [] => Some ([], cells s)
  | o :: r =>
      match does o s with
      | Some (x, s') => option_map (fun l => (x :: fst l, snd l)) (story r s')
      | None => None
      end
  end.
(* every iterator is made with this function *)
Definition uses (o : top A B) : Prop := match o with Make _ _ g => g = f | _ => True end.
End Spec.
Arguments Shelf {B}. Arguments index {B}. Arguments cells {B}.

(* the program with plain iterators, and the functions of a program *)
Definition plain {A B} (o : top A B) : top A A :=
  match o with
  | Make x b _ => Make x b (fun a => a)
  | Copy x y => Copy x y | Move x y => Move x y | Swap x y => Swap x y
  | Inc x => Inc x | Dec x => Dec x | PostInc z x => PostInc z x | PostDec z x => PostDec z x
  | Advance x d => Advance x d | Retreat x d => Retreat x d | Plus z x d => Plus z x d
  | Minus x y => Minus x y | Equal x y => Equal x y | Unequal x y => Unequal x y
  | Less x y => Less x y | Greater x y => Greater x y | NotGreater x y => NotGreater x y | NotLess x y => NotLess x y
  | Read x => Read x | Put q a => Put q a
  end.
Fixpoint functions {A B} (os : list (top A B)) : list (A -> B) :=
  match os with [] => [] | Make _ _ f :: r => f :: functions r | _ :: r => functions r end.
(* the values seen, each under its function *)
Fixpoint dress {A B} (gs : list (A -> B)) (l : list (seen A)) : list (seen B) :=
  match l with
  | [] => []
  | Value a :: r => match gs with g :: gs' => Value (g a) :: dress gs' r | [] => [] end
  | Number d :: r => Number d :: dress gs r
  | Answer b :: r => Answer b :: dress gs r
  | Nothing :: r => Nothing :: dress gs r
  end.
Definition env A B := nat -> option (A -> B).
Definition bind {A B} (c : env A B) (x : nat) (g : option (A -> B)) : env A B := fun y => if Nat.eqb y x then g else c y.
(* the function each variable carries, from the program text *)
Definition carry {A B} (o : top A B) (c : env A B) : env A B :=
  match o with
  | Make x _ f => bind c x (Some f)
  | Copy x y => bind c x (c y)
  | Move x y => if Nat.eqb x y then c else bind (bind c x (c y)) y None
  | Swap x y => bind (bind c x (c y)) y (c x)
  | PostInc z x | PostDec z x => bind c z (c x)
  | Plus z x _ => bind c z (c x)
  | _ => c
  end.
(* the functions of the variables read, in this order *)
Fixpoint carried {A B} (os : list (top A B)) (c : env A B) : list (A -> B) :=
  match os with
  | [] => []
  | Read x :: r => match c x with Some g => g :: carried r c | None => [] end
  | o :: r => carried r (carry o c)
  end.
