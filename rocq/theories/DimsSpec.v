(* What extents and strides are to be: lists of numbers, with their product. *)
From Coq Require Import List Bool Arith ZArith.
From Verif Require Import ConvertModel DimsModel.
Import ListNotations.
Open Scope Z_scope.

(* the types in question and the numbers they have *)
Definition sized (t : ity) : Prop := exists s n, t = Int s n /\ In n [8; 16; 32; 64].
Definition fits (t : ity) (v : Z) : Prop :=
  match t with
  | Int true n => - 2 ^ (n - 1) <= v < 2 ^ (n - 1)
  | Int false n => 0 <= v < 2 ^ n
  | Bool => 0 <= v <= 1
  end.
Definition bits (t : ity) : Z := match t with Int _ n => n | Bool => 1 end.
(* w is v wrapped into type t *)
Definition wrapped (t : ity) (v w : Z) : Prop := fits t w /\ (w - v) mod 2 ^ bits t = 0.

Definition product (l : list Z) : Z := fold_right Z.mul 1 l.

(* the object consists of these numbers *)
Definition holds (d : dimsobj) (l : list Z) : Prop := slots d = map Some l /\ Forall (fits (ty d)) l.

(* every number of type t can be compared with those of type u: they have the same
   signedness, or both fit into int, or the signed one is wider *)
Definition comparable (t u : ity) : Prop :=
  match t, u with
  | Int s n, Int r m =>
      s = r \/ (n < 32 /\ m < 32) \/ (s = true /\ Z.max m 31 < n) \/ (r = true /\ Z.max n 31 < m)
  | _, _ => False
  end.
(* the unsigned type two others are compared in, when they are not comparable *)
Definition compared_bits (t u : ity) : Z := Z.max (match t with Int false n => n | _ => 0 end) (match u with Int false n => n | _ => 0 end).

(* sub_dims applied k times *)
Fixpoint subs (k : nat) (d : dimsobj) : dimsobj := match k with O => d | S j => subs j (sub_dims d) end.

(* where an accessor stands, counted from the innermost dimension; containers of 1
   dimension have a length, those of 2 to 4 dimensions the others *)
Definition place (a : accessor) (n : nat) : option nat :=
  match a with
  | Length => if Nat.eqb n 1 then Some 0%nat else None
  | _ =>
      let k := match a with Height => 1%nat | Depth => 2%nat | Layers => 3%nat | _ => 0%nat end in
      if Nat.leb 2 n && Nat.leb n 4 && Nat.ltb k n then Some k else None
  end.
