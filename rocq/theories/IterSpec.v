(* What a program over iterators that count should do: every variable stands at a
   position, an integer without bounds, in something that has elements. *)
From Coq Require Import List Bool Arith ZArith.
From Verif Require Import ConvertModel ConfigModel IterModel.
Import ListNotations.
Open Scope Z_scope.

(* what is iterated over, and a position in it *)
Definition place := (nat * Z)%type.
Definition shift (p : place) (d : Z) : place := (fst p, snd p + d).

Section Ideal.
Context {R : Type}.
Variable elem : nat -> Z -> R.
Definition read (p : place) : answer R := AVal (elem (fst p) (snd p)).
Definition ideal (q : nat -> place) (o : op) : (nat -> place) * answer R :=
  match o with
  | Start x b p => (set q x (b, p), ANone)
  | Copy x y => (set q x (q y), ANone)
  | PreInc x => (set q x (shift (q x) 1), ANone)
  | PostInc x y => (set (set q x (shift (q x) 1)) y (q x), ANone)
  | PreDec x => (set q x (shift (q x) (-1)), ANone)
  | PostDec x y => (set (set q x (shift (q x) (-1))) y (q x), ANone)
  | AddTo x d => (set q x (shift (q x) d), ANone)
  | SubFrom x d => (set q x (shift (q x) (- d)), ANone)
  | Plus x y d | PlusL x d y => (set q x (shift (q y) d), ANone)
  | Minus x y d | MinusL x d y => (set q x (shift (q y) (- d)), ANone)
  | Diff x y => (q, AInt (snd (q x) - snd (q y)))
  | Eq x y => (q, ABool (snd (q x) =? snd (q y)))
  | Ne x y => (q, ABool (negb (snd (q x) =? snd (q y))))
  | Lt x y => (q, ABool (snd (q x) <? snd (q y)))
  | Gt x y => (q, ABool (snd (q y) <? snd (q x)))
  | Le x y => (q, ABool (snd (q x) <=? snd (q y)))
  | Ge x y => (q, ABool (snd (q y) <=? snd (q x)))
  | Deref x | Arrow x => (q, read (q x))
  | Subscript x d => (q, read (shift (q x) d))
  end.
Fixpoint ideal_run (q : nat -> place) (os : list op) : (nat -> place) * list (answer R) :=
  match os with
  | [] => (q, [])
  | o :: t => let (q', a) := ideal q o in let (q2, l) := ideal_run q' t in (q2, a :: l)
  end.
End Ideal.

(* what a class allows: the positions, the offsets, the pairs that may be subtracted,
   where an iterator may be made and where it may be read *)
Record rules := Rules {
  pmin : Z; pmax : Z; offset : Z -> Prop; gap : Z -> Z -> Prop;
  made : nat -> Z -> Prop; readable : nat -> Z -> Prop; from_left : Prop }.
Section Legal.
Variable w : rules.
Definition inside (p : Z) : Prop := pmin w <= p <= pmax w.
Definition to (p : place) (d : Z) : Prop := inside (snd p + d).
Definition together (p r : place) : Prop := fst p = fst r.
(* an operation that user code may call here; it[d] is never among them *)
Definition legal (q : nat -> place) (o : op) : Prop :=
  match o with
  | Start x b p => made w b p
  | Copy x y => True
  | PreInc x | PostInc x _ => to (q x) 1
  | PreDec x | PostDec x _ => to (q x) (-1)
  | AddTo x d => offset w d /\ to (q x) d
  | SubFrom x d => offset w d /\ to (q x) (- d)
  | Plus x y d => offset w d /\ to (q y) d
  | PlusL x d y => offset w d /\ to (q y) d /\ from_left w
  | Minus x y d => offset w d /\ to (q y) (- d)
  | MinusL x d y => offset w d /\ to (q y) (- d) /\ from_left w
  | Diff x y => together (q x) (q y) /\ gap w (snd (q x)) (snd (q y))
  | Eq x y | Ne x y | Lt x y | Gt x y | Le x y | Ge x y => together (q x) (q y)
  | Deref x | Arrow x => readable w (fst (q x)) (snd (q x))
  | Subscript _ _ => False
  end.
Fixpoint legal_run {R} (elem : nat -> Z -> R) (q : nat -> place) (os : list op) : Prop :=
  match os with
  | [] => True
  | o :: t => legal q o /\ legal_run elem (fst (ideal elem q o)) t
  end.
End Legal.

(* the integer types of the model *)
Definition plain (t : ity) : Prop := exists s n, t = Int s n /\ In n [8; 16; 32; 64].

(* numeric_iterator: positions are the values of the type. An offset of a signed type
   of 32 bits or more is a value of the type; in a debug build every offset is, and it
   is not negative unless the type is narrower than int. *)
Definition numeric_rules (t : ity) (debug : bool) : rules := {|
  pmin := tmin t; pmax := tmax t;
  offset := fun d => tmin ptrdiff <= d <= tmax ptrdiff /\
    (signed t = true -> 32 <= width t -> tmin t <= d <= tmax t) /\
    (debug = true -> tmin t <= d <= tmax t /\ (0 <= d \/ width t < 32));
  gap := fun a b => tmin ptrdiff <= a - b <= tmax ptrdiff /\
    (signed t = true -> 32 <= width t -> tmin t <= a - b <= tmax t) /\
    (signed t = false -> width t = 32 -> b <= a);
  made := fun _ p => tmin t <= p <= tmax t;
  readable := fun _ _ => True;
  from_left := False |}.

(* config_iterator: positions are the values of ptrdiff_t. In a debug build offsets are
   not negative. *)
Definition conf_rules (cfg : nat -> option conf) (debug : bool) : rules := {|
  pmin := tmin ptrdiff; pmax := tmax ptrdiff;
  offset := fun d => tmin ptrdiff <= d <= tmax ptrdiff /\ (debug = true -> 0 <= d);
  gap := fun a b => tmin ptrdiff <= a - b <= tmax ptrdiff;
  made := fun b p => 0 <= p <= tmax ptrdiff;
  readable := fun b p => 0 <= p < Z.of_nat (size (cfg b));
  from_left := True |}.
Definition fits (cfg : nat -> option conf) : Prop := forall b, Z.of_nat (size (cfg b)) <= tmax ptrdiff.
Definition cplace (cfg : nat -> option conf) (q : place) : citer := CIter (fst q) (snd q) (Z.of_nat (size (cfg (fst q)))).
Definition celem (cfg : nat -> option conf) (b : nat) (p : Z) : entry := nth (Z.to_nat p) (iterate (cfg b)) no_entry.
