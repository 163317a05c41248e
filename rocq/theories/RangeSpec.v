(* What pipelines of range members are expected to mean: list functions.
   Nothing here refers to iterators. *)
From Coq Require Import ZArith List Bool.
From Verif Require Import RangeModel.
Import ListNotations.
Local Open Scope Z_scope.

(* the list a pipeline stands for *)
Fixpoint meaning {A} (p : pipe A) : list A :=
  match p in pipe A return list A with
  | Container _ l i j => firstn (Z.to_nat (j - i)) (skipn (Z.to_nat i) l)
  | Numeric _ a b => map (fun k => a + Z.of_nat k) (seq 0 (Z.to_nat (b - a)))
  | Map f q => map f (meaning q)
  | Filter _ f q => filter f (meaning q)
  | Reverse q => rev (meaning q)
  | Tail q => tl (meaning q)
  | Zip q qs => combine (meaning q) (meanings (length (meaning q)) qs)
  end
with meanings {A} (n : nat) (p : pipes A) : list A :=
  match p in pipes A return list A with
  | ZNil => repeat tt n
  | ZCons q qs => combine (meaning q) (meanings n qs)
  end.

(* Can it be walked backwards (and so reversed)? *)
Fixpoint two_way {A} (p : pipe A) : bool :=
  match p with
  | Container c _ _ _ => match c with Forward => false | _ => true end
  | Numeric _ _ _ => true
  | Map _ q => two_way q
  | Filter _ _ q => two_way q
  | Reverse q => two_way q
  | Tail q => two_way q
  | Zip q qs => two_way q && two_ways qs
  end
with two_ways {A} (p : pipes A) : bool :=
  match p with
  | ZNil => true
  | ZCons q qs => two_way q && two_ways qs
  end.

(* Do its elements live outside the iterators?  Numbers of a numeric range and
   elements cached by a filter live inside the iterator; a map makes fresh
   values. *)
Fixpoint outside {A} (p : pipe A) : bool :=
  match p with
  | Container _ _ _ _ => true
  | Numeric _ _ _ => false
  | Map _ _ => true
  | Filter NoCache _ q => outside q
  | Filter (Cache _) _ _ => false
  | Reverse q => outside q
  | Tail q => outside q
  | Zip q qs => outside q && outsides qs
  end
with outsides {A} (p : pipes A) : bool :=
  match p with
  | ZNil => true
  | ZCons q qs => outside q && outsides qs
  end.

(* The number of elements can be computed by subtracting. *)
Definition countable (t : ity) (d : Z) : Prop :=
  bits t < 32 \/ (sgn t = true /\ d < 2 ^ (bits t - 1)) \/ (sgn t = false /\ d < 2 ^ 63).

(* The regime in which pipelines are claimed to compute their meaning. *)
Fixpoint sound {A} (p : pipe A) : Prop :=
  match p with
  | Container _ l i j => 0 <= i /\ i <= j /\ j <= Z.of_nat (length l)
  | Numeric t a b =>
      1 <= bits t <= 64 /\ ilo t <= a /\ a <= b /\ b <= ihi t /\ countable t (b - a)
  | Map _ q => sound q
  | Filter NoCache _ q => sound q
  | Filter (Cache c) _ q => c = CTrivial /\ sound q
  | Reverse q => sound q /\ two_way q = true /\ outside q = true
  | Tail q => sound q /\ meaning q <> []
  | Zip q qs => sound q /\ sounds (length (meaning q)) qs
  end
with sounds {A} (n : nat) (p : pipes A) : Prop :=
  match p with
  | ZNil => True
  | ZCons q qs => sound q /\ length (meaning q) = n /\ sounds n qs
  end.

(* The index reached from index k by a walk that stays between 0 and n and,
   unless [back], only goes forward. *)
Fixpoint follow (back : bool) (n k : nat) (w : list bool) : option nat :=
  match w with
  | [] => Some k
  | true :: w' => if Nat.ltb k n then follow back n (S k) w' else None
  | false :: w' =>
    match k with
    | O => None
    | S k' => if back then follow back n k' w' else None
    end
  end.
