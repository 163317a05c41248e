(* What is expected of the constructors of vectors. *)
From Coq Require Import NArith List Bool.
Import ListNotations.
From Verif Require Import MakeModel.
Local Open Scope N_scope.

(* the number of elements of an array of these sizes, and the row-major place of
   an index, both without overflow *)
Definition volume (sz : list N) : N := fold_right N.mul 1 sz.
Fixpoint place (sz idx : list N) : N :=
  match sz, idx with
  | _ :: r, i :: j => i * volume r + place r j
  | _, _ => 0
  end.
Definition within (sz idx : list N) : Prop := Forall2 N.lt idx sz.

Section S.
Variable A : Type.

(* the lengths of all lists that are nested k levels deep in a nested list *)
Fixpoint lengths (k : nat) (d : nat) : il A d -> list N :=
  match k with
  | O => match d with
         | O => fun l => [N.of_nat (length l)]
         | S d' => fun l => [N.of_nat (length l)]
         end
  | S k' => match d with
            | O => fun _ => []
            | S d' => fun l => flat_map (lengths k' d') l
            end
  end.
Definition greatest (l : list N) (m : N) : Prop := (forall x, In x l -> x <= m) /\ (In m l \/ m = 0).

(* a nested list gives an array, if on every level but the innermost all lists
   are equally long, and the innermost lists have a value with which to pad *)
Definition regular (d : nat) (l : il A d) : Prop :=
  (forall k a b, (k < d)%nat -> In a (lengths k d l) -> In b (lengths k d l) -> a = b)
  /\ (forall a, In a (lengths d d l) -> a <> 0).
(* ... a box, if this holds on every level *)
Definition box (d : nat) (sz : list N) (l : il A d) : Prop :=
  length sz = S d /\ forall k a, (k <= d)%nat -> In a (lengths k d l) -> nth_error sz k = Some a.

(* the value that is written in the list for an index; short innermost lists are
   continued with their last value *)
Fixpoint written (d : nat) : il A d -> list N -> option A :=
  match d with
  | O => fun l idx => match idx with
                      | [i] => match nth_error l (N.to_nat i) with
                               | Some v => Some v
                               | None => hd_error (rev l)
                               end
                      | _ => None
                      end
  | S d' => fun l idx => match idx with
                         | i :: j => match nth_error l (N.to_nat i) with
                                     | Some sub => written d' sub j
                                     | None => None
                                     end
                         | [] => None
                         end
  end.

(* the values from left to right *)
Fixpoint leaves (d : nat) : il A d -> list A :=
  match d with
  | O => fun l => l
  | S d' => fun l => flat_map (leaves d') l
  end.

(* ---- memory ---- *)
(* There is at most one block.  It has a number of places; some of them hold
   elements.  The outer [None]: something was done that must not be done. *)
Variable fresh : A.
Definition memory := option (N * list (nat * A)).
Definition taken_place (k : nat) (l : list (nat * A)) : bool := existsb (fun p => Nat.eqb (fst p) k) l.
Definition does (m : option memory) (e : event A) : option memory :=
  let put k v := match m with
                 | Some (Some (n, l)) => if (N.of_nat k <? n) && negb (taken_place k l)
                                         then Some (Some (n, l ++ [(k, v)])) else None
                 | _ => None
                 end in
  match e with
  | Alloc _ n => match m with Some None => Some (Some (n, [])) | _ => None end
  | Copy _ k v => put k v
  | Move _ k v => put k v
  | Default _ k => put k fresh
  | Unmake _ k => match m with
                  | Some (Some (n, l)) => if taken_place k l
                                          then Some (Some (n, filter (fun p => negb (Nat.eqb (fst p) k)) l)) else None
                  | _ => None
                  end
  | Free _ n => match m with
                | Some (Some (n', [])) => if n =? n' then Some None else None
                | _ => None
                end
  end.
Definition after (t : list (event A)) : option memory := fold_left does t (Some None).
(* the vector has the block of that memory, with its elements in the first places *)
Definition holds (m : memory) (v : vec A) : Prop :=
  match m with
  | None => live A v = [] /\ cap A v = 0
  | Some (n, l) => n = cap A v /\ l = combine (seq 0 (length (live A v))) (live A v)
  end.
(* a constructor leaves no block, if it throws, and otherwise that of the vector *)
Definition clean (r : result A) : Prop :=
  match r with
  | Made _ v t => exists m, after t = Some m /\ holds m v
  | Failed _ _ t => after t = Some None
  | Undefined _ => False
  end.
(* ... and the vector has as many elements, and room for them, as its sizes say *)
Definition sound (v : vec A) : Prop := N.of_nat (length (live A v)) = volume (sizes A v) /\ volume (sizes A v) <= cap A v.
(* does one of the first n copies throw *)
Definition throws (n : N) (sch : list bool) : bool := existsb (fun b => b) (firstn (N.to_nat n) sch).
(* A constructor, as a function of whether there is memory and of which copies
   throw, that builds the vector of these sizes and elements: it never leaves
   anything behind or touches what is not there; it fails only because of the
   memory or because a copy throws, and with that exception. *)
Definition builds (r : bool -> list bool -> result A) (sz : list N) (c : list A) : Prop :=
  forall mem sch, clean (r mem sch)
  /\ (mem = true -> throws (N.of_nat (length c)) sch = false ->
        exists t, r mem sch = Made A (Vec A sz c (N.of_nat (length c))) t)
  /\ (mem = true -> throws (N.of_nat (length c)) sch = true -> exists t, r mem sch = Failed A Element t)
  /\ (mem = false -> c <> [] -> r mem sch = Failed A BadAlloc []).
End S.
