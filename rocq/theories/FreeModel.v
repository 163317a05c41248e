(* Programs over several filter_iterators without an end, of one unchanged sequence:
   filter_iterator<Predicate, Iterator, Policy, false>, include/yato/filter_iterator.h:450-776,
   with and without caching.  A position of the underlying iterator is a number; the sequence
   may be infinite, and a position that holds no element may not be read.
   Simplified: predicates are pure; a moved-from iterator is not used until it is assigned to;
   a small element with a real destructor or copy constructor is not cached (that is undefined
   at the first element, C15); iterators of different types are not converted into each other
   (571-596, 632-666); nothing is written; operator* of a const iterator, 691-694, is not used
   (it does not compile: it returns the iterator instead of the element). *)
From Coq Require Import List Bool Arith.
Import ListNotations.

Inductive policy := Plain | InPlace | OnHeap.   (* as in FiltModel *)

Inductive eop (V : Type) :=
| Make (x b : nat) (p : V -> bool)    (* x(first + b, p), make_filter_iterator *)
| Copy (x y : nat)                    (* x(y), x = y *)
| Move (x y : nat)                    (* x(std::move(y)), x = std::move(y) *)
| Swap (x y : nat)                    (* x.swap(y) *)
| Inc (x : nat) | Dec (x : nat)       (* ++x, --x *)
| PostInc (z x : nat) | PostDec (z x : nat)  (* z = x++, z = x-- *)
| Read (x : nat)                      (* *x *)
| Same (x y : nat) | Differ (x y : nat)      (* x == y, x != y *)
| SameAs (x q : nat).                 (* x == first + q *)
Arguments Make {V}. Arguments Copy {V}. Arguments Move {V}. Arguments Swap {V}. Arguments Inc {V}. Arguments Dec {V}.
Arguments PostInc {V}. Arguments PostDec {V}. Arguments Read {V}. Arguments Same {V}. Arguments Differ {V}. Arguments SameAs {V}.

Inductive seen (V : Type) := Value (v : V) | Answer (b : bool) | Nothing.
Arguments Value {V}. Arguments Answer {V}. Arguments Nothing {V}.
(* Forever: the fuel ran out *)
Inductive ending := Finished | Undefined | Forever.
Inductive res (X : Type) := Done (x : X) | Bad | Fuel.
Arguments Done {X}. Arguments Bad {X}. Arguments Fuel {X}.
Definition bind {X Y} (r : res X) (f : X -> res Y) : res Y :=
  match r with Done x => f x | Bad => Bad | Fuel => Fuel end.

Section Free.
Variable V : Type.
Variable pol : policy.
Variable s : nat -> option V.

(* m_iterator, m_predicate 499-500; m_cached 71 *)
Record iter := Iter { pos : nat; pred : V -> bool; cached : option V }.
Definition vars := nat -> option iter.
Definition set (w : vars) (x : nat) (i : option iter) : vars := fun y => if y =? x then i else w y.
(* _save_cache, 114-117 *)
Definition save (c : option V) (a : V) : option V := match pol with Plain => c | _ => Some a end.
(* copying the cache, storage.h:47-50, 167-170 *)
Definition copy (i : iter) : res iter :=
  match pol, cached i with OnHeap, None => Bad | _, _ => Done i end.
(* _skip_forward, 502-522 *)
Fixpoint skip_forward (k q : nat) (p : V -> bool) (c : option V) : res (nat * option V) :=
  match k with
  | O => Fuel
  | S k' =>
      match s q with
      | None => Bad
      | Some a => if p a then Done (q, save c a) else skip_forward k' (S q) p (save c a)
      end
  end.
(* _skip_backward, 524-544: the position decreases, so no fuel is needed *)
Fixpoint skip_backward (q : nat) (p : V -> bool) (c : option V) : res (nat * option V) :=
  match s q with
  | None => Bad
  | Some a =>
      if p a then Done (q, save c a)
      else match q with O => Bad | S r => skip_backward r p (save c a) end
  end.
Definition landed (i : iter) (r : res (nat * option V)) : res iter :=
  bind r (fun qc => Done (Iter (fst qc) (pred i) (snd qc))).
(* 699-704 *)
Definition forward (k : nat) (i : iter) : res iter := landed i (skip_forward k (S (pos i)) (pred i) (cached i)).
(* 720-726 *)
Definition backward (k : nat) (i : iter) : res iter :=
  match pos i with O => Bad | S q => landed i (skip_backward q (pred i) (cached i)) end.
(* operator*, 672-686 *)
Definition read (i : iter) : option V := match pol with Plain => s (pos i) | _ => cached i end.

Definition with1 {R} (w : vars) (x : nat) (f : iter -> res R) : res R :=
  match w x with Some i => f i | None => Bad end.
Definition step (w : vars) (x : nat) (f : iter -> res iter) : res (seen V * vars) :=
  with1 w x (fun i => bind (f i) (fun j => Done (Nothing, set w x (Some j)))).
(* 709-714, 732-738 *)
Definition post (w : vars) (z x : nat) (f : iter -> res iter) : res (seen V * vars) :=
  with1 w x (fun i => bind (copy i) (fun c => bind (f i) (fun j => Done (Nothing, set (set w x (Some j)) z (Some c))))).

Definition exec (k : nat) (o : eop V) (w : vars) : res (seen V * vars) :=
  match o with
  | Make x b p =>                                                              (* 553-559 *)
      bind (landed (Iter b p None) (skip_forward k b p None)) (fun i => Done (Nothing, set w x (Some i)))
  | Copy x y =>                                                                (* 564-567, 621-628 *)
      with1 w y (fun i => if x =? y then Done (Nothing, w)
                          else bind (copy i) (fun c => Done (Nothing, set w x (Some c))))
  | Move x y =>                                                                (* 582-585, 645-653 *)
      with1 w y (fun i => if x =? y then Done (Nothing, w) else Done (Nothing, set (set w x (Some i)) y None))
  | Swap x y =>                                                                (* 608-616 *)
      with1 w x (fun i => with1 w y (fun j => Done (Nothing, set (set w x (Some j)) y (Some i))))
  | Inc x => step w x (forward k)
  | Dec x => step w x (backward k)
  | PostInc z x => post w z x (forward k)
  | PostDec z x => post w z x (backward k)
  | Read x => with1 w x (fun i => match read i with Some v => Done (Value v, w) | None => Bad end)
  | Same x y => with1 w x (fun i => with1 w y (fun j => Done (Answer (negb (negb (pos i =? pos j))), w)))  (* 759-762 *)
  | Differ x y => with1 w x (fun i => with1 w y (fun j => Done (Answer (negb (pos i =? pos j)), w)))       (* 743-746 *)
  | SameAs x q => with1 w x (fun i => Done (Answer (negb (negb (pos i =? q))), w))                         (* 767-770 *)
  end.
(* what is seen, and how the program ends *)
Fixpoint run (k : nat) (os : list (eop V)) (w : vars) : list (seen V) * ending :=
  match os with
  | [] => ([], Finished)
  | o :: r =>
      match exec k o w with
      | Done (x, w') => let (l, e) := run k r w' in (x :: l, e)
      | Bad => ([], Undefined)
      | Fuel => ([], Forever)
      end
  end.
End Free.
Arguments Iter {V}. Arguments pos {V}. Arguments pred {V}. Arguments cached {V}.
