(* Programs over several filter_iterators of one random access container:
   include/yato/filter_iterator.h, with and without dereference_policy_caching.
   An iterator of the container is a position, at most the size of the container; the size does
   not change.  storage.h keeps the cached element and the predicate.
   Simplified: predicates have no state and take the element by value or const reference; a
   moved-from iterator is not used until it is assigned to (its cache and predicate may be gone,
   storage.h:52-55, 77-83); a small element with a real destructor or copy constructor is not
   cached (that is undefined at the first element, C15); iterators with different policies or
   types are not converted into each other (243-265, 301-340). *)
From Coq Require Import List Bool Arith.
Import ListNotations.

(* Plain: dereference_policy_no_caching.  InPlace: caching a small trivial element, kept in a
   buffer (storage.h:114-246).  OnHeap: caching a large one, kept by unique_ptr (storage.h:20-112). *)
Inductive policy := Plain | InPlace | OnHeap.

Inductive fop (V : Type) :=
| Make (x b e : nat) (p : V -> bool)  (* x(first + b, first + e, p) *)
| Copy (x y : nat)                    (* x(y), x = y *)
| Move (x y : nat)                    (* x(std::move(y)), x = std::move(y) *)
| Swap (x y : nat)                    (* x.swap(y) *)
| Inc (x : nat)                       (* ++x *)
| Dec (x : nat)                       (* --x *)
| PostInc (z x : nat)                 (* z = x++ *)
| PostDec (z x : nat)                 (* z = x-- *)
| Read (x : nat)                      (* *x *)
| Write (x : nat) (v : V)             (* *x = v *)
| Put (q : nat) (v : V)               (* first[q] = v *)
| Same (x y : nat)                    (* x == y *)
| Differ (x y : nat)                  (* x != y *)
| SameAs (x q : nat)                  (* x == first + q *)
| DiffersFrom (x q : nat).            (* x != first + q *)
Arguments Make {V}. Arguments Copy {V}. Arguments Move {V}. Arguments Swap {V}. Arguments Inc {V}.
Arguments Dec {V}. Arguments PostInc {V}. Arguments PostDec {V}. Arguments Read {V}. Arguments Write {V}.
Arguments Put {V}. Arguments Same {V}. Arguments Differ {V}. Arguments SameAs {V}. Arguments DiffersFrom {V}.

Inductive seen (V : Type) := Value (v : V) | Answer (b : bool) | Nothing.
Arguments Value {V}. Arguments Answer {V}. Arguments Nothing {V}.

Section Filt.
Variable V : Type.
Variable pol : policy.

(* m_iterator, m_end, m_predicate 173-175; m_cached 71 *)
Record iter := Iter { pos : nat; last : nat; pred : V -> bool; cached : option V }.
Record world := World { vars : nat -> option iter; data : list V }.
Definition set (w : world) (x : nat) (i : option iter) : world :=
  World (fun y => if y =? x then i else vars w y) (data w).
Fixpoint store (q : nat) (v : V) (l : list V) : list V :=
  match l, q with
  | [], _ => []
  | _ :: r, O => v :: r
  | a :: r, S q' => a :: store q' v r
  end.

(* _save_cache, 114-117; nothing without caching *)
Definition save (c : option V) (a : V) : option V := match pol with Plain => c | _ => Some a end.
(* copying the cache, the implicit copy constructor of 67-124 and storage.h:47-50, 167-170: an unset unique_ptr is dereferenced *)
Definition copy (i : iter) : option iter :=
  match pol, cached i with OnHeap, None => None | _, _ => Some i end.

(* _skip_forward, 177-197.  None: undefined, or the fuel ran out *)
Fixpoint skip_forward (k : nat) (m : list V) (q e : nat) (p : V -> bool) (c : option V) : option (nat * option V) :=
  match k with
  | O => None
  | S k' =>
      if q =? e then Some (q, c)
      else match nth_error m q with
           | None => None
           | Some a => if p a then Some (q, save c a) else skip_forward k' m (S q) e p (save c a)
           end
  end.
(* _skip_backward, 199-219 *)
Fixpoint skip_backward (k : nat) (m : list V) (q : nat) (p : V -> bool) (c : option V) : option (nat * option V) :=
  match k with
  | O => None
  | S k' =>
      match nth_error m q with
      | None => None
      | Some a =>
          if p a then Some (q, save c a)
          else match q with O => None | S r => skip_backward k' m r p (save c a) end
      end
  end.
Definition fuel (m : list V) : nat := S (S (length m)).
Definition landed (i : iter) (r : option (nat * option V)) : option iter :=
  option_map (fun qc => Iter (fst qc) (last i) (pred i) (snd qc)) r.
(* 228-234; the container has length m elements *)
Definition make (m : list V) (b e : nat) (p : V -> bool) : option iter :=
  if (b <=? length m) && (e <=? length m)
  then landed (Iter b e p None) (skip_forward (fuel m) m b e p None) else None.
(* operator++, 372-377 *)
Definition forward (m : list V) (i : iter) : option iter :=
  if pos i <? length m
  then landed i (skip_forward (fuel m) m (S (pos i)) (last i) (pred i) (cached i)) else None.
(* operator--, 392-399 *)
Definition backward (m : list V) (i : iter) : option iter :=
  match pos i with
  | O => None
  | S q => landed i (skip_backward (fuel m) m q (pred i) (cached i))
  end.
(* operator*, 344-367: the element, or the cache *)
Definition read (m : list V) (i : iter) : option V :=
  match pol with Plain => nth_error m (pos i) | _ => cached i end.

Definition with1 {R} (w : world) (x : nat) (f : iter -> option R) : option R :=
  match vars w x with Some i => f i | None => None end.
(* ++ and -- in place; the postfix ones copy first, 382-387, 404-411 *)
Definition step (w : world) (x : nat) (f : list V -> iter -> option iter) : option (seen V * world) :=
  with1 w x (fun i => option_map (fun j => (Nothing, set w x (Some j))) (f (data w) i)).
Definition post (w : world) (z x : nat) (f : list V -> iter -> option iter) : option (seen V * world) :=
  with1 w x (fun i =>
    match copy i, f (data w) i with
    | Some c, Some j => Some (Nothing, set (set w x (Some j)) z (Some c))
    | _, _ => None
    end).

Definition exec (o : fop V) (w : world) : option (seen V * world) :=
  match o with
  | Make x b e p => option_map (fun i => (Nothing, set w x (Some i))) (make (data w) b e p)
  | Copy x y =>                                                       (* 239-241, 292-299 *)
      with1 w y (fun i => if x =? y then Some (Nothing, w)
                          else option_map (fun c => (Nothing, set w x (Some c))) (copy i))
  | Move x y =>                                                       (* 255-257, 316-325 *)
      with1 w y (fun i => if x =? y then Some (Nothing, w) else Some (Nothing, set (set w x (Some i)) y None))
  | Swap x y =>                                                       (* 278-287 *)
      with1 w x (fun i => with1 w y (fun j => Some (Nothing, set (set w x (Some j)) y (Some i))))
  | Inc x => step w x forward
  | Dec x => step w x backward
  | PostInc z x => post w z x forward
  | PostDec z x => post w z x backward
  | Read x => with1 w x (fun i => option_map (fun v => (Value v, w)) (read (data w) i))
  | Write x v =>
      with1 w x (fun i =>
        match pol with
        | Plain => if pos i <? length (data w) then Some (Nothing, World (vars w) (store (pos i) v (data w))) else None
        | _ => match cached i with
               | Some _ => Some (Nothing, set w x (Some (Iter (pos i) (last i) (pred i) (Some v))))
               | None => None
               end
        end)
  | Put q v => if q <? length (data w) then Some (Nothing, World (vars w) (store q v (data w))) else None
  | Same x y => with1 w x (fun i => with1 w y (fun j => Some (Answer (negb (negb (pos i =? pos j))), w)))  (* 432-435 *)
  | Differ x y => with1 w x (fun i => with1 w y (fun j => Some (Answer (negb (pos i =? pos j)), w)))       (* 416-419 *)
  | SameAs x q => with1 w x (fun i => if q <=? length (data w) then Some (Answer (negb (negb (pos i =? q))), w) else None)  (* 440-443 *)
  | DiffersFrom x q => with1 w x (fun i => if q <=? length (data w) then Some (Answer (negb (pos i =? q)), w) else None)    (* 424-427 *)
  end.
(* what is seen, and the container at the end *)
Fixpoint run (os : list (fop V)) (w : world) : option (list (seen V) * list V) :=
  match os with
  | [] => Some ([], data w)
  | o :: r =>
      match exec o w with
      | Some (x, w') => option_map (fun l => (x :: fst l, snd l)) (run r w')
      | None => None
      end
  end.
End Filt.
Arguments Iter {V}. Arguments pos {V}. Arguments last {V}. Arguments pred {V}. Arguments cached {V}.
Arguments World {V}. Arguments vars {V}. Arguments data {V}.
