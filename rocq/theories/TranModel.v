(* Programs over several transform_iterators of one random access container:
   include/yato/transform_iterator.h.  An iterator of the container is a position; moving it
   outside the container, or reading at its end, is undefined.
   Simplified: the functions are pure, return values and have one type, so any iterator can be
   assigned to any other (conversions, 98-101, 119-122, 134-140, 167-173, are such assignments);
   a moved-from iterator is not used until it is assigned to (its function may be gone,
   storage.h:52-55); differences fit difference_type. *)
From Coq Require Import List Bool ZArith.
Import ListNotations.
Local Open Scope Z_scope.

Inductive top (A B : Type) :=
| Make (x : nat) (b : Z) (f : A -> B)   (* x(first + b, f), 68-91, make_transform_iterator *)
| Copy (x y : nat)                      (* x(y), x = y *)
| Move (x y : nat)                      (* x(std::move(y)), x = std::move(y) *)
| Swap (x y : nat)                      (* x.swap(y), swap(x, y) *)
| Inc (x : nat) | Dec (x : nat)         (* ++x, --x *)
| PostInc (z x : nat) | PostDec (z x : nat)  (* z = x++, z = x-- *)
| Advance (x : nat) (d : Z)             (* x += d *)
| Retreat (x : nat) (d : Z)             (* x -= d *)
| Plus (z x : nat) (d : Z)              (* z = x + d *)
| Minus (x y : nat)                     (* x - y *)
| Equal (x y : nat) | Unequal (x y : nat)
| Less (x y : nat) | Greater (x y : nat) | NotGreater (x y : nat) | NotLess (x y : nat)
| Read (x : nat)                        (* *x *)
| Put (q : Z) (a : A).                  (* first[q] = a *)
Arguments Make {A B}. Arguments Copy {A B}. Arguments Move {A B}. Arguments Swap {A B}. Arguments Inc {A B}.
Arguments Dec {A B}. Arguments PostInc {A B}. Arguments PostDec {A B}. Arguments Advance {A B}.
Arguments Retreat {A B}. Arguments Plus {A B}. Arguments Minus {A B}. Arguments Equal {A B}. Arguments Unequal {A B}.
Arguments Less {A B}. Arguments Greater {A B}. Arguments NotGreater {A B}. Arguments NotLess {A B}.
Arguments Read {A B}. Arguments Put {A B}.

Inductive seen (B : Type) := Value (v : B) | Number (d : Z) | Answer (b : bool) | Nothing.
Arguments Value {B}. Arguments Number {B}. Arguments Answer {B}. Arguments Nothing {B}.

Section Tran.
Variables A B : Type.
(* m_iterator, m_function: 60-61 *)
Record iter := Iter { pos : Z; fn : A -> B }.
Record world := World { vars : nat -> option iter; data : list A }.
Definition set (w : world) (x : nat) (i : option iter) : world :=
  World (fun y => if Nat.eqb y x then i else vars w y) (data w).
Definition size (w : world) : Z := Z.of_nat (length (data w)).
Definition within (w : world) (p : Z) : bool := (0 <=? p) && (p <=? size w).
Definition inside (w : world) (p : Z) : bool := (0 <=? p) && (p <? size w).
Fixpoint store (q : nat) (a : A) (l : list A) : list A :=
  match l, q with
  | [], _ => []
  | _ :: r, O => a :: r
  | b :: r, S q' => b :: store q' a r
  end.

Definition with1 {R} (w : world) (x : nat) (f : iter -> option R) : option R :=
  match vars w x with Some i => f i | None => None end.
(* operator+=, 250-255; ++ and -- are those of the underlying iterator, 207-211, 227-232 *)
Definition shift (w : world) (i : iter) (d : Z) : option iter :=
  if within w (pos i + d) then Some (Iter (pos i + d) (fn i)) else None.
Definition step (w : world) (x : nat) (d : Z) : option (seen B * world) :=
  with1 w x (fun i => option_map (fun j => (Nothing, set w x (Some j))) (shift w i d)).
(* 216-221, 238-244: copy, move *this, return the copy *)
Definition post (w : world) (z x : nat) (d : Z) : option (seen B * world) :=
  with1 w x (fun i => option_map (fun j => (Nothing, set (set w x (Some j)) z (Some i))) (shift w i d)).
Definition compare (w : world) (x y : nat) (f : Z -> Z -> seen B) : option (seen B * world) :=
  with1 w x (fun i => with1 w y (fun j => Some (f (pos i) (pos j), w))).

Definition exec (o : top A B) (w : world) : option (seen B * world) :=
  match o with
  | Make x b f => if within w b then Some (Nothing, set w x (Some (Iter b f))) else None
  | Copy x y => with1 w y (fun i => if Nat.eqb x y then Some (Nothing, w) else Some (Nothing, set w x (Some i)))  (* 104-106, 142-149 *)
  | Move x y => with1 w y (fun i => if Nat.eqb x y then Some (Nothing, w) else Some (Nothing, set (set w x (Some i)) y None))  (* 111-113, 178-185 *)
  | Swap x y => with1 w x (fun i => with1 w y (fun j => Some (Nothing, set (set w x (Some j)) y (Some i))))  (* 154-161 *)
  | Inc x => step w x 1
  | Dec x => step w x (-1)
  | PostInc z x => post w z x 1
  | PostDec z x => post w z x (-1)
  | Advance x d => step w x d
  | Retreat x d => step w x (- d)                                                 (* 261-265 *)
  | Plus z x d => with1 w x (fun i => option_map (fun j => (Nothing, set w z (Some j))) (shift w i d))  (* 271-276 *)
  | Minus x y => compare w x y (fun p q => Number (p - q))                        (* 282-286 *)
  | Equal x y => compare w x y (fun p q => Answer (p =? q))                       (* 292-295 *)
  | Unequal x y => compare w x y (fun p q => Answer (negb (p =? q)))              (* 301-304 *)
  | Less x y => compare w x y (fun p q => Answer (p <? q))                        (* 311-315 *)
  | Greater x y => compare w x y (fun p q => Answer (p >? q))                     (* 322-326 *)
  | NotGreater x y => compare w x y (fun p q => Answer (negb (p >? q)))           (* 333-337 *)
  | NotLess x y => compare w x y (fun p q => Answer (negb (p <? q)))              (* 344-348 *)
  | Read x =>                                                                     (* 191-202 *)
      with1 w x (fun i =>
        if inside w (pos i) then option_map (fun a => (Value (fn i a), w)) (nth_error (data w) (Z.to_nat (pos i))) else None)
  | Put q a => if inside w q then Some (Nothing, World (vars w) (store (Z.to_nat q) a (data w))) else None
  end.
(* what is seen, and the container at the end *)
Fixpoint run (os : list (top A B)) (w : world) : option (list (seen B) * list A) :=
  match os with
  | [] => Some ([], data w)
  | o :: r =>
      match exec o w with
      | Some (x, w') => option_map (fun l => (x :: fst l, snd l)) (run r w')
      | None => None
      end
  end.
End Tran.
Arguments Iter {A B}. Arguments pos {A B}. Arguments fn {A B}.
Arguments World {A B}. Arguments vars {A B}. Arguments data {A B}.
