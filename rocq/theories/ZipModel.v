(* Programs over zip_iterators of one set of containers: include/yato/zip_iterator.h, with
   tuple_for_each, tuple_transform, tuple_any_of and tuple_all_of of include/yato/tuple.h,
   in release and debug builds (YATO_REQUIRES of assertion.h:100-106 ends a debug build).
   Simplified:
   - the underlying iterators are random access iterators of different containers
     (columns); an iterator is a position in its column and is not changed by being moved
     from; leaving the column, or reading where it has no element, is undefined;
   - elements are read and assigned, nothing throws;
   - operator<= (359-364) is left out: its result type is std::enable_if itself, so using
     it does not compile; so are conversions between zip iterators of other types. *)
From Coq Require Import List Bool ZArith.
Import ListNotations.
Local Open Scope Z_scope.

(* x, y are variables *)
Inductive zop (V : Type) :=
| Make (x : nat) (ps : list Z)       (* 120-131, make_zip_iterator 388-407 *)
| New (x y : nat)                    (* zip_iterator x(y) 136-163 *)
| Assign (x y : nat)                 (* x = y 184-190, x = std::move(y) 206-211 *)
| Swap (x y : nat)                   (* 174-179, 382-386 *)
| Inc (x : nat) | Dec (x : nat)      (* ++x, --x *)
| PostInc (y x : nat)                (* zip_iterator y(x++) *)
| PostDec (y x : nat)
| Advance (x : nat) (d : Z)          (* x += d *)
| Retreat (x : nat) (d : Z)          (* x -= d *)
| Plus (y x : nat) (d : Z)           (* zip_iterator y(x + d) *)
| Minus (x y : nat)                  (* x - y *)
| Equal (x y : nat) | Unequal (x y : nat)
| Less (x y : nat) | Greater (x y : nat) | NotLess (x y : nat)   (* <, >, >= *)
| Read (x : nat)                     (* values of *x *)
| Store (x : nat) (vs : list V)      (* *x = tuple *)
| CopyRow (x y : nat).               (* *x = *y *)
Arguments Make {V}. Arguments New {V}. Arguments Assign {V}. Arguments Swap {V}. Arguments Inc {V}. Arguments Dec {V}.
Arguments PostInc {V}. Arguments PostDec {V}. Arguments Advance {V}. Arguments Retreat {V}. Arguments Plus {V}. Arguments Minus {V}.
Arguments Equal {V}. Arguments Unequal {V}. Arguments Less {V}. Arguments Greater {V}. Arguments NotLess {V}. Arguments Read {V}.
Arguments Store {V}. Arguments CopyRow {V}.
Inductive seen (V : Type) := Nothing | Number (d : Z) | Answer (b : bool) | Values (vs : list V).
Arguments Nothing {V}. Arguments Number {V}. Arguments Answer {V}. Arguments Values {V}.

Section Zip.
Context {V : Type}.
(* the size of every column, in the order of the tuple *)
Variable sizes : list Z.
Definition mem := nat -> Z -> V.
Definition put (m : mem) (c : nat) (p : Z) (v : V) : mem := fun d q => if Nat.eqb d c && (q =? p) then v else m d q.
Record world := World { vars : nat -> option (list Z); data : mem }.
Definition set (w : world) (x : nat) (ps : list Z) : world :=
  World (fun y => if Nat.eqb y x then Some ps else vars w y) (data w).
Inductive result := Ok (o : seen V) (w : world) | Stopped | Undefined.

Definition within (size p : Z) : bool := (0 <=? p) && (p <=? size).
Definition inside (size p : Z) : bool := (0 <=? p) && (p <? size).
Fixpoint all2 {A B} (f : A -> B -> bool) (l : list A) (k : list B) : bool :=
  match l, k with
  | a :: l', b :: k' => f a b && all2 f l' k'
  | [], [] => true
  | _, _ => false
  end.
(* increment_op_, decrement_op_, advance_op_ for each iterator: 54-88 *)
Definition shift (d : Z) (ps : list Z) : option (list Z) :=
  let qs := map (fun p => p + d) ps in if all2 within sizes qs then Some qs else None.
(* tuple_all_of with less_op_; tuple_any_of with notequal_op_: 90-108 *)
Definition all_less (ps qs : list Z) : bool := all2 Z.ltb ps qs.
Fixpoint any_differ (ps qs : list Z) : bool :=
  match ps, qs with
  | p :: ps', q :: qs' => negb (p =? q) || any_differ ps' qs'
  | _, _ => false
  end.
(* dereference_op_ for each iterator, 227-230 *)
Fixpoint values (c : nat) (ps : list Z) (m : mem) : list V :=
  match ps with [] => [] | p :: ps' => m c p :: values (S c) ps' m end.
(* the assignment of a tuple of references, one after the other *)
Fixpoint store_from (c : nat) (ps : list Z) (vs : list V) (m : mem) : mem :=
  match ps, vs with
  | p :: ps', v :: vs' => store_from (S c) ps' vs' (put m c p v)
  | _, _ => m
  end.
Fixpoint copy_from (c : nat) (ps qs : list Z) (m : mem) : mem :=
  match ps, qs with
  | p :: ps', q :: qs' => copy_from (S c) ps' qs' (put m c p (m c q))
  | _, _ => m
  end.

Definition with1 (w : world) (x : nat) (f : list Z -> result) : result :=
  match vars w x with Some ps => f ps | None => Undefined end.
Definition with2 (w : world) (x y : nat) (f : list Z -> list Z -> result) : result :=
  with1 w x (fun ps => with1 w y (fun qs => f ps qs)).
Definition moved (w : world) (x : nat) (d : Z) (ps : list Z) (keep : option nat) : result :=
  match shift d ps with
  | None => Undefined
  | Some qs => Ok Nothing (match keep with Some y => set (set w x qs) y ps | None => set w x qs end)
  end.

Definition exec (debug : bool) (o : zop V) (w : world) : result :=
  match o with
  | Make x ps => if all2 within sizes ps then Ok Nothing (set w x ps) else Undefined
  | New x y => with1 w y (fun ps => Ok Nothing (set w x ps))
  | Assign x y => with2 w x y (fun _ qs => if debug && Nat.eqb x y then Stopped else Ok Nothing (set w x qs))
  | Swap x y => with2 w x y (fun ps qs => if debug && Nat.eqb x y then Stopped else Ok Nothing (set (set w x qs) y ps))
  | Inc x => with1 w x (fun ps => moved w x 1 ps None)                                   (* 235-239 *)
  | Dec x => with1 w x (fun ps => moved w x (-1) ps None)                                (* 254-260 *)
  | PostInc y x => with1 w x (fun ps => moved w x 1 ps (Some y))                         (* 244-249 *)
  | PostDec y x => with1 w x (fun ps => moved w x (-1) ps (Some y))                      (* 265-272 *)
  | Advance x d => with1 w x (fun ps => moved w x d ps None)                             (* 277-283 *)
  | Retreat x d => with1 w x (fun ps => moved w x (- d) ps None)                         (* 288-294 *)
  | Plus y x d => with1 w x (fun ps => match shift d ps with Some qs => Ok Nothing (set w y qs) | None => Undefined end)  (* 299-305 *)
  | Minus x y => with2 w x y (fun ps qs =>                                               (* 311-316 *)
      match ps, qs with p :: _, q :: _ => Ok (Number (p - q)) w | _, _ => Undefined end)
  | Equal x y => with2 w x y (fun ps qs => Ok (Answer (negb (any_differ ps qs))) w)      (* 322-325 *)
  | Unequal x y => with2 w x y (fun ps qs => Ok (Answer (any_differ ps qs)) w)           (* 331-334 *)
  | Less x y => with2 w x y (fun ps qs => Ok (Answer (all_less ps qs)) w)                (* 339-344 *)
  | Greater x y => with2 w x y (fun ps qs => Ok (Answer (all_less qs ps)) w)             (* 349-354 *)
  | NotLess x y => with2 w x y (fun ps qs => Ok (Answer (negb (all_less ps qs))) w)      (* 369-375 *)
  | Read x => with1 w x (fun ps => if all2 inside sizes ps then Ok (Values (values 0 ps (data w))) w else Undefined)
  | Store x vs => with1 w x (fun ps =>
      if all2 inside sizes ps && Nat.eqb (length vs) (length ps) then Ok Nothing (World (vars w) (store_from 0 ps vs (data w))) else Undefined)
  | CopyRow x y => with2 w x y (fun ps qs =>
      if all2 inside sizes ps && all2 inside sizes qs then Ok Nothing (World (vars w) (copy_from 0 ps qs (data w))) else Undefined)
  end.
(* what is seen, whether an assertion ended the program, and the columns then *)
Fixpoint run (debug : bool) (os : list (zop V)) (w : world) : option (list (seen V) * bool * mem) :=
  match os with
  | [] => Some ([], false, data w)
  | o :: r =>
      match exec debug o w with
      | Ok x w' => option_map (fun l => (x :: fst (fst l), snd (fst l), snd l)) (run debug r w')
      | Stopped => Some ([], true, data w)
      | Undefined => None
      end
  end.
End Zip.
Arguments world V : clear implicits. Arguments mem V : clear implicits. Arguments result V : clear implicits.
Arguments World {V}. Arguments vars {V}. Arguments data {V}. Arguments Ok {V}. Arguments Stopped {V}. Arguments Undefined {V}.
