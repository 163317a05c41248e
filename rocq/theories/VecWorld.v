(* Programs that use any number of one-dimensional vectors: they construct, copy,
   move and swap them, call their member functions with values of their own or
   with references to elements of the vectors, and catch what is thrown.  The
   member functions are those of VecModel. *)
From Coq Require Import List Bool Arith.
From Verif Require Import VecModel.
Import ListNotations.

Section World.
Context {V : Type}.
Variable fails nomem : nat -> bool.
Variable half : nat.
Notation mem := (@mem V).
Notation src := (@src V).
Notation out := (@out V).

(* an argument of type const value_type&: a value of the program, or v_j[k] *)
Inductive arg := Val (v : V) | Elem (j k : nat).

Inductive vop :=
  | MakeEmpty                              (* vector()  2078 *)
  | Make (n : nat) (a : arg)               (* vector(n, a)  2122 *)
  | MakeRange (l : list arg)               (* vector(range) 2166 *)
  | MakeCopy (j : nat) | MakeMove (j : nat)   (* 2233, 2243 *)
  | PushBack (i : nat) (a : arg) | PopBack (i : nat)
  | InsertOne (i off : nat) (a : arg) | InsertCount (i off n : nat) (a : arg)
  | InsertRange (i off : nat) (l : list arg)
  | EraseOne (i off : nat) | EraseRange (i first last : nat)
  | Resize (i n : nat) (a : arg) | Assign (i n : nat) (a : arg)
  | Reserve (i n : nat) | Shrink (i : nat) | Clear (i : nat)
  | CopyAssign (i j : nat) | MoveAssign (i j : nat) | Swap (i j : nat).

Fixpoint upd {A} (l : list A) (i : nat) (a : A) : list A :=
  match l, i with
  | [], _ => []
  | _ :: t, 0 => a :: t
  | x :: t, S i' => x :: upd t i' a
  end.

(* the reference passed; no reference to an element that does not exist *)
Definition resolve (vs : list vec) (a : arg) : option src :=
  match a with
  | Val v => Some (Ext v)
  | Elem j k => match nth_error vs j with
                | Some v => if k <? vsize v then option_map (fun b => Ref b k) (ptr (vraw v)) else None
                | None => None
                end
  end.
Fixpoint resolve_all (vs : list vec) (l : list arg) : option (list src) :=
  match l with
  | [] => Some []
  | a :: t => match resolve vs a, resolve_all vs t with Some s, Some ss => Some (s :: ss) | _, _ => None end
  end.

Definition with_src (vs : list vec) (a : arg) (f : src -> out (list vec)) : out (list vec) :=
  match resolve vs a with Some s => f s | None => Bad end.
Definition with_srcs (vs : list vec) (l : list arg) (f : list src -> out (list vec)) : out (list vec) :=
  match resolve_all vs l with Some s => f s | None => Bad end.
Definition on (vs : list vec) (i : nat) (m : mem) (f : vec -> mem -> out vec) : out (list vec) :=
  match nth_error vs i with
  | None => Bad
  | Some v => match f v m with
              | Ok v' m' => Ok (upd vs i v') m'
              | Exc v' m' => Exc (upd vs i v') m'
              | Bad => Bad
              end
  end.
(* a constructor that throws leaves no object; what raw_vector owns is null then *)
Definition adding (vs : list vec) (n : nat) (x : out rv) : out (list vec) :=
  match x with
  | Ok r m' => Ok (vs ++ [Vec r n]) m'
  | Exc _ m' => Exc vs m'
  | Bad => Bad
  end.

Definition exec (op : vop) (vs : list vec) (m : mem) : out (list vec) :=
  match op with
  | MakeEmpty => Ok (vs ++ [vec0]) m
  | Make n a => with_src vs a (fun s => adding vs n (init_from_value fails nomem (RV None 0) n s m))
  | MakeRange l => with_srcs vs l (fun ss => adding vs (length l) (init_from_range fails nomem (RV None 0) (length l) ss m))
  | MakeCopy j => match nth_error vs j with
                  | None => Bad
                  | Some v => match copy_construct fails nomem v m with
                              | Ok t m' => Ok (vs ++ [t]) m'
                              | Exc _ m' => Exc vs m'
                              | Bad => Bad
                              end
                  end
  | MakeMove j => match nth_error vs j with None => Bad | Some v => Ok (upd vs j vec0 ++ [v]) m end
  | PushBack i a => with_src vs a (fun s => on vs i m (fun v => push_back fails nomem half v s))
  | PopBack i => on vs i m pop_back
  | InsertOne i off a => with_src vs a (fun s => on vs i m (fun v => insert_one fails nomem half v off s))
  | InsertCount i off n a => with_src vs a (fun s => on vs i m (fun v => insert_count fails nomem half v off n s))
  | InsertRange i off l => with_srcs vs l (fun ss => on vs i m (fun v => insert_range fails nomem half v off ss))
  | EraseOne i off => on vs i m (fun v => erase_one fails v off)
  | EraseRange i a b => on vs i m (fun v => erase_range fails v a b)
  | Resize i n a => with_src vs a (fun s => on vs i m (fun v => resize fails nomem half v n s))
  | Assign i n a => with_src vs a (fun s => on vs i m (fun v => assign fails nomem half v n s))
  | Reserve i n => on vs i m (fun v => reserve fails nomem v n)
  | Shrink i => on vs i m (shrink_to_fit fails nomem)
  | Clear i => on vs i m clear
  | CopyAssign i j => match nth_error vs j with
                      | None => Bad
                      | Some w => on vs i m (fun v => copy_assign fails nomem v w)
                      end
  | MoveAssign i j => match nth_error vs i, nth_error vs j with
                      | Some v, Some w => match move_assign v w m with
                                          | Ok (v', w') m' => Ok (upd (upd vs i v') j w') m'
                                          | _ => Bad
                                          end
                      | _, _ => Bad
                      end
  (* 2452-2457 *)
  | Swap i j => match nth_error vs i, nth_error vs j with
                | Some v, Some w => Ok (upd (upd vs i w) j v) m
                | _, _ => Bad
                end
  end.

(* the program catches every exception and goes on; the booleans tell which
   operations threw *)
Fixpoint run (ops : list vop) (vs : list vec) (m : mem) : option (list bool * list vec * mem) :=
  match ops with
  | [] => Some ([], vs, m)
  | op :: t =>
      match exec op vs m with
      | Bad => None
      | Ok vs' m' => match run t vs' m' with Some (fl, vs2, m2) => Some (false :: fl, vs2, m2) | None => None end
      | Exc vs' m' => match run t vs' m' with Some (fl, vs2, m2) => Some (true :: fl, vs2, m2) | None => None end
      end
  end.
(* all vectors leave their scope *)
Fixpoint destruct_all (vs : list vec) (m : mem) : out unit :=
  match vs with
  | [] => Ok tt m
  | v :: t => andthen (destruct_vec v m) (destruct_all t)
  end.
Definition mem0 : mem := Mem (fun _ => None) 0 0.
End World.
