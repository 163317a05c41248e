(* Model of small utilities of /repo/include/yato: the scope guard finally.h, the
   algorithms over tuples of tuple.h and singleton.h. *)
From Coq Require Import List Bool Arith Permutation.
Import ListNotations.

(* ---- finally.h ---- *)
(* An action is a number; throws tells which of them end with an exception.  keeps:
   a functor that was moved from is still the same, as a lambda with captures by
   reference is; otherwise it holds nothing, and calling it throws, as that of
   std::function does. *)
Record guard := Guard { action : option nat; invoke : bool }.                       (* 20-21 *)
Inductive gop :=
| Make (v a : nat)                 (* finally(action) 25-27: the functor is copied *)
| MakeFails (v a : nat)            (* the copy throws *)
| MoveMake (v w : nat)             (* finally(finally&&) 42-46 *)
| MoveAssign (v w : nat)           (* operator=(finally&&) 50-54 *)
| Destroy (v : nat).               (* ~finally 29-38 *)
Record gstate := GState { guards : list (nat * guard); made : list nat; called : list nat }.
(* GThrow: an exception leaves the operation; GUB: undefined; GBad: no such program *)
Inductive gresult := GOk (s : gstate) | GThrow (s : gstate) | GUB | GBad.
Definition find (v : nat) (gs : list (nat * guard)) : option guard :=
  option_map snd (List.find (fun p => Nat.eqb (fst p) v) gs).
Definition drop (v : nat) (gs : list (nat * guard)) : list (nat * guard) := filter (fun p => negb (Nat.eqb (fst p) v)) gs.
Definition set (v : nat) (g : guard) (gs : list (nat * guard)) : list (nat * guard) :=
  map (fun p => if Nat.eqb (fst p) v then (v, g) else p) gs.
Section Finally.
Variable throws : nat -> bool.
Variable keeps : bool.
Definition moved (a : option nat) : option nat := if keeps then a else None.
(* the end of a value returning function without a return statement (54) is undefined;
   lenient: the compiler returns *this all the same *)
Variable lenient : bool.
Definition gstep (o : gop) (s : gstate) : gresult :=
  match o with
  | Make v a => match find v (guards s) with
                | Some _ => GBad
                | None => GOk (GState ((v, Guard (Some a) true) :: guards s) (a :: made s) (called s))
                end
  | MakeFails v a => match find v (guards s) with Some _ => GBad | None => GThrow s end
  | MoveMake v w =>
      match find v (guards s), find w (guards s) with
      | None, Some g =>                                                (* m_invoke starts as true *)
          GOk (GState ((v, Guard (action g) true) :: set w (Guard (moved (action g)) false) (guards s)) (made s) (called s))
      | _, _ => GBad
      end
  | MoveAssign v w =>
      match find v (guards s), find w (guards s) with
      | Some old, Some g =>
          let gs := set v (Guard (action g) (invoke old)) (guards s) in
          let gs := match find w gs with Some h => set w (Guard (if Nat.eqb v w then action h else moved (action h)) false) gs | None => gs end in
          if lenient then GOk (GState gs (made s) (called s)) else GUB
      | _, _ => GBad
      end
  | Destroy v =>
      match find v (guards s) with
      | None => GBad
      | Some g =>
          let s' := GState (drop v (guards s)) (made s) (called s) in
          if invoke g then
            let outcome := match action g with
                           | None => GThrow s'
                           | Some a => let s'' := GState (guards s') (made s) (a :: called s) in
                                       if throws a then GThrow s'' else GOk s''
                           end in
            match outcome with GThrow x => GOk x | r => r end            (* 32-36 try, catch (...) *)
          else GOk s'
      end
  end.
(* a program goes on after an exception it caught *)
Fixpoint grun (os : list gop) (s : gstate) : gresult :=
  match os with
  | [] => GOk s
  | o :: t => match gstep o s with GOk s' | GThrow s' => grun t s' | r => r end
  end.
Definition gstate0 : gstate := GState [] [] [].
End Finally.

(* ---- tuple.h ---- *)
(* The elements of a tuple all have one type here.  A functor may change a state and
   may throw (None).  Its further arguments are part of that state, as they are
   passed to every call. *)
Section Tuple.
Context {E S R : Type}.
(* tuple_for_each_impl 100-123 *)
Fixpoint for_each (f : E -> S -> option S) (es : list E) (s : S) : option S :=
  match es with
  | [] => Some s
  | e :: t => match f e s with None => None | Some s' => for_each f t s' end
  end.
(* tuple_all_of_impl 140-161 and tuple_all_of_2_impl 177-198, whose elements are the
   pairs *)
Fixpoint all_of (p : E -> S -> option (bool * S)) (es : list E) (s : S) : option (bool * S) :=
  match es with
  | [] => Some (true, s)
  | e :: t => match p e s with
              | None => None
              | Some (b, s') => if b then all_of p t s' else Some (false, s')
              end
  end.
(* tuple_any_of_impl 218-239 and tuple_any_of_2_impl 255-276 *)
Fixpoint any_of (p : E -> S -> option (bool * S)) (es : list E) (s : S) : option (bool * S) :=
  match es with
  | [] => Some (false, s)
  | e :: t => match p e s with
              | None => None
              | Some (b, s') => if b then Some (true, s') else any_of p t s'
              end
  end.
(* tuple_transform_impl 20-41 and tuple_transform_2_impl 58-79: the calls are the
   arguments of a constructor; order is the order of evaluation the compiler chose.
   The result of call i becomes element i. *)
Fixpoint transform_in (f : E -> S -> option (R * S)) (es : list E) (order : list nat) (s : S) (acc : nat -> option R) : option ((nat -> option R) * S) :=
  match order with
  | [] => Some (acc, s)
  | i :: t => match nth_error es i with
              | None => None
              | Some e => match f e s with
                          | None => None
                          | Some (r, s') => transform_in f es t s' (fun j => if Nat.eqb j i then Some r else acc j)
                          end
              end
  end.
Definition collect (n : nat) (acc : nat -> option R) : list (option R) := map acc (seq 0 n).
Definition transform (f : E -> S -> option (R * S)) (es : list E) (order : list nat) (s : S) : option (list (option R) * S) :=
  option_map (fun p => (collect (length es) (fst p), snd p)) (transform_in f es order s (fun _ => None)).
End Tuple.
(* std::forward of an argument: an rvalue that the functor takes by value is moved
   out and leaves the empty value *)
Definition forward {A} (rvalue by_value : bool) (empty a : A) : A * A := (a, if rvalue && by_value then empty else a).

(* ---- singleton.h 38-78, for one thread ---- *)
(* create() gives a new object or throws (None); objects are numbered *)
Record sstate := SState { instance_ : option nat; objects : nat; destroyed : list nat }.
Definition sstate0 : sstate := SState None 0 [].
(* touch 72-77; reset destroys the previous object *)
Definition assign (n : nat) (s : sstate) : sstate :=
  SState (Some n) (objects s) (match instance_ s with Some old => old :: destroyed s | None => destroyed s end).
Definition create (ok : bool) (s : sstate) : option (nat * sstate) :=
  if ok then Some (objects s, SState (instance_ s) (S (objects s)) (destroyed s)) else None.
Definition touch (ok : bool) (s : sstate) : option sstate :=
  match instance_ s with
  | Some _ => Some s
  | None => match create ok s with None => None | Some (n, s') => Some (assign n s') end
  end.
(* instance 54-58, instance_ref 63-67; None throws *)
Definition instance (ok : bool) (s : sstate) : option nat * sstate :=
  match touch ok s with None => (None, s) | Some s' => (instance_ s', s') end.
Fixpoint uses (oks : list bool) (s : sstate) : list (option nat) * sstate :=
  match oks with
  | [] => ([], s)
  | ok :: t => let '(r, s') := instance ok s in let '(rs, s'') := uses t s' in (r :: rs, s'')
  end.
(* the destructor of ms_instance at the end of the program *)
Definition finish (s : sstate) : sstate :=
  SState None (objects s) (match instance_ s with Some n => n :: destroyed s | None => destroyed s end).

(* two or more threads: reading the pointer (74), creating, storing (75) and returning
   (57) are steps of their own; at is the place of each thread *)
Inductive place := AtTest | AtCreate | AtStore (n : nat) | AtReturn | Has (r : option nat).
Record mstate := MState { shared : sstate; at_ : list place }.
Definition replace (i : nat) (p : place) (l : list place) : list place := firstn i l ++ p :: skipn (S i) l.
Definition mstep (i : nat) (m : mstate) : option mstate :=
  match nth_error (at_ m) i with
  | None => None
  | Some AtTest => Some (MState (shared m) (replace i (match instance_ (shared m) with None => AtCreate | Some _ => AtReturn end) (at_ m)))
  | Some AtCreate => match create true (shared m) with None => None | Some (n, s) => Some (MState s (replace i (AtStore n) (at_ m))) end
  | Some (AtStore n) => Some (MState (assign n (shared m)) (replace i AtReturn (at_ m)))
  | Some AtReturn => Some (MState (shared m) (replace i (Has (instance_ (shared m))) (at_ m)))
  | Some (Has _) => None
  end.
Fixpoint mrun (is : list nat) (m : mstate) : option mstate :=
  match is with
  | [] => Some m
  | i :: t => match mstep i m with None => None | Some m' => mrun t m' end
  end.
