(* Programs over filter_iterators with an end, some caching and some not, that are converted
   into each other: include/yato/filter_iterator.h:244-266, 301-340 and filter_cache_base, 40-125.
   The iterators and their movements are those of FiltModel; the container is not written.
   Simplified: as in FiltModel; the element type fixes where a cached element is kept; copying an unset element kept in place, which copies
   indeterminate bytes of a trivial type, is taken as harmless, as in FiltModel. *)
From Coq Require Import List Bool Arith.
From Verif Require Import FiltModel.
Import ListNotations.

Inductive mop (V : Type) :=
| Make (x : nat) (c : bool) (b e : nat) (p : V -> bool)  (* x(first + b, first + e, p), caching if c *)
| Copy (x : nat) (c : bool) (y : nat)                    (* x(y), x = y; x is caching if c *)
| Take (x y : nat)                                       (* x = std::move(y), of different policies *)
| Move (x y : nat)                                       (* x(std::move(y)), x = std::move(y), of one policy *)
| Swap (x y : nat)                                       (* x.swap(y), of one policy *)
| Inc (x : nat) | Dec (x : nat)
| PostInc (z x : nat) | PostDec (z x : nat)              (* z = x++, z = x--, z like x *)
| Read (x : nat)
| Same (x y : nat) (c : bool).                           (* x == y, both caching if c, or neither *)
Arguments Make {V}. Arguments Copy {V}. Arguments Take {V}. Arguments Move {V}. Arguments Swap {V}. Arguments Inc {V}. Arguments Dec {V}. Arguments PostInc {V}. Arguments PostDec {V}.
Arguments Read {V}. Arguments Same {V}.

Section Mix.
Variable V : Type.
Variable kept : policy.   (* InPlace or OnHeap *)
Variable m : list V.

Definition pol (c : bool) : policy := if c then kept else Plain.
(* the iterator and whether its type is caching *)
Definition vars := nat -> option (iter V * bool).
Definition set (w : vars) (x : nat) (i : iter V * bool) : vars := fun y => if y =? x then Some i else w y.
Definition clear (w : vars) (x : nat) : vars := fun y => if y =? x then None else w y.
(* 239-249: to an iterator of the same type the cache is copied; to or from one of the other
   policy nothing is copied, 48-51, 78-81, and the cache of a caching one is unset *)
Definition convert (i : iter V) (c c' : bool) : option (iter V) :=
  if Bool.eqb c c' then copy V (pol c) i else Some (Iter (pos i) (last i) (pred i) None).
Definition with1 {R} (w : vars) (x : nat) (f : iter V -> bool -> option R) : option R :=
  match w x with Some (i, c) => f i c | None => None end.
Definition exec (o : mop V) (w : vars) : option (seen V * vars) :=
  match o with
  | Make x c b e p => option_map (fun i => (Nothing, set w x (i, c))) (make V (pol c) m b e p)
  | Copy x c y =>
      with1 w y (fun i c' =>
        if (x =? y) && Bool.eqb c c' then Some (Nothing, w)
        else option_map (fun j => (Nothing, set w x (j, c))) (convert i c c'))
  | Take x y =>                                    (* 330-340: _move_impl does nothing, 61-63, 104-106 *)
      with1 w x (fun i c => with1 w y (fun j c' =>
        if Bool.eqb c c' then None
        else Some (Nothing, set w x (Iter (pos j) (last j) (pred j) (cached i), c))))
  | Move x y =>                                    (* 254-257, 316-325 *)
      with1 w y (fun i c => if x =? y then Some (Nothing, w) else
        match w x with
        | Some (_, c') => if Bool.eqb c c' then Some (Nothing, clear (set w x (i, c)) y) else None
        | None => Some (Nothing, clear (set w x (i, c)) y)
        end)
  | Swap x y =>                                    (* 278-287 *)
      with1 w x (fun i c => with1 w y (fun j c' =>
        if Bool.eqb c c' then Some (Nothing, set (set w x (j, c)) y (i, c)) else None))
  | Inc x => with1 w x (fun i c => option_map (fun j => (Nothing, set w x (j, c))) (forward V (pol c) m i))
  | Dec x => with1 w x (fun i c => option_map (fun j => (Nothing, set w x (j, c))) (backward V (pol c) m i))
  | PostInc z x =>
      with1 w x (fun i c =>
        match copy V (pol c) i, forward V (pol c) m i with
        | Some k, Some j => Some (Nothing, set (set w x (j, c)) z (k, c))
        | _, _ => None
        end)
  | PostDec z x =>
      with1 w x (fun i c =>
        match copy V (pol c) i, backward V (pol c) m i with
        | Some k, Some j => Some (Nothing, set (set w x (j, c)) z (k, c))
        | _, _ => None
        end)
  | Read x => with1 w x (fun i c => option_map (fun v => (Value v, w)) (read V (pol c) m i))
  | Same x y c =>                                  (* operands of different policies are converted first *)
      with1 w x (fun i a => with1 w y (fun j b =>
        if Bool.eqb a c && Bool.eqb b c then Some (Answer (negb (negb (pos i =? pos j))), w) else None))
  end.
Fixpoint run (os : list (mop V)) (w : vars) : option (list (seen V)) :=
  match os with
  | [] => Some []
  | o :: r => match exec o w with Some (x, w') => option_map (cons x) (run r w') | None => None end
  end.
End Mix.
