(* A filter_iterator with an end converted to one without: filter_iterator.h:572-577, 590-595,
   633-640, 658-666 (the converting functions of filter_iterator<..., false> take the three
   argument form, which has an end).  The iterators are those of FiltModel and FreeModel.
   Simplified: as there; the container is not written; copying an unset element kept in place is
   taken as harmless.  There is no conversion the other way. *)
From Coq Require Import List Bool Arith.
From Verif Require FiltModel FreeModel.
Import ListNotations.

Section Loose.
Variable V : Type.
Variable kept : bool.      (* a caching iterator keeps elements on the heap, or else in place *)

(* the policies of an iterator, caching if c *)
Definition ended (c : bool) : FiltModel.policy :=
  if c then if kept then FiltModel.OnHeap else FiltModel.InPlace else FiltModel.Plain.
Definition endless (c : bool) : FreeModel.policy :=
  if c then if kept then FreeModel.OnHeap else FreeModel.InPlace else FreeModel.Plain.
(* 572-577: an iterator, caching if c, made from one that is caching if c'; the cache is copied
   between caching ones only, 48-51, 76-83, and an unset one on the heap cannot be *)
Definition drop (c c' : bool) (i : FiltModel.iter V) : FreeModel.res (FreeModel.iter V) :=
  let to x := FreeModel.Iter (FiltModel.pos i) (FiltModel.pred i) x in
  if c && c'
  then match kept, FiltModel.cached i with
       | true, None => FreeModel.Bad
       | _, x => FreeModel.Done (to x)
       end
  else FreeModel.Done (to None).
(* 658-666: j, caching if c, is assigned a temporary i that is caching if c'; between caching ones
   the cache is moved, 108-112, otherwise the one of j stays, 61-63, 104-106 *)
Definition assign (c c' : bool) (j : FreeModel.iter V) (i : FiltModel.iter V) : FreeModel.iter V :=
  FreeModel.Iter (FiltModel.pos i) (FiltModel.pred i) (if c && c' then FiltModel.cached i else FreeModel.cached j).
(* an iterator from b to e, after some ++ (true) and -- (false) *)
Fixpoint moved (c : bool) (m : list V) (ds : list bool) (i : FiltModel.iter V) : option (FiltModel.iter V) :=
  match ds with
  | [] => Some i
  | d :: r => match (if d then FiltModel.forward else FiltModel.backward) V (ended c) m i with
              | Some j => moved c m r j
              | None => None
              end
  end.
Definition made (c : bool) (m : list V) (b e : nat) (p : V -> bool) (ds : list bool) : option (FiltModel.iter V) :=
  match FiltModel.make V (ended c) m b e p with Some i => moved c m ds i | None => None end.
(* n times  v = *x; ++x; *)
Fixpoint tour (n : nat) : list (FreeModel.eop V) :=
  match n with O => [] | S n' => FreeModel.Read 0 :: FreeModel.Inc 0 :: tour n' end.
Definition only (j : FreeModel.iter V) : FreeModel.vars V := FreeModel.set V (fun _ => None) 0 (Some j).
End Loose.
