(* What programs over filter iterators of both policies mean: positions, and whether the
   iterator has not yet seen its element.  Such a blank caching iterator may not be read, nor
   copied if elements are kept on the heap. *)
From Coq Require Import List Bool Arith.
From Verif Require Import FiltModel FiltSpec MixModel.
Import ListNotations.

Section Spec.
Variable V : Type.
Variable heap : bool.      (* cached elements are kept on the heap *)
Variable l : list V.
Record mark := Mark { place : nat; stop : nat; test : V -> bool; caching : bool; blank : bool }.
Definition marks := nat -> option mark.
Definition is (s : marks) (x : nat) (i : mark) : marks := fun y => if y =? x then Some i else s y.
Definition gone (s : marks) (x : nat) : marks := fun y => if y =? x then None else s y.
Definition copied (i : mark) : option mark := if heap && caching i && blank i then None else Some i.
(* ++ leaves a blank iterator blank only if there was nothing left to look at *)
Definition next (i : mark) : option mark :=
  option_map (fun r => Mark r (stop i) (test i) (caching i) (blank i && (S (place i) =? stop i)))
    (ahead V (test i) l (place i) (stop i)).
Definition prev (i : mark) : option mark :=
  option_map (fun r => Mark r (stop i) (test i) (caching i) false) (behind V (test i) l (place i)).
Definition looks (i : mark) : option V :=
  if caching i && (blank i || (place i =? stop i)) then None else nth_error l (place i).
Definition moves (s : marks) (x : nat) (f : mark -> option mark) : option (seen V * marks) :=
  match s x with
  | None => None
  | Some i => option_map (fun j => (Nothing, is s x j)) (f i)
  end.
Definition post (s : marks) (z x : nat) (f : mark -> option mark) : option (seen V * marks) :=
  match s x with
  | None => None
  | Some i => match copied i, f i with Some k, Some j => Some (Nothing, is (is s x j) z k) | _, _ => None end
  end.
Definition does (o : mop V) (s : marks) : option (seen V * marks) :=
  match o with
  | Make x c b e p =>
      if (b <=? length l) && (e <=? length l)
      then option_map (fun r => (Nothing, is s x (Mark r e p c (b =? e)))) (settle V p l b e) else None
  | Copy x c y =>
      match s y with
      | None => None
      | Some i =>
          if Bool.eqb c (caching i)
          then if x =? y then Some (Nothing, s) else option_map (fun j => (Nothing, is s x j)) (copied i)
          else Some (Nothing, is s x (Mark (place i) (stop i) (test i) c true))
      end
  | Take x y =>
      match s x, s y with
      | Some i, Some j =>
          if Bool.eqb (caching i) (caching j) then None
          else Some (Nothing, is s x (Mark (place j) (stop j) (test j) (caching i) true))
      | _, _ => None
      end
  | Move x y =>
      match s y with
      | None => None
      | Some i =>
          if x =? y then Some (Nothing, s)
          else if match s x with Some j => Bool.eqb (caching i) (caching j) | None => true end
          then Some (Nothing, gone (is s x i) y) else None
      end
  | Swap x y =>
      match s x, s y with
      | Some i, Some j => if Bool.eqb (caching i) (caching j) then Some (Nothing, is (is s x j) y i) else None
      | _, _ => None
      end
  | Inc x => moves s x next
  | Dec x => moves s x prev
  | PostInc z x => post s z x next
  | PostDec z x => post s z x prev
  | Read x => match s x with Some i => option_map (fun v => (Value v, s)) (looks i) | None => None end
  | Same x y c =>
      match s x, s y with
      | Some i, Some j =>
          if Bool.eqb (caching i) c && Bool.eqb (caching j) c then Some (Answer (place i =? place j), s) else None
      | _, _ => None
      end
  end.
Fixpoint story (os : list (mop V)) (s : marks) : option (list (seen V)) :=
  match os with
  | [] => Some []
  | o :: r => match does o s with Some (x, s') => option_map (cons x) (story r s') | None => None end
  end.
End Spec.
Arguments Mark {V}. Arguments place {V}. Arguments stop {V}. Arguments test {V}. Arguments caching {V}. Arguments blank {V}.
