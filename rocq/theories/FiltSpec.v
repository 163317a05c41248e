(* What programs over filter iterators mean, without loops: the iterator is at a position, moves
   to the next or previous position whose element the predicate accepts, and does not go past
   its end; and, for iterators of one whole unchanged sequence with one predicate, it is the
   number of an element in the filtered list. *)
From Coq Require Import List Bool Arith.
From Verif Require Import FiltModel.
Import ListNotations.

Section Spec.
Variable V : Type.
(* the accepted positions from b, k of them looked at *)
Definition accepted (p : V -> bool) (m : list V) (b k : nat) : list nat :=
  filter (fun q => match nth_error m q with Some a => p a | None => false end) (seq b k).
(* the first accepted position from b up to e, or e; if b is past e, nothing stops at e *)
Definition settle (p : V -> bool) (m : list V) (b e : nat) : option nat :=
  if b <=? e then Some (hd e (accepted p m b (e - b))) else hd_error (accepted p m b (length m - b)).
Definition ahead (p : V -> bool) (m : list V) (q e : nat) : option nat :=
  if q <? length m then settle p m (S q) e else None.
(* the last accepted position before q *)
Definition behind (p : V -> bool) (m : list V) (q : nat) : option nat := hd_error (rev (accepted p m 0 q)).

Record mark := Mark { place : nat; stop : nat; test : V -> bool }.
Record sheet := Sheet { marks : nat -> option mark; values : list V }.
Definition at_ (s : sheet) (x : nat) (i : mark) : sheet :=
  Sheet (fun y => if y =? x then Some i else marks s y) (values s).
Definition gone (s : sheet) (x : nat) : sheet :=
  Sheet (fun y => if y =? x then None else marks s y) (values s).
Definition replaced (q : nat) (v : V) (l : list V) : list V := firstn q l ++ v :: skipn (S q) l.

Definition moved (s : sheet) (x : nat) (f : mark -> option nat) (keep : option nat) : option (seen V * sheet) :=
  match marks s x with
  | None => None
  | Some i =>
      match f i with
      | None => None
      | Some q =>
          let s' := at_ s x (Mark q (stop i) (test i)) in
          Some (Nothing, match keep with Some z => at_ s' z i | None => s' end)
      end
  end.
Definition next (s : sheet) (i : mark) : option nat := ahead (test i) (values s) (place i) (stop i).
Definition prev (s : sheet) (i : mark) : option nat := behind (test i) (values s) (place i).

Definition does (o : fop V) (s : sheet) : option (seen V * sheet) :=
  let n := length (values s) in
  match o with
  | Make x b e p =>
      if (b <=? n) && (e <=? n)
      then option_map (fun q => (Nothing, at_ s x (Mark q e p))) (settle p (values s) b e) else None
  | Copy x y => option_map (fun i => (Nothing, at_ s x i)) (marks s y)
  | Move x y => option_map (fun i => (Nothing, if x =? y then s else gone (at_ s x i) y)) (marks s y)
  | Swap x y =>
      match marks s x, marks s y with
      | Some i, Some j => Some (Nothing, at_ (at_ s x j) y i)
      | _, _ => None
      end
  | Inc x => moved s x (next s) None
  | Dec x => moved s x (prev s) None
  | PostInc z x => moved s x (next s) (Some z)
  | PostDec z x => moved s x (prev s) (Some z)
  | Read x =>
      match marks s x with
      | Some i => option_map (fun v => (Value v, s)) (nth_error (values s) (place i))
      | None => None
      end
  | Write x v =>
      match marks s x with
      | Some i => if place i <? n then Some (Nothing, Sheet (marks s) (replaced (place i) v (values s))) else None
      | None => None
      end
  | Put q v => if q <? n then Some (Nothing, Sheet (marks s) (replaced q v (values s))) else None
  | Same x y =>
      match marks s x, marks s y with
      | Some i, Some j => Some (Answer (place i =? place j), s)
      | _, _ => None
      end
  | Differ x y =>
      match marks s x, marks s y with
      | Some i, Some j => Some (Answer (negb (place i =? place j)), s)
      | _, _ => None
      end
  | SameAs x q =>
      match marks s x with
      | Some i => if q <=? n then Some (Answer (place i =? q), s) else None
      | None => None
      end
  | DiffersFrom x q =>
      match marks s x with
      | Some i => if q <=? n then Some (Answer (negb (place i =? q)), s) else None
      | None => None
      end
  end.
Fixpoint story (os : list (fop V)) (s : sheet) : option (list (seen V) * list V) :=
  match os with
  | [] => Some ([], values s)
  | o :: r =>
      match does o s with
      | Some (x, s') => option_map (fun l => (x :: fst l, snd l)) (story r s')
      | None => None
      end
  end.

(* iterators of a whole sequence l with predicate p, made at its begin or end; nothing is written *)
Definition whole (p : V -> bool) (l : list V) (o : fop V) : Prop :=
  match o with
  | Make _ b e p' => (b = 0 \/ b = length l) /\ e = length l /\ p' = p
  | Write _ _ | Put _ _ | SameAs _ _ | DiffersFrom _ _ => False
  | _ => True
  end.
(* then they are numbers of elements of f, the filtered list *)
Definition numbers := nat -> option nat.
Definition is (s : numbers) (x : nat) (i : option nat) : numbers := fun y => if y =? x then i else s y.
Definition shifted (s : numbers) (x : nat) (g : nat -> option nat) (keep : option nat) : option (seen V * numbers) :=
  match s x with
  | None => None
  | Some i =>
      match g i with
      | None => None
      | Some j => Some (Nothing, match keep with Some z => is (is s x (Some j)) z (Some i) | None => is s x (Some j) end)
      end
  end.
Definition up (f : list V) (i : nat) : option nat := if i <? length f then Some (S i) else None.
Definition down (i : nat) : option nat := match i with O => None | S j => Some j end.
Definition tells (f : list V) (o : fop V) (s : numbers) : option (seen V * numbers) :=
  match o with
  | Make x b e _ => Some (Nothing, is s x (Some (if (b =? 0) then 0 else length f)))
  | Copy x y => option_map (fun i => (Nothing, is s x (Some i))) (s y)
  | Move x y => option_map (fun i => (Nothing, if x =? y then s else is (is s x (Some i)) y None)) (s y)
  | Swap x y =>
      match s x, s y with Some i, Some j => Some (Nothing, is (is s x (Some j)) y (Some i)) | _, _ => None end
  | Inc x => shifted s x (up f) None
  | Dec x => shifted s x down None
  | PostInc z x => shifted s x (up f) (Some z)
  | PostDec z x => shifted s x down (Some z)
  | Read x =>
      match s x with Some i => option_map (fun v => (Value v, s)) (nth_error f i) | None => None end
  | Same x y => match s x, s y with Some i, Some j => Some (Answer (i =? j), s) | _, _ => None end
  | Differ x y => match s x, s y with Some i, Some j => Some (Answer (negb (i =? j)), s) | _, _ => None end
  | _ => None
  end.
Fixpoint tale (f : list V) (os : list (fop V)) (s : numbers) : option (list (seen V)) :=
  match os with
  | [] => Some []
  | o :: r =>
      match tells f o s with
      | Some (x, s') => option_map (cons x) (tale f r s')
      | None => None
      end
  end.

(* programs that read a sequence of n elements up to its end *)
Definition reading (n : nat) (o : fop V) : Prop :=
  match o with
  | Make _ _ e _ => e = n
  | Write _ _ | Put _ _ => False
  | _ => True
  end.
(* ... and make no iterator that has nothing ahead of it *)
Definition started (n : nat) (o : fop V) : Prop :=
  match o with Make _ b _ _ => b <> n | _ => True end.
End Spec.
Arguments Mark {V}. Arguments place {V}. Arguments stop {V}. Arguments test {V}.
Arguments Sheet {V}. Arguments marks {V}. Arguments values {V}.
