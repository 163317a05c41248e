(* What a user of an N-D vector expects: it is a list of slices of equal extents. *)
From Coq Require Import List Bool Arith.
From Verif Require Import VecModel NdVecModel VecSpec.
Import ListNotations.

Fixpoint vol (e : list nat) : nat := match e with [] => 1 | n :: r => n * vol r end.

Section Spec.
Context {V : Type}.
Notation nop := (@nop V).

(* the extents of a slice, and the slices, each in row-major order *)
Record arr := Arr { sub : list nat; slices : list (list V) }.

(* cut a sequence into n pieces of length k *)
Fixpoint pieces (n k : nat) (xs : list V) : list (list V) :=
  match n with 0 => [] | S n' => firstn k xs :: pieces n' k (skipn k xs) end.
Definition shape_of (e : list nat) (xs : list V) : arr :=
  match e with [] => Arr [] [] | n :: r => Arr r (pieces n (vol r) xs) end.
Definition flat (a : arr) : list V := concat (slices a).
Definition adopt (a : arr) (sd : list nat) : list nat := match slices a with [] => sd | _ => sub a end.
(* only an empty vector accepts slices of other extents *)
Definition fits (a : arr) (sd : list nat) : bool := match slices a with [] => true | _ => eq_dims sd (sub a) end.

(* preconditions: positions within the vector; slices that are really of the
   extents they claim; no slices without elements *)
Inductive nlegal (a : arr) : nop -> Prop :=
  | L_push sd xs : length sd = length (sub a) -> length xs = vol sd -> vol sd <> 0 -> nlegal a (NPush sd xs)
  | L_pop : slices a <> [] -> nlegal a NPop
  | L_ins p n sd xs : p <= length (slices a) -> length sd = length (sub a) -> length xs = vol sd -> vol sd <> 0 ->
      nlegal a (NInsert p n sd xs)
  | L_insr p sd xss : p <= length (slices a) -> length sd = length (sub a) -> Forall (fun xs => length xs = vol sd) xss ->
      vol sd <> 0 -> nlegal a (NInsertRange p sd xss)
  | L_era p : p < length (slices a) \/ (p = 0 /\ slices a = []) -> nlegal a (NErase p)
  | L_eran p q : p <= length (slices a) -> q <= length (slices a) -> vol (sub a) <> 0 -> nlegal a (NEraseRange p q)
  | L_resize n x : n = 0 \/ vol (sub a) <> 0 -> nlegal a (NResize n x)
  | L_resize_all n r x : length r = length (sub a) -> n = 0 \/ vol r <> 0 -> nlegal a (NResizeAll (n :: r) x)
  | L_assign n r x : length r = length (sub a) -> n = 0 \/ vol r <> 0 -> nlegal a (NAssign (n :: r) x)
  | L_clear : nlegal a NClear
  | L_reserve n : nlegal a (NReserve n)
  | L_shrink : nlegal a NShrink
  | L_copy : nlegal a NCopy.

(* the list operation; None when the function has to throw an error of its own *)
Definition nresult (op : nop) (a : arr) : option arr :=
  match op with
  | NPush sd xs => if fits a sd then Some (Arr (adopt a sd) (slices a ++ [xs])) else None
  | NPop => Some (Arr (sub a) (removelast (slices a)))
  | NInsert p n sd xs =>
      if Nat.eqb n 0 then Some a
      else if fits a sd then Some (Arr (adopt a sd) (insert_at p (repeat xs n) (slices a))) else None
  | NInsertRange p sd xss =>
      if Nat.eqb (length xss) 0 then Some a
      else if fits a sd then Some (Arr (adopt a sd) (insert_at p xss (slices a))) else None
  | NErase p => match slices a with [] => None | _ => Some (Arr (sub a) (erase_at p 1 (slices a))) end
  | NEraseRange p q => if q <? p then None else Some (Arr (sub a) (erase_at p (q - p) (slices a)))
  | NResize n x =>
      Some (Arr (sub a) (firstn n (slices a) ++ repeat (repeat x (vol (sub a))) (n - length (slices a))))
  | NResizeAll e x => Some (shape_of e (firstn (vol e) (flat a) ++ repeat x (vol e - length (flat a))))
  | NAssign e x => Some (shape_of e (repeat x (vol e)))
  | NClear => Some (Arr (sub a) [])
  | NReserve _ | NShrink | NCopy => Some a
  end.

(* where the iterator returned by insert and erase points: the index of a slice;
   None: no iterator, or (of an empty insertion or erasure) an unspecified one *)
Definition returned (op : nop) (a : arr) : option nat :=
  match op with
  | NInsert p n _ _ => if Nat.eqb n 0 then None else Some p
  | NInsertRange p _ xss => if Nat.eqb (length xss) 0 then None else Some p
  | NErase p => Some p
  | NEraseRange p q => if Nat.eqb p q then None else Some p
  | _ => None
  end.

(* what may be left when an element constructor throws *)
Definition ndamaged (op : nop) (a a' : arr) : Prop :=
  (slices a <> [] -> sub a' = sub a) /\ length (sub a') = length (sub a) /\
  (slices a' = slices a \/
   exists new, nresult op a = Some new /\
    match op with
    | NInsert p _ _ _ | NInsertRange p _ _ =>
        prefix (slices a') (slices a) \/ (prefix (slices a') (slices new) /\ p <= length (slices a'))
    | NErase p | NEraseRange p _ => prefix (slices a') (slices new) /\ p <= length (slices a')
    | NAssign _ _ => slices a' = []
    | _ => False
    end).
Definition ninserts (op : nop) : Prop :=
  match op with NInsert _ _ _ _ | NInsertRange _ _ _ => True | _ => False end.

Definition neffect (op : nop) (a : arr) : arr := match nresult op a with Some a' => a' | None => a end.
Fixpoint nplay (ops : list nop) (a : arr) : arr :=
  match ops with [] => a | op :: t => nplay t (neffect op a) end.
Fixpoint nlegal_all (ops : list nop) (a : arr) : Prop :=
  match ops with [] => True | op :: t => nlegal a op /\ nlegal_all t (neffect op a) end.
Fixpoint nerrors (ops : list nop) (a : arr) : list bool :=
  match ops with
  | [] => []
  | op :: t => (match nresult op a with Some _ => false | None => true end) :: nerrors t (neffect op a)
  end.

(* what a user can see of v: its extents, its total size, its capacity, and the
   elements of each slice in row-major order *)
Definition nsees (m : @mem V) (v : nvec) (a : arr) : Prop :=
  extents v = length (slices a) :: sub a /\
  total_size v = length (slices a) * vol (sub a) /\
  total_size v <= cap (nraw v) /\
  forall k s, nth_error (slices a) k = Some s -> length s = vol (sub a) /\
    forall j x, nth_error s j = Some x ->
      exists b, ptr (nraw v) = Some b /\ read m (Ref b (k * vol (sub a) + j)) = Some x.
End Spec.
