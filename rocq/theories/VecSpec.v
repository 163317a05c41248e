(* What a user of vectors expects, in terms of lists only. *)
From Coq Require Import List Bool Arith.
From Verif Require Import VecWorld.
Import ListNotations.

Section Spec.
Context {V : Type}.
Notation vop := (@vop V).
Notation arg := (@arg V).
Definition store := list (list V).

Definition value (ls : store) (a : arg) : option V :=
  match a with
  | Val v => Some v
  | Elem j k => match nth_error ls j with Some xs => nth_error xs k | None => None end
  end.
Fixpoint values (ls : store) (l : list arg) : option (list V) :=
  match l with
  | [] => Some []
  | a :: t => match value ls a, values ls t with Some v, Some vs => Some (v :: vs) | _, _ => None end
  end.
(* the argument is not an element of vector i *)
Definition foreign (i : nat) (a : arg) : Prop := match a with Val _ => True | Elem j _ => j <> i end.

Definition insert_at (off : nat) (new xs : list V) : list V := firstn off xs ++ new ++ skipn off xs.
Definition erase_at (off n : nat) (xs : list V) : list V := firstn off xs ++ skipn (off + n) xs.

Definition prefix (ys xs : list V) : Prop := exists zs, xs = ys ++ zs.

(* the preconditions of an operation on vectors that hold ls *)
Inductive legal (ls : store) : vop -> Prop :=
  | L_empty : legal ls MakeEmpty
  | L_make n a v : value ls a = Some v -> legal ls (Make n a)
  | L_range l vs : values ls l = Some vs -> legal ls (MakeRange l)
  | L_copy j xs : nth_error ls j = Some xs -> legal ls (MakeCopy j)
  | L_move j xs : nth_error ls j = Some xs -> legal ls (MakeMove j)
  | L_push i xs a v : nth_error ls i = Some xs -> value ls a = Some v -> foreign i a -> legal ls (PushBack i a)
  | L_pop i xs : nth_error ls i = Some xs -> legal ls (PopBack i)
  | L_ins1 i xs off a v : nth_error ls i = Some xs -> off <= length xs -> value ls a = Some v -> foreign i a ->
      legal ls (InsertOne i off a)
  | L_insn i xs off n a v : nth_error ls i = Some xs -> off <= length xs -> value ls a = Some v -> foreign i a ->
      legal ls (InsertCount i off n a)
  | L_insr i xs off l vs : nth_error ls i = Some xs -> off <= length xs -> values ls l = Some vs -> Forall (foreign i) l ->
      legal ls (InsertRange i off l)
  (* an empty vector has only the end iterator, which erase rejects itself *)
  | L_era1 i xs off : nth_error ls i = Some xs -> off < length xs \/ (off = 0 /\ xs = []) -> legal ls (EraseOne i off)
  | L_eran i xs a b : nth_error ls i = Some xs -> a <= length xs -> b <= length xs -> legal ls (EraseRange i a b)
  | L_resize i xs n a v : nth_error ls i = Some xs -> value ls a = Some v -> legal ls (Resize i n a)
  | L_assign i xs n a v : nth_error ls i = Some xs -> value ls a = Some v -> foreign i a -> legal ls (Assign i n a)
  | L_reserve i xs n : nth_error ls i = Some xs -> legal ls (Reserve i n)
  | L_shrink i xs : nth_error ls i = Some xs -> legal ls (Shrink i)
  | L_clear i xs : nth_error ls i = Some xs -> legal ls (Clear i)
  | L_cpas i j xs ys : nth_error ls i = Some xs -> nth_error ls j = Some ys -> legal ls (CopyAssign i j)
  | L_mvas i j xs ys : nth_error ls i = Some xs -> nth_error ls j = Some ys -> legal ls (MoveAssign i j)
  | L_swap i j xs ys : nth_error ls i = Some xs -> nth_error ls j = Some ys -> legal ls (Swap i j).

(* the list operation; None when the function has to throw an error of its own *)
Definition result (op : vop) (ls : store) : option store :=
  let get i := nth i ls [] in
  let val a := match value ls a with Some v => [v] | None => [] end in
  let vals l := match values ls l with Some vs => vs | None => [] end in
  let rep n a := concat (repeat (val a) n) in
  let set i xs := Some (upd ls i xs) in
  match op with
  | MakeEmpty => Some (ls ++ [[]])
  | Make n a => Some (ls ++ [rep n a])
  | MakeRange l => Some (ls ++ [vals l])
  | MakeCopy j => Some (ls ++ [get j])
  | MakeMove j => Some (upd ls j [] ++ [get j])
  | PushBack i a => set i (get i ++ val a)
  | PopBack i => match get i with [] => None | xs => set i (removelast xs) end
  | InsertOne i off a => set i (insert_at off (val a) (get i))
  | InsertCount i off n a => set i (insert_at off (rep n a) (get i))
  | InsertRange i off l => set i (insert_at off (vals l) (get i))
  | EraseOne i off => match get i with [] => None | xs => set i (erase_at off 1 xs) end
  | EraseRange i a b => if b <? a then None else set i (erase_at a (b - a) (get i))
  | Resize i n a => set i (firstn n (get i) ++ rep (n - length (get i)) a)
  | Assign i n a => set i (rep n a)
  | Reserve _ _ | Shrink _ => Some ls
  | Clear i => set i []
  | CopyAssign i j => set i (get j)
  | MoveAssign i j => Some (upd (upd ls i (get j)) j [])
  | Swap i j => Some (upd (upd ls i (get j)) j (get i))
  end.

(* what may be left when an element constructor throws; the functions not listed
   leave everything as it was *)
Definition damaged (op : vop) (ls ls' : store) : Prop :=
  ls' = ls \/
  exists i xs new ys, nth_error ls i = Some xs /\ result op ls = Some (upd ls i new) /\ ls' = upd ls i ys /\
    match op with
    | InsertOne _ off _ | InsertCount _ off _ _ | InsertRange _ off _ =>
        prefix ys xs \/ (prefix ys new /\ off <= length ys)
    | EraseOne _ off | EraseRange _ off _ => prefix ys new /\ off <= length ys
    | Assign _ _ _ => ys = []
    | _ => False
    end.

Definition inserts (op : vop) : Prop :=
  match op with InsertOne _ _ _ | InsertCount _ _ _ _ | InsertRange _ _ _ => True | _ => False end.
End Spec.

Section Programs.
Context {V : Type}.
Notation vop := (@vop V).

(* ---- programs whose element constructors and allocations do not throw ---- *)
Definition effect (op : vop) (ls : store) : store := match result op ls with Some ls' => ls' | None => ls end.
Fixpoint play (ops : list vop) (ls : store) : store :=
  match ops with [] => ls | op :: t => play t (effect op ls) end.
Fixpoint legal_all (ops : list vop) (ls : store) : Prop :=
  match ops with [] => True | op :: t => legal ls op /\ legal_all t (effect op ls) end.
(* which operations report an error of their own *)
Fixpoint errors (ops : list vop) (ls : store) : list bool :=
  match ops with
  | [] => []
  | op :: t => (match result op ls with Some _ => false | None => true end) :: errors t (effect op ls)
  end.

(* ---- programs in which anything may throw ---- *)
(* one operation: it returned having done its work; or it reported an error of
   its own having done nothing; or an element or the allocator threw *)
Definition outcome (op : vop) (ls : store) (threw : bool) (ls' : store) : Prop :=
  if threw then (result op ls = None /\ ls' = ls) \/ damaged op ls ls'
  else result op ls = Some ls'.
Fixpoint safe (ops : list vop) (ls : store) : Prop :=
  match ops with
  | [] => True
  | op :: t => legal ls op /\ forall threw ls', outcome op ls threw ls' -> safe t ls'
  end.
Inductive trace : store -> list vop -> list bool -> store -> Prop :=
  | T_nil ls : trace ls [] [] ls
  | T_cons ls op threw ls1 ops fl ls2 : outcome op ls threw ls1 -> trace ls1 ops fl ls2 ->
      trace ls (op :: ops) (threw :: fl) ls2.
End Programs.
