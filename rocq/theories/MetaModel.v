(* The lists of types of include/yato/meta.h.

   A template that is instantiated is a function on lists of types; the types are
   the elements of T.  An instantiation that is not well formed, because a head or
   tail of null_list is needed, a list<> without a head is named or two partial
   specialisations fit equally, is an outcome of its own.  All template arguments
   of std::conditional are instantiated, so both are evaluated here, whichever is
   chosen.

   Simplifications.  The limit compilers put on the depth of instantiation is left
   out.  The comparator of merge and sort is a partial function, since
   type_less_sizeof<void, void> is ambiguous. *)
From Coq Require Import List Bool Arith NArith.
Import ListNotations.

Inductive inst (A : Type) := Type_ (a : A) | IllFormed | TooDeep.
Arguments Type_ {A}. Arguments IllFormed {A}. Arguments TooDeep {A}.

Definition bind {A B : Type} (m : inst A) (f : A -> inst B) : inst B :=
  match m with Type_ a => f a | IllFormed => IllFormed | TooDeep => TooDeep end.
Notation "'do' x <- m ; e" := (bind m (fun x => e)) (at level 200, x pattern, m at level 100, e at level 200).

(* lines 79-80 *)
Definition npos : N := (2 ^ 64 - 1)%N.

Section Model.
Context {T : Type}.

(* lines 85-100, 105-118: list<Elems...>, and make_list, which allows for none *)
Definition named (l : list T) : inst (list T) :=
  match l with [] => IllFormed | _ => Type_ l end.
Definition make_list (l : list T) : inst (list T) := Type_ l.

(* the members head and tail *)
Definition head (l : list T) : inst T := match l with [] => IllFormed | h :: _ => Type_ h end.
Definition tail (l : list T) : inst (list T) := match l with [] => IllFormed | _ :: t => Type_ t end.

(* lines 126-139 *)
Fixpoint list_dup (t : T) (n : nat) (elems : list T) : inst (list T) :=
  match n with
  | 0 => make_list elems
  | S n' => list_dup t n' (t :: elems)
  end.

(* lines 144-154 *)
Fixpoint reverse_list (l elems : list T) : inst (list T) :=
  match l with
  | [] => named elems
  | h :: t => reverse_list t (h :: elems)
  end.

(* lines 159-169 *)
Fixpoint list_push_front (x : T) (l elems : list T) : inst (list T) :=
  match l with
  | [] => named (x :: elems)
  | h :: t => list_push_front x t (elems ++ [h])
  end.

(* lines 174-184 *)
Fixpoint list_push_back (l : list T) (x : T) (elems : list T) : inst (list T) :=
  match l with
  | [] => named (elems ++ [x])
  | h :: t => list_push_back t x (elems ++ [h])
  end.

(* lines 189-205: the first list is used up, then the second *)
Fixpoint list_cat_second (l2 elems : list T) : inst (list T) :=
  match l2 with
  | [] => make_list elems
  | h :: t => list_cat_second t (elems ++ [h])
  end.
Fixpoint list_cat (l1 l2 elems : list T) : inst (list T) :=
  match l1 with
  | [] => list_cat_second l2 elems
  | h :: t => list_cat t l2 (elems ++ [h])
  end.

(* lines 210-223 *)
Fixpoint list_at (l : list T) (n : nat) : inst T :=
  match n with
  | 0 => head l
  | S n' => match l with [] => IllFormed | _ :: t => list_at t n' end
  end.

(* lines 228-238 *)
Fixpoint list_to_tuple (l types : list T) : inst (list T) :=
  match l with
  | [] => Type_ types
  | h :: t => list_to_tuple t (types ++ [h])
  end.

(* lines 260-269 *)
Fixpoint list_length (l : list T) : nat :=
  match l with
  | [] => 0
  | _ :: t => 1 + list_length t
  end.

(* lines 275-285 *)
Fixpoint list_split (l : list T) (pos : nat) (elems : list T) : inst (list T * list T) :=
  match pos with
  | 0 => do first <- make_list elems; Type_ (first, l)
  | S pos' => match l with [] => IllFormed | h :: t => list_split t pos' (elems ++ [h]) end
  end.

Section Same.
Variable same : T -> T -> bool.   (* std::is_same *)

(* lines 244-255 *)
Fixpoint list_find (l : list T) (x : T) (idx : N) : N :=
  match l with
  | [] => npos
  | h :: t => if same h x then idx else list_find t x (idx + 1)%N
  end.

(* lines 337-350 *)
Fixpoint list_unique (l elems : list T) : inst (list T) :=
  match l with
  | [] => make_list elems
  | h :: t =>
      do without <- list_unique t elems;
      do with_ <- list_unique t (elems ++ [h]);
      do seen <- make_list elems;
      if negb (list_find seen h 0 =? npos)%N then Type_ without else Type_ with_
  end.
End Same.

Section Less.
Variable less : T -> T -> option bool.

(* lines 290-309 *)
Fixpoint list_merge (l1 : list T) : list T -> inst (list T) :=
  fix second (l2 : list T) : inst (list T) :=
    match l1, l2 with
    | [], [] => IllFormed
    | _, [] => Type_ l1
    | [], _ => Type_ l2
    | h1 :: t1, h2 :: t2 =>
        do a <- list_merge t1 l2;
        do a' <- list_push_front h1 a [];
        do b <- second t2;
        do b' <- list_push_front h2 b [];
        match less h1 h2 with
        | Some true => Type_ a'
        | Some false => Type_ b'
        | None => IllFormed
        end
    end.

(* lines 315-331 *)
Fixpoint list_sort (depth : nat) (l : list T) : inst (list T) :=
  if list_length l <? 2 then Type_ l else
  match depth with
  | 0 => TooDeep
  | S depth' =>
      do (first, second) <- list_split l (list_length l / 2) [];
      do a <- list_sort depth' first;
      do b <- list_sort depth' second;
      list_merge a b
  end.
End Less.
End Model.

(* lines 356-369: the size of a type, None for void *)
Definition type_less_sizeof {T : Type} (sizeof : T -> option N) (x y : T) : option bool :=
  match sizeof x, sizeof y with
  | None, None => None
  | None, Some _ => Some true
  | Some _, None => Some false
  | Some a, Some b => Some (a <? b)%N
  end.

(* variant.h 372: the alternatives are pairwise different *)
Fixpoint same_list {T : Type} (same : T -> T -> bool) (l l' : list T) : bool :=
  match l, l' with
  | [], [] => true
  | x :: t, y :: t' => same x y && same_list same t t'
  | _, _ => false
  end.
Definition alternatives_unique {T : Type} (same : T -> T -> bool) (alts : list T) : inst bool :=
  do u <- list_unique same alts [];
  Type_ (same_list same u alts).
