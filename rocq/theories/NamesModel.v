(* Model of /repo/modules/actors/yato/actors/private/name_generator.h:21-48.
   std::map<string,size_t> is an association list; the counter is a 64-bit
   size_t and wraps; yato::stl::to_string is std::to_string, decimal digits. *)
From Coq Require Import String DecimalString List Bool NArith.
Import ListNotations.

Definition size_max1 : N := N.pow 2 64.
Definition to_string (n : N) : string := NilEmpty.string_of_uint (N.to_uint n).

Definition state := list (string * N).       (* m_prefixes, 23 *)

Fixpoint lookup (s : state) (p : string) : option N :=
  match s with
  | [] => None
  | (q, n) :: t => if String.eqb q p then Some n else lookup t p
  end.
Fixpoint store (s : state) (p : string) (n : N) : state :=
  match s with
  | [] => [(p, n)]
  | (q, m) :: t => if String.eqb q p then (q, n) :: t else (q, m) :: store t p n
  end.
(* 38-45 *)
Definition next_indexed (s : state) (prefix : string) : state * string :=
  let c := match lookup s prefix with None => 0%N | Some n => n end in
  (store s prefix (N.modulo (c + 1) size_max1), (prefix ++ to_string c)%string).

Fixpoint generate (s : state) (calls : list string) : list string :=
  match calls with
  | [] => []
  | p :: t => let '(s', n) := next_indexed s p in n :: generate s' t
  end.

(* ---- specification ---- *)
Definition is_digit (c : Ascii.ascii) : bool :=
  let n := Ascii.N_of_ascii c in andb (N.leb 48 n) (N.leb n 57).
Fixpoint all_digits (s : string) : bool :=
  match s with
  | EmptyString => true
  | String c t => andb (is_digit c) (all_digits t)
  end.
(* q = p followed by at least one digit *)
Definition extends_by_digits (p q : string) : Prop :=
  exists d, q = (p ++ d)%string /\ d <> EmptyString /\ all_digits d = true.
(* how often p was used *)
Definition occ (p : string) (l : list string) : nat := List.length (filter (String.eqb p) l).
