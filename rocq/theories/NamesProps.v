(* Property theorems for generated names: C50. *)
From Coq Require Import String List Bool NArith Arith.
From Verif Require Import NamesModel NamesProofs.
Import ListNotations.
Open Scope string_scope.

(* C50: names generated with one prefix are pairwise distinct as long as the
   prefix is used at most 2^64 times. *)
Theorem C50_same_prefix_distinct :
  forall (calls : list string) (i j : nat) (p n : string),
    i < j -> nth_error calls i = Some p -> nth_error calls j = Some p ->
    (N.of_nat (occ p calls) <= size_max1)%N ->
    nth_error (generate [] calls) i = Some n -> nth_error (generate [] calls) j <> Some n.
Proof. exact distinct. Qed.
Print Assumptions C50_same_prefix_distinct.
Example C50_example :
  generate [] ["ask"; "find"; "ask"; "ask"; "find"; "ask"; "ask"; "ask"; "ask"; "ask"; "ask"; "ask"; "ask"]
  = ["ask0"; "find0"; "ask1"; "ask2"; "find1"; "ask3"; "ask4"; "ask5"; "ask6"; "ask7"; "ask8"; "ask9"; "ask10"].
Proof. reflexivity. Qed.

(* C50: names of different prefixes coincide only if one prefix is the other
   followed by digits. *)
Theorem C50_collision_needs_digit_extension :
  forall (calls : list string) (i j : nat) (p q n : string),
    nth_error calls i = Some p -> nth_error calls j = Some q -> p <> q ->
    nth_error (generate [] calls) i = Some n -> nth_error (generate [] calls) j = Some n ->
    extends_by_digits p q \/ extends_by_digits q p.
Proof. exact collide. Qed.
Print Assumptions C50_collision_needs_digit_extension.
Example C50_collision_example :
  generate [] ["a"; "a"; "a1"; "a"; "a"; "a"; "a"; "a"; "a"; "a"; "a"; "a"] =
  ["a0"; "a1"; "a10"; "a2"; "a3"; "a4"; "a5"; "a6"; "a7"; "a8"; "a9"; "a10"].
Proof. reflexivity. Qed.

(* C50: "for every number of calls" fails after 2^64 calls: the counter wraps. *)
Theorem C50_counter_wraps_refuted :
  exists (calls : list string) (i j : nat) (p n : string),
    i < j /\ nth_error calls i = Some p /\ nth_error calls j = Some p /\
    nth_error (generate [] calls) i = Some n /\ nth_error (generate [] calls) j = Some n.
Proof. exact wrap_witness. Qed.
Print Assumptions C50_counter_wraps_refuted.
