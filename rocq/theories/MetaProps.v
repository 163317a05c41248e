(* C58: lists of types. *)
From Coq Require Import List Bool Arith NArith Lia Permutation Sorted.
From Verif Require Import MetaModel MetaSpec MetaProofs.
Import ListNotations.

(* Pushing, joining, repeating, measuring and turning a list into a tuple are
   always well formed and do what they say. *)
Theorem C58_lists_of_types : forall (T : Type) (x : T) (l l' : list T) n,
  list_push_front x l [] = Type_ (x :: l) /\
  list_push_back l x [] = Type_ (l ++ [x]) /\
  list_cat l l' [] = Type_ (l ++ l') /\
  list_dup x n [] = Type_ (repeat x n) /\
  list_to_tuple l [] = Type_ l /\
  list_length l = length l.
Proof.
  intros T x l l' n. rewrite push_front_ok, push_back_ok, cat_ok, dup_ok, to_tuple_ok, length_ok, app_nil_r.
  repeat split; reflexivity.
Qed.
Print Assumptions C58_lists_of_types.

Example C58_lists_of_types_example :
  list_cat [1; 2] [3] [] = Type_ [1; 2; 3] /\ list_dup 7 3 [] = Type_ [7; 7; 7] /\ list_push_back [1; 2] 3 [] = Type_ [1; 2; 3].
Proof. repeat split. Qed.

(* Taking an element and splitting are well formed exactly within the list. *)
Theorem C58_at_and_split : forall (T : Type) (l : list T) n,
  (forall x, nth_error l n = Some x -> list_at l n = Type_ x) /\
  (length l <= n -> list_at l n = IllFormed) /\
  (forall l1 l2, l = l1 ++ l2 -> list_split l (length l1) [] = Type_ (l1, l2)) /\
  (length l < n -> list_split l n [] = IllFormed).
Proof.
  intros T l n. split; [intros x E; rewrite at_ok, E; reflexivity|]. split.
  { intros L. rewrite at_ok. apply nth_error_None in L. rewrite L. reflexivity. }
  split.
  - intros l1 l2 ->. rewrite split_ok, app_length. destruct (Nat.leb_spec (length l1) (length l1 + length l2)); [|lia].
    rewrite firstn_app, firstn_all, Nat.sub_diag, skipn_app, skipn_all, Nat.sub_diag. cbn [firstn skipn app]. rewrite app_nil_r. reflexivity.
  - intros L. rewrite split_ok. destruct (Nat.leb_spec n (length l)); [lia|reflexivity].
Qed.
Print Assumptions C58_at_and_split.

Example C58_at_and_split_example :
  list_at [10; 20; 30] 2 = Type_ 30 /\ list_at [10; 20; 30] 3 = IllFormed /\ list_split [1; 2; 3] 3 [] = Type_ ([1; 2; 3], []) /\
  list_split [1; 2; 3] 4 [] = IllFormed.
Proof. repeat split. Qed.

(* Reversing works for every list but the empty one. *)
Theorem C58_reverse : forall (T : Type) (l : list T), l <> [] -> reverse_list l [] = Type_ (rev l).
Proof.
  intros T l N. rewrite reverse_ok, app_nil_r. destruct (rev l) eqn:E; [|reflexivity].
  destruct N. rewrite <- (rev_involutive l), E. reflexivity.
Qed.
Print Assumptions C58_reverse.

Example C58_reverse_example : reverse_list [1; 2; 3] [] = Type_ [3; 2; 1].
Proof. reflexivity. Qed.

Theorem C58_reverse_empty_refuted : exists T : Type, reverse_list (@nil T) [] = IllFormed.
Proof. exists nat. reflexivity. Qed.
Print Assumptions C58_reverse_empty_refuted.

(* Searching finds the first place, or list_npos if there is none. *)
Theorem C58_find : forall (T : Type) (same : T -> T -> bool) (l : list T) x,
  (forall a b, same a b = true <-> a = b) -> (N.of_nat (length l) <= npos)%N ->
  (In x l -> exists l1 l2, l = l1 ++ x :: l2 /\ ~ In x l1 /\ list_find same l x 0 = N.of_nat (length l1)) /\
  (list_find same l x 0 = npos <-> ~ In x l).
Proof.
  intros T same l x SS L. split; [|apply find_npos; assumption].
  intros I. destruct (in_split_first same SS l x I) as (l1 & l2 & -> & N). exists l1, l2. split; [reflexivity|]. split; [assumption|].
  rewrite find_some by assumption. lia.
Qed.
Print Assumptions C58_find.

Example C58_find_example : list_find Nat.eqb [4; 7; 5; 7] 7 0 = 1%N /\ list_find Nat.eqb [4; 7] 5 0 = npos.
Proof. split; reflexivity. Qed.

(* list_unique keeps the first occurrence of every type; so the check of variant
   that its alternatives differ accepts exactly the lists without duplicates. *)
Theorem C58_unique : forall (T : Type) (same : T -> T -> bool) (l : list T),
  (forall a b, same a b = true <-> a = b) -> (N.of_nat (length l) <= npos)%N ->
  list_unique same l [] = Type_ (first_occurrences same l) /\
  NoDup (first_occurrences same l) /\
  (forall x, In x (first_occurrences same l) <-> In x l) /\
  exists b, alternatives_unique same l = Type_ b /\ (b = true <-> NoDup l).
Proof.
  intros T same l SS L. split; [rewrite unique_ok by assumption; rewrite firsts_all by assumption; reflexivity|].
  split; [rewrite <- firsts_all by assumption; apply firsts_nodup; assumption|].
  split; [|apply alternatives_ok; assumption].
  intros x. rewrite <- firsts_all by assumption. rewrite firsts_in by assumption. cbn. tauto.
Qed.
Print Assumptions C58_unique.

Example C58_unique_example :
  list_unique Nat.eqb [3; 1; 3; 2; 1] [] = Type_ [3; 1; 2] /\ alternatives_unique Nat.eqb [3; 1; 3] = Type_ false /\
  alternatives_unique Nat.eqb [3; 1; 2] = Type_ true.
Proof. repeat split. Qed.

(* Sorting: it is well formed exactly when every element can be compared to every
   later one, never needs more nesting than there are elements, and gives a
   permutation that is sorted if the comparison is a weak order. *)
Theorem C58_sort : forall (T : Type) (less : T -> T -> option bool) (l : list T),
  (ForallOrdPairs (fun x y => less x y <> None) l <-> exists l', list_sort less (length l) l = Type_ l') /\
  (forall l', list_sort less (length l) l = Type_ l' ->
     Permutation l' l /\
     (weak_order less l -> StronglySorted (fun x y => less y x <> Some true) l')).
Proof.
  intros T less l. split; [split|].
  - intros D. destruct (sort_ok less (length l) l) as (l' & E & _); [lia|assumption|]. exists l'. exact E.
  - intros [l' E]. apply (sort_defined less (length l) l l'); [lia|assumption].
  - intros l' E. destruct (sort_defined less (length l) l l') as [D P]; [lia|assumption|].
    destruct (sort_ok less (length l) l) as (l'' & E' & _ & S); [lia|assumption|]. rewrite E in E'. injection E' as <-.
    split; assumption.
Qed.
Print Assumptions C58_sort.

(* sizeof as an order: void has no size and is before everything *)
Theorem C58_sort_by_size : forall (T : Type) (sizeof : T -> option N) (l : list T),
  weak_order (type_less_sizeof sizeof) l /\
  (ForallOrdPairs (fun x y => sizeof x <> None \/ sizeof y <> None) l ->
   exists l', list_sort (type_less_sizeof sizeof) (length l) l = Type_ l' /\ Permutation l' l /\
     StronglySorted (fun x y => match sizeof x, sizeof y with
                                | Some a, Some b => (a <= b)%N | Some _, None => False | None, _ => True end) l').
Proof.
  intros T sizeof l. split; [apply sizeof_order|]. intros D.
  assert (D' : ForallOrdPairs (fun x y => type_less_sizeof sizeof x y <> None) l).
  { clear - D. induction D as [|a l F D IH]; constructor; [|exact IH]. apply Forall_forall. intros y Y. rewrite Forall_forall in F.
    specialize (F y Y). unfold type_less_sizeof. destruct (sizeof a), (sizeof y); try discriminate. destruct F; congruence. }
  destruct (sort_ok (type_less_sizeof sizeof) (length l) l) as (l' & E & P & S); [lia|assumption|].
  exists l'. split; [exact E|]. split; [exact P|]. specialize (S (sizeof_order sizeof l)).
  clear - S. induction S as [|a l S IH F]; constructor; [exact IH|]. apply Forall_forall. intros y Y. rewrite Forall_forall in F.
  specialize (F y Y). unfold type_less_sizeof in F. destruct (sizeof a) as [n|], (sizeof y) as [m|]; [|congruence|exact I|exact I].
  destruct (N.ltb_spec m n); [congruence|assumption].
Qed.
Print Assumptions C58_sort_by_size.

(* Types: number k is void if 0, else has k / 10 bytes. *)
Definition example_size (k : nat) : option N := match k with 0 => None | _ => Some (N.of_nat (k / 10)) end.

Example C58_sort_example :
  list_sort (type_less_sizeof example_size) 5 [81; 11; 0; 41; 21] = Type_ [0; 11; 21; 41; 81].
Proof. reflexivity. Qed.

(* The order by size of a list with two types without a size does not compile *)
Theorem C58_sort_two_voids_refuted : exists (sizeof : nat -> option N) l,
  list_sort (type_less_sizeof sizeof) (length l) l = IllFormed.
Proof. exists example_size, [0; 0]. reflexivity. Qed.
Print Assumptions C58_sort_two_voids_refuted.

(* and the order of types of equal size is not kept. *)
Theorem C58_sort_stable_refuted : exists (sizeof : nat -> option N) x y,
  x <> y /\ sizeof x = sizeof y /\ list_sort (type_less_sizeof sizeof) 2 [x; y] = Type_ [y; x].
Proof. exists example_size, 41, 42. split; [lia|]. split; reflexivity. Qed.
Print Assumptions C58_sort_stable_refuted.

(* Merging two lists needs one that is not empty. *)
Theorem C58_merge : forall (T : Type) (less : T -> T -> option bool) (l1 l2 : list T),
  l1 <> [] \/ l2 <> [] -> (forall x y, In x l1 -> In y l2 -> less x y <> None) ->
  exists l, list_merge less l1 l2 = Type_ l /\ Permutation l (l1 ++ l2) /\
    (StronglySorted (fun x y => less y x <> Some true) l1 -> StronglySorted (fun x y => less y x <> Some true) l2 ->
     weak_order less (l1 ++ l2) -> StronglySorted (fun x y => less y x <> Some true) l).
Proof.
  intros T less l1 l2 N D. destruct (merge_ok less l1 l2 N D) as (l & E & P & S). exists l. split; [exact E|]. split; [exact P|].
  intros S1 S2 [W1 W2]. apply S; assumption.
Qed.
Print Assumptions C58_merge.

Example C58_merge_example : list_merge (type_less_sizeof example_size) [10; 30; 50] [20; 40] = Type_ [10; 20; 30; 40; 50].
Proof. reflexivity. Qed.

Theorem C58_merge_empty_refuted : exists less : nat -> nat -> option bool, list_merge less [] [] = IllFormed.
Proof. exists (fun _ _ => Some true). reflexivity. Qed.
Print Assumptions C58_merge_empty_refuted.
