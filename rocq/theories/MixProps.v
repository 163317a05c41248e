(* C124: programs over filter iterators of both policies, converted into each other. *)
From Coq Require Import List Bool Arith Lia.
From Verif Require Import FiltModel FiltSpec FiltProofs MixModel MixSpec MixProofs.
Import ListNotations.
Set Default Proof Using "Type".

Definition none {X : Type} : nat -> option X := fun _ => None.
Definition on_heap (k : policy) : bool := match k with OnHeap => true | _ => false end.

(* A program that has a meaning does what it means. *)
Theorem C124_program {V} kept (m : list V) os obs : kept <> Plain ->
  story V (on_heap kept) m os none = Some obs -> run V kept m os none = Some obs.
Proof. intros K H. apply (story_run kept m K os none none obs); [intros x; exact I|exact H]. Qed.
Print Assumptions C124_program.

(* With elements kept in place, a program that does not read is undefined exactly if it has no
   meaning: positions and comparisons never depend on the cache. *)
Theorem C124_positions {V} (m : list V) os : (forall x, ~ In (Read x) os) ->
  run V InPlace m os none = story V false m os none.
Proof.
  intros H. apply (story_exact InPlace m ltac:(discriminate) os none none); [intros x; exact I|reflexivity|].
  apply forallb_forall. intros o I. destruct o; try reflexivity. exfalso. exact (H _ I).
Qed.
Print Assumptions C124_positions.
Example C124_positions_ex : run nat InPlace [1; 2; 4] [Make 0 false 0 3 Nat.even; Copy 1 true 0; Copy 2 true 1; Inc 2; Same 1 2 true] none =
  Some [Nothing; Nothing; Nothing; Nothing; Answer false] /\
  run nat InPlace [1; 2; 4] [Make 0 false 0 3 Nat.even; Copy 1 true 0; Dec 1] none = None.
Proof. split; reflexivity. Qed.

(* An iterator converted to a caching one has no element until it is moved: wherever it is,
   reading it is undefined, and so is copying it if the element is to be kept on the heap. *)
Theorem C124_blank {V} kept (m : list V) w x y i : kept <> Plain -> w y = Some (i, false) ->
  run V kept m [Copy x true y; Read x] w = None /\
  (forall z, z <> x -> kept = OnHeap -> run V kept m [Copy x true y; Copy z true x] w = None).
Proof.
  intros K W. split.
  - cbn [run exec]. unfold with1, convert. rewrite W. cbn [Bool.eqb]. rewrite andb_false_r. cbn [option_map].
    unfold set at 1. rewrite Nat.eqb_refl. cbn [pol]. unfold read. destruct kept; [congruence| |]; reflexivity.
  - intros z N ->. cbn [run exec]. unfold with1, convert. rewrite W. cbn [Bool.eqb]. rewrite andb_false_r. cbn [option_map].
    unfold set at 1. rewrite Nat.eqb_refl. cbn [Bool.eqb]. apply Nat.eqb_neq in N. rewrite N. reflexivity.
Qed.
Print Assumptions C124_blank.

(* Assigning a temporary that does not cache to a caching iterator moves it but leaves it the
   element it had: it goes on to read that one, wherever it is now. *)
Theorem C124_take {V} kept (m : list V) w x y i j v : kept <> Plain -> w x = Some (i, true) -> w y = Some (j, false) ->
  run V kept m [Read x] w = Some [Value v] <-> run V kept m [Take x y; Read x] w = Some [Nothing; Value v].
Proof.
  intros K X Y. cbn [run exec]. unfold with1. rewrite X, Y. cbn [Bool.eqb option_map].
  unfold set at 1. rewrite Nat.eqb_refl. cbn [pol]. unfold read. destruct kept; [congruence| |]; cbn [cached];
    (destruct (cached i) as [u|]; cbn [option_map]; split; intros H; try discriminate; injection H as ->; reflexivity).
Qed.
Print Assumptions C124_take.

(* So a converted iterator does not always read what its source reads. *)
Theorem C124_read_refuted : exists (m : list nat) p, forall kept, kept <> Plain ->
  run nat kept m [Make 0 false 0 3 p; Read 0] none = Some [Nothing; Value 2] /\
  run nat kept m [Make 0 false 0 3 p; Copy 1 true 0; Read 1] none = None /\
  run nat kept m [Make 0 false 0 3 p; Copy 1 true 0; Inc 1; Read 1] none = Some [Nothing; Nothing; Nothing; Value 4].
Proof. exists [1; 2; 4], Nat.even. intros kept K. destruct kept; [congruence| |]; vm_compute; auto. Qed.
Print Assumptions C124_read_refuted.

(* So after an assignment an iterator may equal its source and read another element, even one
   that the predicate rejects. *)
Theorem C124_assign_refuted : exists (m : list nat) p q, forall kept, kept <> Plain ->
  run nat kept m [Make 0 true 0 3 p; Make 1 false 0 3 q; Take 0 1; Read 0; Copy 2 false 0; Same 2 1 false; Read 1] none =
    Some [Nothing; Nothing; Nothing; Value 2; Nothing; Answer true; Value 1] /\ q 2 = false.
Proof. exists [1; 2; 4], Nat.even, Nat.odd. intros kept K. destruct kept; [congruence| |]; vm_compute; auto. Qed.
Print Assumptions C124_assign_refuted.

(* Conversions there and back, kept in place and on the heap. *)
Example C124_ex : let os := [Make 0 true 0 5 Nat.even; Read 0; Copy 1 false 0; Read 1; Inc 1; Read 1; Copy 2 true 1; Same 2 0 true;
                             Dec 2; Same 2 0 true; Read 2; Copy 3 true 2; PostInc 4 3; Read 4; Read 3; Copy 3 false 3; Read 3; Same 3 1 false;
                             Take 2 1; Dec 2; Read 2; Take 1 2; Read 1;
                             Swap 0 2; Move 4 0; Read 4; Swap 3 1; Read 3; Read 1] in
  let obs := [Nothing; Value 2; Nothing; Value 2; Nothing; Value 4; Nothing; Answer false;
              Nothing; Answer true; Value 2; Nothing; Nothing; Value 2; Value 4; Nothing; Value 4; Answer true;
              Nothing; Nothing; Value 2; Nothing; Value 2;
              Nothing; Nothing; Value 2; Nothing; Value 2; Value 4] in
  forall kept, kept <> Plain ->
  story nat (on_heap kept) [1; 2; 3; 4; 5] os none = Some obs /\ run nat kept [1; 2; 3; 4; 5] os none = Some obs.
Proof. intros os obs kept K. destruct kept; [congruence| |]; vm_compute; auto. Qed.
Example C124_blank_ex : exists i, exec nat OnHeap [2] (Make 0 false 0 1 Nat.even) none = Some (Nothing, set nat none 0 (i, false)) /\
  run nat OnHeap [2] [Copy 1 true 0; Read 1] (set nat none 0 (i, false)) = None.
Proof. eexists. split; reflexivity. Qed.
Example C124_take_ex : exists i j, exec nat InPlace [1; 2] (Make 0 true 0 2 Nat.even) none = Some (Nothing, set nat none 0 (i, true)) /\
  exec nat InPlace [1; 2] (Make 1 false 0 2 Nat.odd) none = Some (Nothing, set nat none 1 (j, false)) /\
  run nat InPlace [1; 2] [Take 0 1; Read 0] (set nat (set nat none 0 (i, true)) 1 (j, false)) = Some [Nothing; Value 2].
Proof. eexists. eexists. split; [reflexivity|]. split; [reflexivity|]. reflexivity. Qed.
