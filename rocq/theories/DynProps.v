(* The properties of dynamic_array. *)
From Coq Require Import List Bool Arith Lia.
From Verif Require Import LifeModel DynModel DynSpec DynProofs.
Import ListNotations.

(* Whatever a program does with its arrays, wherever an allocation or an element
   constructor throws: as long as no array that lost elements in a failed
   assignment is destroyed, and no list is assigned, no operation is undefined;
   each has exactly its effect, or throws with the effect given for that; size,
   empty, get_allocator, at, operator[], front and back answer accordingly; the
   objects alive are the elements of the arrays and those abandoned by move
   assignments and by constructors that threw. *)
Theorem C27_array_simulation (V : Type) (zero : V) (std_alloc : nat) (propagates_move propagates_swap : bool) :
  exists Rel : dworld V -> state V -> Prop,
    (forall oracle, Rel (dstart oracle) nothing) /\
    (forall (w : dworld V) (st : state V) (o : op V), Rel w st -> legal propagates_swap o st ->
       exists w' st', step zero std_alloc propagates_move propagates_swap o st w w' st' /\ Rel w' st') /\
    (forall (w : dworld V) (st : state V), Rel w st -> seen w st /\ balanced w st).
Proof. exact (simulation zero std_alloc propagates_move propagates_swap). Qed.
Print Assumptions C27_array_simulation.

Notation exec0 := (exec 0 0 false true).
Notation run0 := (run 0 0 false true).

(* a move refused because the allocators differ *)
Example C27_array_simulation_example :
  exists w1 w2,
    run0 [NewList 0 [5; 6; 7] 0; NewValue 1 2 9 3] (dstart []) = Some w1 /\
    exec0 (AssignMove 0 1) w1 = Threw w2 /\ index 0 2 w2 = Done 7 w2 /\ back 1 w2 = Done 9 w2 /\
    at_ 0 3 w2 = Threw w2 /\ made w2 = 5 /\ unmade w2 = 0.
Proof.
  eexists. eexists. split; [vm_compute; reflexivity|]. split; [vm_compute; reflexivity|]. vm_compute. repeat split.
Qed.

(* If nothing throws: after every history the arrays are what the history says. *)
Theorem C27_array_histories (V : Type) (zero : V) (std_alloc : nat) (propagates_move propagates_swap : bool)
    (l : list (op V)) (st : state V) :
  follows zero std_alloc propagates_move propagates_swap l nothing st ->
  exists w, run zero std_alloc propagates_move propagates_swap l (dstart []) = Some w /\ seen w st /\ balanced w st.
Proof. exact (histories zero std_alloc propagates_move propagates_swap l st). Qed.
Print Assumptions C27_array_histories.

Definition c27_history : list (op nat) :=
  [NewList 0 [5; 6; 7] 0; NewSize 1 2 0; NewMove 2 0; Write 2 1 8; Swap 1 2; Assign 0 1 4; Resize 2 0; New 3 0; AssignMove 3 1;
   Clear 0; Delete 2].

Ltac walk :=
  lazymatch goal with
  | |- follows _ _ _ _ [] _ _ => apply follows_nil
  | |- _ => apply follows_done
  end.

Lemma c27_follows : exists st, follows 0 0 false true c27_history nothing st.
Proof.
  eexists. unfold c27_history.
  repeat walk; cbn; unfold whole; cbn; try tauto;
    try solve [split; congruence|eexists; split; [reflexivity|cbn; reflexivity]|repeat split; congruence
              |eexists; eexists; split; [reflexivity|]; split; [reflexivity|]; cbn; lia
              |intros [_ [b [B C]]]; injection B as <-; apply C; reflexivity|eexists; split; [reflexivity|exact I]
              |intros [_ [_ [a [b [A [B C]]]]]]; injection A as <-; injection B as <-; apply C; reflexivity].
Qed.

Example C27_array_histories_example :
  (exists st, follows 0 0 false true c27_history nothing st) /\
  exists w, run0 c27_history (dstart []) = Some w /\
    size 3 w = Done 3 w /\ index 3 1 w = Done 8 w /\ size 0 w = Done 0 w /\ arrays w 2 = None /\
    made w = 6 /\ unmade w = 3 /\ obtained w = 4 /\ returned w = 3.
Proof.
  split; [exact c27_follows|]. eexists. split; [vm_compute; reflexivity|]. vm_compute. repeat split.
Qed.

(* If moreover no array is assigned by move and all arrays are gone at the end:
   every element was destroyed exactly once and all memory returned. *)
Theorem C27_array_all_destroyed (V : Type) (zero : V) (std_alloc : nat) (propagates_move propagates_swap : bool)
    (l : list (op V)) (st : state V) :
  follows zero std_alloc propagates_move propagates_swap l nothing st ->
  (forall i j, ~ In (AssignMove i j) l) -> (forall i, var st i = None) ->
  exists w, run zero std_alloc propagates_move propagates_swap l (dstart []) = Some w /\
    made w = unmade w /\ obtained w = returned w.
Proof.
  intros F N G. destruct (histories zero std_alloc propagates_move propagates_swap l st F) as [w [A [_ [_ B]]]].
  exists w. split; [assumption|]. specialize (B 0 (fun i _ => G i)). cbn [total] in B.
  assert (S : stray st = []).
  { assert (Q : stray (@nothing V) = []) by reflexivity. revert F Q N. generalize (@nothing V). clear. intros s F.
    induction F as [s|o l s s' L M _ IH|o l s s' L M _ IH]; intros Q N; [assumption| |].
    - apply IH; [|intros i j K; apply (N i j); right; assumption].
      destruct o; cbn in *; try assumption;
        repeat match goal with |- context [match ?x with _ => _ end] => destruct x; cbn; try assumption end.
      exfalso. apply (N i j). left. reflexivity.
    - apply IH; [assumption|intros i j K; apply (N i j); right; assumption]. }
  rewrite S in B. cbn in B. lia.
Qed.
Print Assumptions C27_array_all_destroyed.

Example C27_array_all_destroyed_example :
  exists st, follows 0 0 false true [NewList 0 [5; 6] 0; NewMove 1 0; Resize 1 3; Delete 0; Delete 1] nothing st /\
    (forall i, var st i = None).
Proof.
  eexists. split.
  - repeat walk; cbn; unfold whole; cbn; try tauto;
      try solve [split; congruence|eexists; split; [reflexivity|cbn; reflexivity]
                |intros [_ [b [B C]]]; injection B as <-; apply C; reflexivity|eexists; split; [reflexivity|exact I]].
  - intros i. cbn. destruct i as [|[|i]]; reflexivity.
Qed.

(* Move assignment abandons the elements and the memory of the target. *)
Theorem C27_array_move_assignment_leaks_refuted :
  exists w, run0 [NewValue 0 2 5 0; NewValue 1 3 6 0; AssignMove 0 1; Delete 0; Delete 1] (dstart []) = Some w /\
    arrays w 0 = None /\ arrays w 1 = None /\ made w = 5 /\ unmade w = 3 /\ obtained w = 2 /\ returned w = 1.
Proof. eexists. split; [vm_compute; reflexivity|]. vm_compute. repeat split. Qed.
Print Assumptions C27_array_move_assignment_leaks_refuted.

(* A constructor that throws at its second element leaks the first one. *)
Theorem C27_array_constructor_leaks_refuted :
  exists w, exec0 (NewValue 0 2 5 0) (dstart [false; false; true]) = Threw w /\
    arrays w 0 = None /\ made w = 1 /\ unmade w = 0 /\ obtained w = 1 /\ returned w = 0.
Proof. eexists. split; [vm_compute; reflexivity|]. vm_compute. repeat split. Qed.
Print Assumptions C27_array_constructor_leaks_refuted.

(* After an assign that throws at its second element, destroying the array is
   undefined: elements never built are destroyed. *)
Theorem C27_array_failed_assign_refuted :
  exists w w', run0 [NewValue 0 2 5 0] (dstart [false; false; false; false; false; true]) = Some w /\
    exec0 (Assign 0 2 6) w = Threw w' /\ exec0 (Delete 0) w' = Undef.
Proof.
  eexists. eexists. split; [vm_compute; reflexivity|]. split; [vm_compute; reflexivity|]. vm_compute. reflexivity.
Qed.
Print Assumptions C27_array_failed_assign_refuted.

(* After a resize whose allocation fails the array reports the new size, but
   reading an element in range is undefined. *)
Theorem C27_array_failed_resize_refuted :
  exists w w', run0 [NewValue 0 2 5 0] (dstart [false; false; false; true]) = Some w /\
    exec0 (Resize 0 3) w = Threw w' /\ size 0 w' = Done 3 w' /\ at_ 0 1 w' = Undef.
Proof.
  eexists. eexists. split; [vm_compute; reflexivity|]. split; [vm_compute; reflexivity|]. vm_compute. repeat split.
Qed.
Print Assumptions C27_array_failed_resize_refuted.

(* Assigning a list never returns: the function has no return statement. *)
Theorem C27_array_assign_list_refuted (V : Type) (zero : V) (std_alloc : nat) (pm ps : bool) (i : nat) (l : list V) (w w' : dworld V) :
  exec zero std_alloc pm ps (AssignList i l) w <> Done tt w'.
Proof.
  cbn [exec]. unfold dbind. destruct (destroy_all i w) as [[] w1|w1|]; try discriminate.
  destruct (allocate i (length l) w1) as [[] w2|w2|]; try discriminate.
  destruct (construct_all i l w2) as [[] w3|w3|]; discriminate.
Qed.
Print Assumptions C27_array_assign_list_refuted.

Example C27_array_assign_list_refuted_example :
  exists w, run0 [NewValue 0 2 5 0] (dstart []) = Some w /\ exec0 (AssignList 0 [1; 2; 3]) w = Undef.
Proof. eexists. split; [vm_compute; reflexivity|]. vm_compute. reflexivity. Qed.

(* Assigning copies of one of the array's own elements reads a destroyed one. *)
Theorem C27_array_assign_own_element_refuted :
  exists w, run0 [NewValue 0 2 5 0] (dstart []) = Some w /\ index 0 1 w = Done 5 w /\ exec0 (AssignOwn 0 3 1) w = Undef.
Proof. eexists. split; [vm_compute; reflexivity|]. vm_compute. repeat split. Qed.
Print Assumptions C27_array_assign_own_element_refuted.
