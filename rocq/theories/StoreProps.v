(* The properties of storage. *)
From Coq Require Import List Bool Arith Lia.
From Verif Require Import LifeModel AnyModel StoreModel StoreSpec StoreProofs.
Import ListNotations.

(* In place, whenever copying an object throws: as long as storages without
   object are only given one, no operation is undefined; each has exactly its
   effect, or throws with the effect given for that; every object is in a storage
   and destroyed exactly once. *)
Theorem C27_storage_in_place (V : Type) :
  exists Rel : world V unit -> state V -> Prop,
    (forall oracle, Rel (start oracle) nothing) /\
    (forall (w : world V unit) (st : state V) (o : op V), Rel w st -> stack_legal o st ->
       exists w' st', stack_step o st w w' st' /\ Rel w' st') /\
    (forall (w : world V unit) (st : state V), Rel w st -> stack_seen w st /\ stack_balanced w st).
Proof. exact stack_simulation. Qed.
Print Assumptions C27_storage_in_place.

(* the fourth copy throws: the second storage has lost its object *)
Example C27_storage_in_place_example :
  exists w1 w2,
    stack_run [NewValue 0 5; NewValue 1 6; NewMove 2 0; Swap 0 1] (start [false; false; false; false; false; false]) = Some w1 /\
    stack_get 0 w1 = Done 6 w1 /\ stack_get 1 w1 = Done 5 w1 /\ stack_get 2 w1 = Done 5 w1 /\
    stack_run [NewValue 0 5; NewValue 1 6; NewMove 2 0; Swap 0 1] (start [false; false; false; false; false; true]) = Some w2 /\
    stack_get 0 w2 = Done 6 w2 /\ stack_get 1 w2 = Undef /\ built w2 = 5 /\ ended w2 = 3.
Proof.
  eexists. eexists. split; [vm_compute; reflexivity|]. do 3 (split; [vm_compute; reflexivity|]).
  split; [vm_compute; reflexivity|]. vm_compute. repeat split.
Qed.

(* On the heap, whenever allocating or copying throws: as long as storages
   without object are not copied, no operation is undefined; each has its effect,
   or throws and has none; every object has one owner and is freed once. *)
Theorem C27_storage_on_heap (V : Type) :
  exists Rel : aworld V -> state V -> Prop,
    (forall oracle, Rel (astart oracle) nothing) /\
    (forall (w : aworld V) (st : state V) (o : op V), Rel w st -> heap_legal o st ->
       exists w' st', heap_step o st w w' st' /\ Rel w' st') /\
    (forall (w : aworld V) (st : state V), Rel w st -> heap_seen w st /\ heap_balanced w st).
Proof. exact heap_simulation. Qed.
Print Assumptions C27_storage_on_heap.

Example C27_storage_on_heap_example :
  exists w,
    heap_run [NewValue 0 5; NewCopy 1 0; Write 1 6; New 2; AssignMove 2 0; Swap 0 1; Assign 1 2; Delete 2] (astart []) = Some w /\
    heap_get 0 w = Done (Some (Plain 0 6)) w /\ heap_get 1 w = Done (Some (Plain 0 5)) w /\ anys w 2 = None /\
    allocs w = 3 /\ frees w = 1.
Proof. eexists. split; [vm_compute; reflexivity|]. vm_compute. repeat split. Qed.

(* A default-constructed storage in place cannot be destroyed. *)
Theorem C27_storage_default_refuted (V : Type) (i : nat) :
  exists w : world V unit, stack_run [New i] (start []) = Some w /\ stack_exec (Delete i) w = Undef.
Proof.
  eexists. split; [reflexivity|]. cbn. unfold bind, fields, destroy. cbn. unfold upd. rewrite Nat.eqb_refl. reflexivity.
Qed.
Print Assumptions C27_storage_default_refuted.

Example C27_storage_default_refuted_example :
  stack_run [New 4; Delete 4] (@start nat unit []) = None /\ heap_run [New 4; Delete 4] (@astart nat []) <> None.
Proof. vm_compute. split; [reflexivity|discriminate]. Qed.

(* After an assignment in place that throws, the storage cannot be destroyed. *)
Theorem C27_storage_failed_assignment_refuted :
  exists w w' : world nat unit, stack_run [NewValue 0 5; NewValue 1 6] (start [false; false; true]) = Some w /\
    stack_exec (Assign 0 1) w = Threw w' /\ stack_exec (Delete 0) w' = Undef.
Proof.
  eexists. eexists. split; [vm_compute; reflexivity|]. split; [vm_compute; reflexivity|]. vm_compute. reflexivity.
Qed.
Print Assumptions C27_storage_failed_assignment_refuted.

(* Copying a storage on the heap that has been moved from is undefined. *)
Theorem C27_storage_copy_of_moved_refuted :
  exists w : aworld nat, heap_run [NewValue 0 5; NewMove 1 0] (astart []) = Some w /\ heap_exec (NewCopy 2 0) w = Undef.
Proof. eexists. split; [vm_compute; reflexivity|]. vm_compute. reflexivity. Qed.
Print Assumptions C27_storage_copy_of_moved_refuted.
