(* The properties of optional. *)
From Coq Require Import List Bool Arith Lia.
From Verif Require Import LifeModel OptModel OptSpec OptProofs.
Import ListNotations.

(* Whatever a program does with its optionals and whenever an operation of the
   element type throws: no operation is undefined; each has exactly its effect,
   or throws with the effect given for that; what get, get_or and exists answer
   is what was last stored; and the objects alive are exactly the values of the
   full optionals. *)
Theorem C21_simulation (V : Type) (husk : V -> V) :
  exists Rel : world V bool -> state V -> Prop,
    (forall oracle, Rel (start oracle) nothing) /\
    (forall w st o, Rel w st -> legal o st -> exists w' st', step husk o st (exec husk o w) st' w' /\ Rel w' st') /\
    (forall w st, Rel w st -> seen w st /\ balanced w st).
Proof. exact (simulation husk). Qed.
Print Assumptions C21_simulation.


Example C21_simulation_example :
  exists w1 w2, run S [NewValue 0 5; NewCopy 1 0; New 2] (start [false; false; true; true]) = Some w1 /\
    legal (CopyAssign 1 0) (effects S [NewValue 0 5; NewCopy 1 0; New 2] nothing) /\
    exec S (CopyAssign 1 0) w1 = Threw w2 /\ get 1 w2 = Done 5 w2 /\
    (exists w3, exec S (Emplace 1 7) w2 = Threw w3 /\ get 1 w3 = Threw w3 /\ built w3 = 2 /\ ended w3 = 1).
Proof.
  eexists. eexists. split; [vm_compute; reflexivity|]. split.
  - split; vm_compute; discriminate.
  - split; [vm_compute; reflexivity|]. split; [vm_compute; reflexivity|].
    eexists. split; [vm_compute; reflexivity|]. vm_compute. repeat split.
Qed.

(* If no element operation throws: after every history of legal operations the
   optionals hold what the history says. *)
Theorem C21_histories (V : Type) (husk : V -> V) (l : list (op V)) :
  all_legal husk l nothing ->
  exists w, run husk l (start []) = Some w /\ seen w (effects husk l nothing) /\ balanced w (effects husk l nothing).
Proof. exact (histories husk l). Qed.
Print Assumptions C21_histories.

Example C21_histories_example :
  let l := [NewValue 0 5; New 1; Swap 1 0; NewFilterMove 2 1 Nat.odd; MoveAssign 0 2; NewMap 3 0 S; Delete 2] in
  all_legal S l nothing /\
  exists w, run S l (start []) = Some w /\ get 0 w = Done 5 w /\ get 1 w = Threw w /\ get 3 w = Done 6 w /\
    built w = 5 /\ ended w = 3.
Proof.
  split.
  - cbn. unfold exists_in, full_in, empty_in. cbn. repeat split; try discriminate.
    intros [[v E] _]. discriminate.
  - eexists. split; [vm_compute; reflexivity|]. vm_compute. repeat split.
Qed.

(* swap does not exchange a full optional and an empty one: both end up empty. *)
Theorem C21_swap_full_empty (V : Type) (husk : V -> V) (w : world V bool) i j v :
  vars w i = Some true -> cells w i 0 = Some v -> vars w j = Some false ->
  exists w', exec husk (Swap i j) w = Done tt w' /\ get i w' = Threw w' /\ get j w' = Threw w'.
Proof. exact (swap_full_empty husk w i j v). Qed.
Print Assumptions C21_swap_full_empty.

Theorem C21_swap_refuted :
  exists (l : list (op nat)) w w', run S l (start []) = Some w /\
    get 0 w = Done 5 w /\ get 1 w = Threw w /\
    exec S (Swap 0 1) w = Done tt w' /\ ~ get 1 w' = Done 5 w'.
Proof.
  exists [NewValue 0 5; New 1]. eexists. eexists. split; [vm_compute; reflexivity|].
  split; [vm_compute; reflexivity|]. split; [vm_compute; reflexivity|]. split; [vm_compute; reflexivity|].
  vm_compute. discriminate.
Qed.
Print Assumptions C21_swap_refuted.

(* emplace from the optional's own value reads a destroyed object. *)
Theorem C21_emplace_own_value (V : Type) (husk : V -> V) (w : world V bool) i v :
  vars w i = Some true -> cells w i 0 = Some v -> exec husk (EmplaceFrom i i) w = Undef.
Proof. exact (emplace_own_value husk w i v). Qed.
Print Assumptions C21_emplace_own_value.

Theorem C21_emplace_own_value_refuted :
  exists (l : list (op nat)) w, run S l (start []) = Some w /\ get 0 w = Done 5 w /\ exec S (EmplaceFrom 0 0) w = Undef.
Proof.
  exists [NewValue 0 5]. eexists. split; [vm_compute; reflexivity|]. split; vm_compute; reflexivity.
Qed.
Print Assumptions C21_emplace_own_value_refuted.

(* Copying an optional<bool> that is not const gives an optional that says
   whether the original is full, not a copy. *)
Theorem C21_copy_of_bool_refuted :
  exists (w w' : world bool bool), run negb [NewValue 0 false] (start []) = Some w /\
    get 0 w = Done false w /\
    create1 1 (copy_nonconst (fun b => b) 1 0) w = Done tt w' /\ get 1 w' = Done true w'.
Proof.
  eexists. eexists. split; [vm_compute; reflexivity|]. split; [vm_compute; reflexivity|].
  split; [vm_compute; reflexivity|]. vm_compute. reflexivity.
Qed.
Print Assumptions C21_copy_of_bool_refuted.
