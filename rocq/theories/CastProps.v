(* C106: reading an any, and references into it. *)
From Coq Require Import List Bool Arith Lia.
From Verif Require Import CastModel CastSpec CastProofs.
Import ListNotations.

(* Every call: it is undefined exactly when it is not allowed; otherwise it
   shows what it should, and the contents of the anys, the references and the
   objects of the program are what they should be.  An item made by a call has
   a number that nothing has or refers to. *)
Theorem C106_calls (V : Type) (copyable : nat -> bool) (husk : V -> V) (m : nat -> sty * V) (w : cworld V) (o : cop V) :
  reachable copyable husk m w ->
  match cstep copyable husk o w with
  | Undefined => ~ allowed o (content w) (mine w) (refs w)
  | Ok x w' =>
      allowed o (content w) (mine w) (refs w) /\
      result copyable o (content w) (mine w) (refs w) x /\
      exists n, (forall i y, content w i = Some (Some y) -> serial y <> n) /\ (forall q, refs w q <> Some (Payload n)) /\
        (forall i, content w' i = after husk o n (refs w) x (content w) i) /\
        (forall q, refs w' q = rebound o (content w) (mine w) (refs w) q) /\
        (forall k, mine w' k = mine_after husk o (refs w) (mine w) k)
  end.
Proof.
  intros R. assert (I := reachable_inv copyable husk m w R). pose proof (step_fine copyable husk w o I) as F.
  unfold fine in F. destruct (cstep copyable husk o w) as [x w'|]; [|exact F].
  destruct F as ((A & B & C & D & E) & _). split; [exact A|]. split; [exact B|].
  destruct (fresh_next w I) as (F1 & F2). exists (cnext w). auto.
Qed.
Print Assumptions C106_calls.

(* objects of the program: number 0 is an int of value 7, number 1 a const int of value 9 *)
Definition my_objects : nat -> sty * nat := fun k => if k =? 1 then (MkTy true false 4, 9) else (plain 4, 7).
Definition all_copy : nat -> bool := fun _ => true.
Definition zero : nat -> nat := fun _ => 0.

Example C106_calls_ex :
  exists w, crun all_copy zero [NewValue 0 (MkTy true true 4) 5; NewCopy 1 0; Get 3 0 (plain 4); Swap 0 1; Write 3 6;
                                AnyCast 0 (plain 4) false; AnyCast 1 (plain 4) false; TakeUnsafe 1 (plain 4) false; Read 3;
                                GetOr 2 1 0 false; Get 2 1 (plain 5)] (cstart my_objects)
            = Some ([Nothing; Nothing; Nothing; Nothing; Nothing; Value 5; Value 6; Value 6; Value 0; Nothing; Exception], w) /\
            content w 1 = Some (Some (MkItem 0 (plain 4) 0)).
Proof. eexists. split; reflexivity. Qed.

(* A program that names types without const and reference, and neither uses
   references nor get_unsafe, has no undefined behaviour. *)
Theorem C106_plain_programs_defined (V : Type) (copyable : nat -> bool) (husk : V -> V) (m : nat -> sty * V) (w : cworld V) (o : cop V) :
  plainly copyable husk m w -> plain_call m o -> checked_call o = true -> declared o (content w) ->
  cstep copyable husk o w <> Undefined.
Proof. apply plain_safe. Qed.
Print Assumptions C106_plain_programs_defined.

Example C106_plain_programs_defined_ex :
  exists w, crun all_copy zero [NewInPlace 0 (plain 4) 5; NewMove 1 0] (cstart my_objects) = Some ([Nothing; Nothing], w) /\
    Forall (plain_call my_objects) [NewInPlace 0 (plain 4) 5; NewMove 1 0] /\
    declared (GetOr 2 0 1 true) (content w) /\ plain_call my_objects (@GetOr nat 2 0 1 true) /\
    exists w', cstep all_copy zero (GetOr 2 0 1 true) w = Ok Nothing w' /\ cstep all_copy zero (Read 2) w' = Ok (Value 9) w'.
Proof.
  eexists. split; [reflexivity|]. split; [repeat constructor|]. split; [discriminate|]. split; [now left|].
  eexists. split; reflexivity.
Qed.

(* A reference from get follows its object: through moves and swaps it shows
   what the any shows that has the object now, and it is dangling once the
   object has been given up. *)
Theorem C106_reference_follows (V : Type) (copyable : nat -> bool) (husk : V -> V) (m : nat -> sty * V)
  (w w1 w' : cworld V) q i s l xs :
  reachable copyable husk m w ->
  cstep copyable husk (Get q i s) w = Ok Nothing w1 ->
  crun copyable husk l w1 = Some (xs, w') -> keeps q l ->
  match tracked i l xs with
  | Some j => exists v, cstep copyable husk (Read q) w' = Ok (Value v) w' /\
                        forall c, cstep copyable husk (AnyCast j s c) w' = Ok (Value v) w'
  | None => cstep copyable husk (Read q) w' = Undefined
  end.
Proof.
  intros R G RU K. assert (I := reachable_inv copyable husk m w R).
  pose proof (step_fine copyable husk w (Get q i s) I) as F. unfold fine in F. rewrite G in F.
  destruct F as ((_ & RS & C & RB & _) & I1). cbn in RS, C. specialize (RB q). cbn in RB.
  destruct (ask s (content w i)) as [|y|] eqn:A; try discriminate RS.
  destruct (ask_gives w i s y A) as (Cy & _ & _ & SC). rewrite put_same in RB.
  rewrite <- C in Cy.
  destruct (follow_run copyable husk q l w1 xs w' i y I1 RU Cy RB K) as (R' & F).
  assert (I' := run_inv copyable husk l w1 xs w' I1 RU).
  destruct (tracked i l xs) as [j|].
  - destruct F as (y' & C' & S' & T'). destruct (content_item w' j y' C') as (P & H).
    exists (ival y'). split.
    + cbn. rewrite R'. cbn. rewrite <- S', H. reflexivity.
    + intros c. cbn. unfold checked. rewrite P, H. unfold typeid. rewrite T', SC, (same_class_base _ _ SC), H. reflexivity.
  - cbn. rewrite R'. destruct (look (Payload (serial y)) w') as [[u v]|] eqn:L; [|reflexivity].
    apply (look_shows husk w' _ u v I') in L. destruct L as (z & (k & Z) & S & _). destruct (F k z Z S).
Qed.
Print Assumptions C106_reference_follows.

Example C106_reference_follows_ex :
  exists w1 w', cstep all_copy zero (Get 3 0 (plain 4)) (MkCast (put (fun _ => None) 0 (Some (plain 4, 5))) 1
                  (put (fun _ => None) 0 (Some (Some 0))) my_objects (fun _ => None)) = Ok Nothing w1 /\
    crun all_copy zero [NewMove 1 0; NewEmpty 2; MoveAssign 2 1; Emplace 1 (plain 5) 8; Swap 0 2] w1
      = Some ([Nothing; Nothing; Nothing; Nothing; Nothing], w') /\
    tracked 0 [NewMove 1 0; NewEmpty 2; MoveAssign 2 1; Emplace 1 (plain 5) 8; Swap 0 2] [@Nothing nat; Nothing; Nothing; Nothing; Nothing]
      = Some 0 /\
    cstep all_copy zero (Read 3) w' = Ok (Value 5) w'.
Proof. eexists. eexists. split; [reflexivity|]. split; [reflexivity|]. split; reflexivity. Qed.

(* Assigning through a reference changes the any that has the object, and no other. *)
Theorem C106_write_one (V : Type) (copyable : nat -> bool) (husk : V -> V) (m : nat -> sty * V)
  (w w' : cworld V) q v x i y :
  reachable copyable husk m w -> refs w q = Some (Payload (serial y)) -> content w i = Some (Some y) ->
  cstep copyable husk (Write q v) w = Ok x w' ->
  content w' i = Some (Some (MkItem (serial y) (ity y) v)) /\ (forall k, k <> i -> content w' k = content w k) /\
  (forall k, mine w' k = mine w k).
Proof.
  intros R Q C E. assert (I := reachable_inv copyable husk m w R).
  pose proof (step_fine copyable husk w (Write q v) I) as F. unfold fine in F. rewrite E in F.
  destruct F as ((_ & _ & A & _ & M) & _). cbn in A, M. rewrite Q in A. cbn in A. split; [|split].
  - rewrite A, C. cbn. rewrite Nat.eqb_refl. reflexivity.
  - intros k N. rewrite A. destruct (content w k) as [[z|]|] eqn:K; try reflexivity. cbn.
    destruct (Nat.eqb_spec (serial z) (serial y)) as [S|]; [|reflexivity].
    destruct N. exact (proj1 (content_same w k i z y I K C S)).
  - intros k. rewrite M, Q. reflexivity.
Qed.
Print Assumptions C106_write_one.

Example C106_write_one_ex :
  exists w w', crun all_copy zero [NewValue 0 (plain 4) 5; NewCopy 1 0; Get 3 0 (plain 4); Swap 0 1] (cstart my_objects)
             = Some ([Nothing; Nothing; Nothing; Nothing], w) /\
    refs w 3 = Some (Payload 0) /\ content w 1 = Some (Some (MkItem 0 (plain 4) 5)) /\
    cstep all_copy zero (Write 3 6) w = Ok Nothing w' /\ content w' 0 = Some (Some (MkItem 1 (plain 4) 5)).
Proof. eexists. eexists. split; [reflexivity|]. repeat split. Qed.

(* A holder belongs to one any. *)
Theorem C106_one_owner (V : Type) (copyable : nat -> bool) (husk : V -> V) (m : nat -> sty * V) (w : cworld V) a :
  reachable copyable husk m w ->
  (cheap w a <> None <-> exists i, cvars w i = Some (Some a)) /\
  (forall i j, cvars w i = Some (Some a) -> cvars w j = Some (Some a) -> i = j).
Proof.
  intros R. assert (I := reachable_inv copyable husk m w R). split; [split|].
  - intros H. destruct (cheap w a) as [h|] eqn:E; [|congruence]. exact (inv_owned w I a h E).
  - intros (i & H) E. destruct (inv_live w I i a H) as (s & v & L). congruence.
  - intros i j. apply (inv_one w I).
Qed.
Print Assumptions C106_one_owner.

Example C106_one_owner_ex :
  exists w, crun all_copy zero [NewValue 0 (plain 4) 5; CopyAssign 0 0; NewMove 1 0] (cstart my_objects)
            = Some ([Nothing; Nothing; Nothing], w) /\ cheap w 0 = None /\ cvars w 1 = Some (Some 1) /\ cheap w 1 <> None.
Proof. eexists. split; [reflexivity|]. repeat split; discriminate. Qed.

(* any_cast<T &>, as std::any_cast allows it, passes the test and then reads
   the object as another class. *)
Theorem C106_cast_to_reference_refuted :
  exists w, crun all_copy zero [NewValue 0 (plain 4) 5] (cstart my_objects) = Some ([Nothing], w) /\
    cstep all_copy zero (IsType 0 (MkTy false true 4)) w = Ok (Answer true) w /\
    cstep all_copy zero (AnyCast 0 (MkTy false true 4) true) w = Undefined /\
    cstep all_copy zero (AnyCast 0 (plain 4) true) w = Ok (Value 5) w.
Proof. eexists. split; [reflexivity|]. repeat split. Qed.
Print Assumptions C106_cast_to_reference_refuted.

(* The same for an object made as const and asked for without, and an any with
   a const object cannot be copied though its type can. *)
Theorem C106_const_object_refuted :
  exists w, crun all_copy zero [NewInPlace 0 (MkTy true false 4) 5; NewEmpty 1] (cstart my_objects) = Some ([Nothing; Nothing], w) /\
    cstep all_copy zero (Get 3 0 (plain 4)) w = Undefined /\
    cstep all_copy zero (AnyCast 0 (MkTy true false 4) true) w = Ok (Value 5) w /\
    cstep all_copy zero (CopyAssign 1 0) w = Ok Exception w.
Proof. eexists. split; [reflexivity|]. repeat split. Qed.
Print Assumptions C106_const_object_refuted.

(* get_or of an any that is not const with a const object as the default. *)
Theorem C106_const_default_refuted :
  exists w, crun all_copy zero [NewValue 0 (plain 4) 5] (cstart my_objects) = Some ([Nothing], w) /\
    cstep all_copy zero (GetOr 2 0 1 false) w = Undefined /\
    exists w', cstep all_copy zero (GetOr 2 0 1 true) w = Ok Nothing w' /\ cstep all_copy zero (Read 2) w' = Ok (Value 5) w'.
Proof. eexists. split; [reflexivity|]. split; [reflexivity|]. eexists. split; reflexivity. Qed.
Print Assumptions C106_const_default_refuted.

(* A reference to the result of get_or with a temporary as the default dangles
   when the default was taken. *)
Theorem C106_temporary_default_refuted :
  exists w w', crun all_copy zero [NewEmpty 0] (cstart my_objects) = Some ([Nothing], w) /\
    cstep all_copy zero (GetOrTemp 2 0 4 8) w = Ok (Value 8) w' /\ cstep all_copy zero (Read 2) w' = Undefined.
Proof. eexists. eexists. split; [reflexivity|]. split; reflexivity. Qed.
Print Assumptions C106_temporary_default_refuted.

(* any_cast from an rvalue copies: the any keeps its value. *)
Theorem C106_cast_moves_refuted :
  exists w, crun all_copy zero [NewValue 0 (plain 4) 5; AnyCast 0 (plain 4) false] (cstart my_objects)
            = Some ([Nothing; Value 5], w) /\
    content w 0 = Some (Some (MkItem 0 (plain 4) 5)) /\
    exists w', cstep all_copy zero (TakeUnsafe 0 (plain 4) false) w = Ok (Value 5) w' /\
               content w' 0 = Some (Some (MkItem 0 (plain 4) 0)).
Proof. eexists. split; [reflexivity|]. split; [reflexivity|]. eexists. split; reflexivity. Qed.
Print Assumptions C106_cast_moves_refuted.

(* Assigning an any to itself keeps the value but not the references. *)
Theorem C106_self_assignment_refuted :
  exists w w', crun all_copy zero [NewValue 0 (plain 4) 5; Get 3 0 (plain 4)] (cstart my_objects) = Some ([Nothing; Nothing], w) /\
    cstep all_copy zero (CopyAssign 0 0) w = Ok Nothing w' /\
    cstep all_copy zero (AnyCast 0 (plain 4) true) w' = Ok (Value 5) w' /\
    cstep all_copy zero (Read 3) w' = Undefined.
Proof. eexists. eexists. split; [reflexivity|]. repeat split. Qed.
Print Assumptions C106_self_assignment_refuted.
