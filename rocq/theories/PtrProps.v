(* The properties of optional pointers, and of flatten. *)
From Coq Require Import List Bool Arith Lia.
From Verif Require Import LifeModel OptModel OptSpec OptProofs PtrModel PtrSpec PtrProofs.
Import ListNotations.

(* After every history of operations each optional pointer holds what the
   history says, where a null pointer is nothing: get never gives one. *)
Theorem C86_histories (l : list pop) :
  all_legal_p l nothing ->
  exists m, run_p l none = Some m /\ seen_p m (effects_p l nothing).
Proof.
  intro L. destruct (histories_p l none nothing Rp_start L) as (m & E & R).
  exists m. split; [exact E|apply Rp_seen; exact R].
Qed.
Print Assumptions C86_histories.

Example C86_histories_example :
  let l := [Plain (NewValue 0 5); Plain (NewValue 1 0); Plain (NewMove 2 0); Plain (Swap 1 2);
            Plain (NewMap 3 1 (fun p => p - 5)); Through 1 8; Plain (CopyAssign 0 1); Through 0 0] in
  all_legal_p l nothing /\
  exists m, run_p l none = Some m /\ get_p 0 m = None /\ get_p 1 m = Some 8 /\ get_p 2 m = None /\ empty_p 3 m = true.
Proof.
  split.
  - cbn. unfold exists_in. cbn. repeat split; discriminate.
  - eexists. split; [vm_compute; reflexivity|]. vm_compute. repeat split.
Qed.

(* A program that stores no null pointer cannot tell an optional pointer from
   the optional of another type: C21 and C86 describe the same. *)
Theorem C86_like_others (l : list (op nat)) :
  all_legal (fun p => p) l nothing -> Forall no_null l ->
  exists w m, run (fun p => p) l (start []) = Some w /\ run_p (map Plain l) none = Some m /\
    forall i c, effects (fun p => p) l nothing i = Some c ->
      get_p i m = c /\ get i w = match c with Some p => Done p w | None => Threw w end.
Proof.
  intros L N.
  destruct (histories (fun p => p) l L) as (w & E & (S1 & S2) & _).
  destruct (same_effects l nothing nothing (fun _ => eq_refl) L N) as (Lp & Same); [intros i v F; discriminate|].
  destruct (C86_histories (map Plain l) Lp) as (m & Em & (G & _)).
  exists w, m. split; [exact E|]. split; [exact Em|].
  intros i c Ec. rewrite <- Same in Ec. destruct (G i c Ec) as (A & _). split; [exact A|].
  rewrite Same in Ec. destruct c as [p|]; [apply (S1 _ _ Ec)|apply (S2 _ Ec)].
Qed.
Print Assumptions C86_like_others.

Example C86_like_others_example :
  let l := [NewValue 0 5; NewCopy 1 0; New 2; Swap 2 1; NewMap 3 2 S; Reset 0] in
  all_legal (fun p => p) l nothing /\ Forall no_null l /\
  exists w m, run (fun p => p) l (start []) = Some w /\ run_p (map Plain l) none = Some m /\
    get 3 w = Done 6 w /\ get_p 3 m = Some 6 /\ get 1 w = Threw w /\ get_p 1 m = None.
Proof.
  split; [|split].
  - cbn. unfold exists_in, full_in, empty_in. cbn. repeat split; try discriminate.
    intros [[v E] _]. discriminate.
  - repeat constructor; cbn; try lia. 
  - eexists. eexists. split; [vm_compute; reflexivity|]. split; [vm_compute; reflexivity|]. vm_compute. repeat split.
Qed.

(* An optional that was given a pointer may be empty, which is documented, and
   emplacing its own pointer empties it, which is not. *)
Theorem C86_given_is_full_refuted :
  exists i p m, exec_p (Plain (NewValue i p)) none = Some m /\ get_p i m <> Some p.
Proof. exists 0, 0. eexists. split; [reflexivity|]. vm_compute. discriminate. Qed.
Print Assumptions C86_given_is_full_refuted.

Theorem C86_emplace_own_value i p m : get_p i m = Some p ->
  exists m', exec_p (Plain (EmplaceFrom i i)) m = Some m' /\ get_p i m' = None.
Proof.
  unfold get_p. cbn [exec_p]. unfold emplace_from_p, destroy_p, construct_p, ptr.
  destruct (m i) as [q|] eqn:E; [|discriminate]. destruct (stored q) eqn:S; [|discriminate]. intros _.
  rewrite upd_same. eexists. split; [reflexivity|]. rewrite upd_same. reflexivity.
Qed.
Print Assumptions C86_emplace_own_value.

Theorem C86_emplace_own_value_refuted :
  exists l m m', run_p l none = Some m /\ get_p 0 m = Some 5 /\
    exec_p (Plain (EmplaceFrom 0 0)) m = Some m' /\ get_p 0 m' <> Some 5.
Proof.
  exists [Plain (NewValue 0 5)]. eexists. eexists. split; [vm_compute; reflexivity|].
  split; [vm_compute; reflexivity|]. split; [vm_compute; reflexivity|]. vm_compute. discriminate.
Qed.
Print Assumptions C86_emplace_own_value_refuted.

(* flatten gives the innermost value if and only if every level is full, for
   every depth.  Flattening an rvalue gives the same and leaves its outer levels
   as they were; only the innermost optional becomes empty. *)
Theorem C86_flatten (n : nat) (V : Type) (o : nested n V) :
  (forall v, flatten n o = Some v <-> all_full n o v) /\
  fst (flatten_move n o) = flatten n o /\ emptied n o (snd (flatten_move n o)).
Proof. split; [apply flatten_full|apply flatten_move_same]. Qed.
Print Assumptions C86_flatten.

Example C86_flatten_example :
  flatten 2 (Some (Some (Some 4)) : nested 2 nat) = Some 4 /\ flatten 2 (Some (Some None) : nested 2 nat) = None /\
  flatten_move 2 (Some (Some (Some 4)) : nested 2 nat) = (Some 4, Some (Some None)).
Proof. repeat split. Qed.
