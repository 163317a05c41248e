(* C44: stopping a tree of actors. *)
From Coq Require Import List Bool Arith Lia.
From Verif Require Import TreeModel TreeProofs TreeRegime TreeTerm.
Import ListNotations.

Lemma shutdown_lemma s : well_reachable s -> requested s = true ->
  exists M, forall xs s', forallb is_handle xs = true -> run s xs = Some s' ->
    length xs <= M /\ (quiescent s' -> forall a, a = 0 \/ att (nd s' a) = true -> opn (nd s' a) = false /\ stopped (nd s' a) = true).
Proof.
  intros W R. exists (tot (size s) s). intros xs s' F H. assert (II := well_reachable_inv s W).
  assert (B := handles_bounded xs s s' II F H). split; [lia|].
  intros Q a A. assert (W' := well_reachable_step s xs s' W F H).
  assert (R' : requested s' = true) by (rewrite (requested_kept xs s s' F H); exact R).
  destruct (shutdown_complete s' W' R' Q) as [O X].
  assert (Oa : opn (nd s' a) = false) by (destruct A as [->|A]; auto).
  split; [exact Oa|]. now apply attached_closed_stopped.
Qed.
Lemma parent_waits s p c : well_reachable s -> stopped (nd s p) = true -> att (nd s c) = true -> par (nd s c) = p ->
  stopped (nd s c) = true.
Proof.
  intros W H A P. apply attached_closed_stopped; auto. eapply parents_stop_last; try eassumption.
  destruct W as [xs [_ W]]. exists xs. exact W.
Qed.

(* C44: in every execution at all, when an actor's post_stop has run every actor
   ever attached to it is closed. *)
Theorem C44_children_closed_first :
  forall (s : state) (p c : nat), reachable s ->
    stopped (nd s p) = true -> att (nd s c) = true -> par (nd s c) = p -> opn (nd s c) = false.
Proof. exact parents_stop_last. Qed.
Print Assumptions C44_children_closed_first.

(* C44: if pre_start succeeds and stop() is called only on attached actors, the
   children have been stopped properly. *)
Theorem C44_children_stopped_first :
  forall (s : state) (p c : nat), well_reachable s ->
    stopped (nd s p) = true -> att (nd s c) = true -> par (nd s c) = p -> stopped (nd s c) = true.
Proof. exact parent_waits. Qed.
Print Assumptions C44_children_stopped_first.

(* C44: in the same regime, from the moment shutdown has been requested, the
   actors can take only boundedly many further steps by themselves, in whatever
   order, and where they cannot take any the root and every attached actor has
   stopped. *)
Theorem C44_shutdown_completes :
  forall s : state, well_reachable s -> requested s = true ->
    exists M, forall xs s', forallb is_handle xs = true -> run s xs = Some s' ->
      length xs <= M /\
      (quiescent s' -> forall a, a = 0 \/ att (nd s' a) = true -> opn (nd s' a) = false /\ stopped (nd s' a) = true).
Proof. exact shutdown_lemma. Qed.
Print Assumptions C44_shutdown_completes.
Theorem C44_comes_to_rest :
  forall s : state, well_reachable s ->
    exists xs s', forallb is_handle xs = true /\ run s xs = Some s' /\ quiescent s'.
Proof. intros s W. apply comes_to_rest, well_reachable_inv, W. Qed.
Print Assumptions C44_comes_to_rest.

Definition H a := Handle a true.
(* a top actor 5 with children 6 and 7, 7 with child 8, everything running *)
Definition ex_tree : list action :=
  [H 1; H 2; H 3; H 4; CreateTop 3; H 0; H 3; H 5; CreateChild 5; CreateChild 5; H 5; H 5; H 6; H 7; CreateChild 7; H 7; H 8].
Definition ex_stop : list action :=
  [Shutdown true; H 0; H 3; H 4; H 5; H 5; H 6; H 6; H 7; H 7; H 8; H 8; H 7; H 5; H 5; H 3; H 0; H 0; H 0; H 0; H 1; H 2; H 0; H 0; H 0; H 0; H 0].
Ltac quiet := let a := fresh in intros a; do 12 (destruct a as [|a]; [vm_compute; reflexivity|]); vm_compute; reflexivity.
Ltac wb := vm_compute; repeat split; auto.
Example C44_example :
  exists s, well_reachable s /\ requested s = true /\ quiescent s /\ map (fun a => stopped (nd s a)) (seq 0 9) = repeat true 9
    /\ map (fun a => par (nd s a)) (seq 0 9) = [0; 0; 0; 0; 0; 3; 5; 5; 7].
Proof.
  eexists. split; [exists (ex_tree ++ ex_stop); split; [wb|vm_compute; reflexivity]|]. split; [reflexivity|]. split; [quiet|]. vm_compute. split; reflexivity.
Qed.
Example C44_example_middle :
  exists s, well_reachable s /\ requested s = true /\ map (fun a => stopped (nd s a)) (seq 0 9) = [false; false; false; false; true; false; true; false; false].
Proof.
  eexists. split; [exists (ex_tree ++ firstn 9 ex_stop); split; [wb|vm_compute; reflexivity]|]. vm_compute. split; reflexivity.
Qed.

(* C44: when some pre_start fails, shutdown hangs: the parent keeps waiting for
   a child that has never told it that it is gone. *)
Theorem C44_failed_start_hangs_refuted :
  exists s, reachable s /\ requested s = true /\ quiescent s /\ opn (nd s 0) = true /\ opn (nd s 3) = true.
Proof.
  eexists. split.
  - exists ([H 1; H 2; H 3; H 4; CreateTop 3; H 0; H 3; Handle 5 false; Shutdown true; H 0; H 3; H 4; H 0; H 0]). vm_compute. reflexivity.
  - split; [reflexivity|]. split; [quiet|]. vm_compute. split; reflexivity.
Qed.
Print Assumptions C44_failed_start_hangs_refuted.

(* C44: stop() on an actor that has been created but not attached yet stops it
   at once; it is attached afterwards, dead, and its parent waits for ever. *)
Theorem C44_early_stop_hangs_refuted :
  exists xs s, forallb (fun x => match x with Handle _ false => false | _ => true end) xs = true /\ run init xs = Some s
    /\ requested s = true /\ quiescent s /\ opn (nd s 0) = true /\ opn (nd s 3) = true.
Proof.
  exists [H 1; H 2; H 3; H 4; CreateTop 3; SendStop 5; H 5; H 0; H 3; Shutdown true; H 0; H 3; H 4; H 0; H 0].
  eexists. split; [reflexivity|]. split; [vm_compute; reflexivity|]. split; [reflexivity|]. split; [quiet|]. vm_compute. split; reflexivity.
Qed.
Print Assumptions C44_early_stop_hangs_refuted.
