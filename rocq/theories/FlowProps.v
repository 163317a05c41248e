(* C91: stopping a tree of actors when the handlers of different actors overlap. *)
From Coq Require Import List Bool Arith Lia.
From Verif Require Import TreeModel TreeProofs TreeRegime TreeTerm FlowModel FlowProofs FlowSim FlowTerm.
Import ListNotations.

Definition requested_shutdown (f : fstate) : Prop := requested (base f) = true.

Lemma shutdown_flow f : fwell f -> requested_shutdown f ->
  exists M, forall xs f', forallb own xs = true -> frun f xs = Some f' ->
    length xs <= M /\
    (fquiet f' -> (forall a, a = 0 \/ att (nd (base f') a) = true -> opn (nd (base f') a) = false /\ stopped (nd (base f') a) = true /\ told f' a = true)
                  /\ shutdown_returns f' = true /\ timers_stopped f' = true).
Proof.
  intros W Rq. destruct (fwell_full f W) as (s & F). exists (cost (size s) f s). intros xs f' Ow H.
  destruct (full_run xs f f' s F Ow H) as (s' & F' & R' & L). split; [exact L|]. intros Q.
  assert (Rs : requested s' = true) by (rewrite R', (r_req _ _ _ (proj1 (proj1 F))); exact Rq).
  assert (X := flow_complete f' s' F' Rs Q). split; [exact X|]. split; [apply X; auto|]. apply X. right.
  destruct F' as ((R & _ & II & _) & _). rewrite <- (skel_att _ _ (r_nd _ _ _ R 3)). apply II. lia.
Qed.

(* C91: in every execution, once an actor's post_stop has run, the mailbox of
   every actor ever attached to it is closed, or that actor's thread is about to
   close it and will handle no message any more. *)
Theorem C91_every_execution :
  forall (f : fstate) (p c : nat), freachable f ->
    stopped (nd (base f) p) = true -> att (nd (base f) c) = true -> par (nd (base f) c) = p ->
    opn (nd (base f) c) = false \/ In EClose (todo f c).
Proof. exact flow_any. Qed.
Print Assumptions C91_every_execution.

(* C91: if pre_start succeeds and stop() is called only on attached actors, the
   post_stop of the children has run. *)
Theorem C91_children_stopped_first :
  forall (f : fstate) (p c : nat), fwell f ->
    stopped (nd (base f) p) = true -> att (nd (base f) c) = true -> par (nd (base f) c) = p -> stopped (nd (base f) c) = true.
Proof. exact flow_waits. Qed.
Print Assumptions C91_children_stopped_first.

(* C91: in the same regime, from the moment shutdown() has been called, the
   actors take only boundedly many further steps, in whatever order the steps of
   their handlers are interleaved; and when they can take none, the root and
   every attached actor is stopped and closed, shutdown() returns and the timer
   thread has been told to end. *)
Theorem C91_shutdown_completes :
  forall f : fstate, fwell f -> requested_shutdown f ->
    exists M, forall xs f', forallb own xs = true -> frun f xs = Some f' ->
      length xs <= M /\
      (fquiet f' -> (forall a, a = 0 \/ att (nd (base f') a) = true -> opn (nd (base f') a) = false /\ stopped (nd (base f') a) = true /\ told f' a = true)
                    /\ shutdown_returns f' = true /\ timers_stopped f' = true).
Proof. exact shutdown_flow. Qed.
Print Assumptions C91_shutdown_completes.
Theorem C91_comes_to_rest :
  forall f : fstate, fwell f -> exists xs f', forallb own xs = true /\ frun f xs = Some f' /\ fquiet f'.
Proof. intros f W. destruct (fwell_behaved f W) as (s & B). eapply fcomes_to_rest, B. Qed.
Print Assumptions C91_comes_to_rest.

(* C91: when shutdown() returns, the post_stop of every attached actor has run. *)
Theorem C91_when_shutdown_returns :
  forall f : fstate, fwell f -> shutdown_returns f = true -> forall a, att (nd (base f) a) = true -> stopped (nd (base f) a) = true.
Proof. exact flow_returned. Qed.
Print Assumptions C91_when_shutdown_returns.

(* C91: in every execution, once the parent has destroyed the cell of a child the
   thread of the child handles nothing any more: all it may still have to do is
   to close the mailbox, which it shares, and to report the actor. *)
Theorem C91_destroyed_cell_untouched :
  forall (f : fstate) (c : nat), freachable f ->
    att (nd (base f) c) = true -> ~ In c (kids (nd (base f) (par (nd (base f) c)))) ->
    (forall ok, fstep f (FHandle c ok) = None) /\
    (todo f c = [EClose; ENotify] \/ (opn (nd (base f) c) = false /\ (todo f c = [ENotify] \/ todo f c = []))).
Proof. exact flow_erased. Qed.
Print Assumptions C91_destroyed_cell_untouched.

(* ---- examples ---- *)
(* let the first actor that can take a step do so, until none can *)
Fixpoint pick (f : fstate) (l : list nat) : option faction :=
  match l with
  | [] => None
  | a :: l' => match fstep f (FEmit a) with
               | Some _ => Some (FEmit a)
               | None => match fstep f (FHandle a true) with Some _ => Some (FHandle a true) | None => pick f l' end
               end
  end.
Fixpoint settle (n : nat) (f : fstate) (l : list nat) : list faction :=
  match n with
  | 0 => []
  | S n' => match pick f l with
            | None => []
            | Some x => match fstep f x with Some f' => x :: settle n' f' l | None => [] end
            end
  end.
Definition after (f : fstate) (xs : list faction) : fstate := match frun f xs with Some f' => f' | None => f end.
(* a top actor 5 with children 6 and 7, 7 with child 8, everything running *)
Definition all := seq 0 9.
Definition grow (f : fstate) (x : action) (xs : list faction) : list faction := let ys := xs ++ [FEnv x] in ys ++ settle 60 (after f ys) all.
Definition ex_grow : list faction := grow finit (CreateChild 7) (grow finit (CreateChild 5) (grow finit (CreateChild 5) (grow finit (CreateTop 3) []))).
Definition ex_down : list faction := let ys := ex_grow ++ [FEnv (Shutdown true)] in ys ++ settle 200 (after finit ys) (rev all).
Ltac fquieten := intros x; destruct x as [a [|]|a|y]; intros Hx; try discriminate Hx; do 12 (destruct a as [|a]; [vm_compute; reflexivity|]); vm_compute; reflexivity.
Ltac fwb := vm_compute; repeat split; auto.
Example C91_example :
  exists f, fwell f /\ requested_shutdown f /\ fquiet f /\ shutdown_returns f = true /\ timers_stopped f = true
    /\ map (fun a => stopped (nd (base f) a)) all = repeat true 9 /\ map (fun a => par (nd (base f) a)) all = [0; 0; 0; 0; 0; 3; 5; 5; 7].
Proof.
  eexists. split; [exists ex_down; split; [fwb|vm_compute; reflexivity]|]. split; [reflexivity|]. split; [fquieten|]. vm_compute. repeat split.
Qed.
(* 5 has said good-bye and the guardian has destroyed its cell and stopped,
   while the thread of 5 has not closed the mailbox yet *)
Definition ex_late : list faction :=
  let ys := grow finit (CreateTop 3) [] in
  ys ++ [FEnv (SendStop 3); FHandle 3 true; FEmit 3; FHandle 5 true; FEmit 5; FHandle 5 true; FEmit 5; FHandle 3 true].
Example C91_example_late :
  exists f, fwell f /\ stopped (nd (base f) 3) = true /\ att (nd (base f) 5) = true /\ par (nd (base f) 5) = 3
    /\ kids (nd (base f) 3) = [] /\ opn (nd (base f) 5) = true /\ todo f 5 = [EClose; ENotify] /\ stopped (nd (base f) 5) = true.
Proof.
  eexists. split; [exists ex_late; split; [fwb|vm_compute; reflexivity]|]. vm_compute. repeat split.
Qed.
(* shutdown has been called and nothing is at rest *)
Example C91_example_middle :
  exists f, fwell f /\ requested_shutdown f /\ map (fun a => stopped (nd (base f) a)) all = [false; false; false; false; false; false; true; false; true] /\ todo f 8 = [EClose; ENotify].
Proof.
  eexists. split; [exists (firstn 46 ex_down); split; [fwb|vm_compute; reflexivity]|]. vm_compute. repeat split.
Qed.

(* C91: "now all actors are stopped" (actor_system.cpp:182) is too much to say:
   when shutdown() returns the thread of the user guardian may still have to
   close its mailbox and to stop the timer thread. *)
Definition ex_early : list faction :=
  let up := settle 60 finit all in
  let down := up ++ [FEnv (Shutdown true); FHandle 0 true; FEmit 0; FEmit 0; FHandle 3 true; FEmit 3; FEmit 3] in
  down ++ settle 200 (after finit down) [0; 1; 2; 4].
Theorem C91_timers_after_shutdown_refuted :
  exists f, fwell f /\ shutdown_returns f = true /\ timers_stopped f = false /\ att (nd (base f) 3) = true /\ opn (nd (base f) 3) = true /\ todo f 3 = [EClose; ENotify].
Proof.
  eexists. split; [exists ex_early; split; [fwb|vm_compute; reflexivity]|]. vm_compute. repeat split.
Qed.
Print Assumptions C91_timers_after_shutdown_refuted.

(* C91: when some pre_start fails, shutdown() does not return. *)
Definition ex_fail : list faction :=
  let ys := settle 60 finit all in
  let zs := ys ++ [FEnv (CreateTop 3)] in
  let ws := zs ++ settle 60 (after finit zs) [0; 3] ++ [FHandle 5 false; FEmit 5; FEmit 5; FEnv (Shutdown true)] in
  ws ++ settle 200 (after finit ws) all.
Theorem C91_failed_start_hangs_refuted :
  exists f, freachable f /\ requested_shutdown f /\ fquiet f /\ shutdown_returns f = false.
Proof.
  eexists. split; [exists ex_fail; vm_compute; reflexivity|]. split; [reflexivity|]. split; [fquieten|]. vm_compute. reflexivity.
Qed.
Print Assumptions C91_failed_start_hangs_refuted.
