(* Property theorems for ask / find helpers (C49) and behaviours (C46). *)
From Coq Require Import List Bool Arith Lia.
From Verif Require Import MailboxModel ActorModel ActorProofs ActorProps HelperModel HelperProofs.
Import ListNotations.

(* C49: the future of ask gets at most one value: the first message the helper
   receives, or nullany if it is stopped before any message. *)
Theorem C49_ask_answered_by_first_reply :
  forall (throughput : nat) (s : state), reachable throughput s -> starts_sent s <= 1 ->
    writes (ask_result (cbs s)) =
      match replies (cbs s) with
      | r :: _ => [Some r]
      | [] => repeat None (count is_poststop (cbs s))
      end /\ length (writes (ask_result (cbs s))) <= 1.
Proof.
  intros tp s R S. rewrite ask_is_find. destruct (find_first (fun n => Some (Some n)) (cbs s)) as [W _]. rewrite W.
  destruct (poststop_once tp s R S) as [_ P].
  rewrite offers_shape by (try exact P; intros pre n post E; eapply receive_between; eassumption).
  unfold sel_replies. destruct (replies (cbs s)) as [|r t]; [|split; [reflexivity|simpl; lia]].
  simpl flat_map. rewrite app_nil_l. destruct (count is_poststop (cbs s)) as [|[|k]]; [split; [reflexivity|simpl; lia]..|lia].
Qed.
Print Assumptions C49_ask_answered_by_first_reply.
Example C49_ask_example :
  exists s, run 10 init life = Some s /\ starts_sent s = 1 /\ replies (cbs s) = [10; 11] /\ writes (ask_result (cbs s)) = [Some 10].
Proof. eexists. split; [vm_compute; reflexivity|]. vm_compute. repeat split. Qed.

(* C49: the same for find, whose helper ignores messages that are neither a
   success nor a failure of the selection. *)
Theorem C49_find_answered_by_first_result :
  forall (throughput : nat) (sel : nat -> option (option nat)) (s : state), reachable throughput s -> starts_sent s <= 1 ->
    writes (find_result sel (cbs s)) =
      match sel_replies sel (cbs s) with
      | r :: _ => [r]
      | [] => repeat None (count is_poststop (cbs s))
      end /\ length (writes (find_result sel (cbs s))) <= 1.
Proof.
  intros tp sel s R S. destruct (find_first sel (cbs s)) as [W _]. rewrite W.
  destruct (poststop_once tp s R S) as [_ P].
  rewrite offers_shape by (try exact P; intros pre n post E; eapply receive_between; eassumption).
  destruct (sel_replies sel (cbs s)) as [|r t]; [|split; [reflexivity|simpl; lia]].
  rewrite app_nil_l. destruct (count is_poststop (cbs s)) as [|[|k]]; [split; [reflexivity|simpl; lia]..|lia].
Qed.
Print Assumptions C49_find_answered_by_first_result.
Example C49_find_example :
  exists s, run 10 init life = Some s /\
    writes (find_result (fun n => if n =? 11 then Some (Some 3) else None) (cbs s)) = [Some 3] /\
    writes (find_result (fun n => None) (cbs s)) = [None].
Proof. eexists. split; [vm_compute; reflexivity|]. vm_compute. repeat split. Qed.

(* C49: whenever a helper that was started stops, the future has its value. *)
Theorem C49_started_helper_always_answers :
  forall (throughput : nat) (sel : nat -> option (option nat)) (s : state) (a : nat) (s' : state),
    reachable throughput s -> starts_sent s <= 1 -> step throughput s (AClose a) = Some s' ->
    count is_prestart_ok (cbs s') = 1 ->
    length (writes (ask_result (cbs s'))) = 1 /\ length (writes (find_result sel (cbs s'))) = 1.
Proof.
  intros tp sel s a s' R S H E. destruct (close_life tp s a s' R S H) as [_ L]. rewrite E in L.
  assert (P : In PostStop (cbs s')).
  { unfold count in L. destruct (filter is_poststop (cbs s')) as [|x l] eqn:F; [discriminate|].
    assert (K : In x (filter is_poststop (cbs s'))) by (rewrite F; now left). apply filter_In in K. destruct K as [K1 K2].
    destruct x; try discriminate. exact K1. }
  rewrite ask_is_find. split.
  - destruct (find_first (fun n => Some (Some n)) (cbs s')) as [-> _]. pose proof (offers_stop (fun n => Some (Some n)) _ P).
    destruct (offers _ (cbs s')); [contradiction|reflexivity].
  - destruct (find_first sel (cbs s')) as [-> _]. pose proof (offers_stop sel _ P).
    destruct (offers _ (cbs s')); [contradiction|reflexivity].
Qed.
Print Assumptions C49_started_helper_always_answers.
Example C49_answers_example :
  exists s s', run 10 init life = Some s /\ step 10 s (AClose 0) = Some s' /\ count is_prestart_ok (cbs s') = 1.
Proof. do 2 eexists. split; [vm_compute; reflexivity|]. split; [vm_compute; reflexivity|]. vm_compute. reflexivity. Qed.

(* C49: "exactly once" fails if the timeout stops the helper before the guardian
   attached and started it: post_stop is skipped and the future is never set. *)
Definition early_timeout : list action :=
  [ sy MStop; ASenderSchedules; AWorkerStarts; APop 0; ASysDone 0 true; AClose 0; sy MStart ].
Theorem C49_early_timeout_refuted :
  exists s, reachable 10 s /\ starts_sent s = 1 /\ pending (mb s) = 0 /\ queued (mb s) = 0 /\ acts (mb s) = [] /\
    is_open (mb s) = false /\ writes (ask_result (cbs s)) = [] /\
    forall xs s', run 10 s xs = Some s' -> writes (ask_result (cbs s')) = [].
Proof.
  eexists. split; [exists early_timeout; vm_compute; reflexivity|].
  do 6 (split; [vm_compute; reflexivity|]). intros xs s' H.
  pose proof (fun D => dead_run 10 xs _ s' D H) as E. rewrite E; [reflexivity|repeat split].
Qed.
Print Assumptions C49_early_timeout_refuted.

(* C46: after any sequence of become/unbecome there is a current behaviour (and
   no operation hits the undefined top of an empty stack). *)
Theorem C46_always_a_behaviour :
  forall (B : Type) (self : B) (os : list (bop B)),
    exists st, brun B (fresh_stack B self) os = Some st /\ st <> [].
Proof. intros B self os. apply brun_nonempty. discriminate. Qed.
Print Assumptions C46_always_a_behaviour.
Example C46_example :
  brun nat (fresh_stack nat 0) [Unbecome; Become (Some 1) true; Become (Some 2) false; Become None false; Become (Some 3) true; Unbecome; Unbecome]
  = Some [1].
Proof. reflexivity. Qed.

(* C46: unbecome undoes the matching become. *)
Theorem C46_unbecome_undoes_become :
  forall (B : Type) (b : B) (inner : list (bop B)), nested B inner ->
  forall st, st <> [] -> brun B st (Become (Some b) false :: inner ++ [Unbecome]) = Some st.
Proof. exact push_pop_identity. Qed.
Print Assumptions C46_unbecome_undoes_become.
Example C46_undo_example : nested nat [Become (Some 3) true; Become (Some 2) false; Become (Some 9) true; Unbecome; Become None true].
Proof.
  apply nested_discard. apply (nested_push nat 2 [Become (Some 9) true] [Become None true]).
  - apply nested_discard. constructor.
  - apply nested_null. constructor.
Qed.

(* C46: a nested sequence leaves everything below the top alone and changes the
   top exactly to the behaviour of the last discarding become of this level. *)
Theorem C46_discard_replaces_only_top :
  forall (B : Type) (os : list (bop B)) (t t' : B), top_after B t os t' ->
  forall rest, brun B (t :: rest) os = Some (t' :: rest).
Proof. exact nested_run. Qed.
Print Assumptions C46_discard_replaces_only_top.
Theorem C46_nested_has_top :
  forall (B : Type) (os : list (bop B)), nested B os -> forall t, exists t', top_after B t os t'.
Proof. exact nested_top. Qed.
Print Assumptions C46_nested_has_top.

(* what the calls return *)
Example C46_returned_pointers :
  become nat [1; 2] (Some 3) true = Some ([3; 2], Some 1) /\ become nat [1; 2] (Some 3) false = Some ([3; 1; 2], None) /\
  unbecome nat [1; 2] = ([2], Some 1) /\ unbecome nat [1] = ([1], None).
Proof. repeat split. Qed.
