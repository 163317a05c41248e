(** C114: who destroys the input-output service, when, and on which thread. *)

Require Import List Bool Arith Lia.
Import ListNotations.
From Verif Require Import LastModel LastProofs.

(** The service runs exactly as long as a manager, a listener, an acceptor or a
    handler which has locked an acceptor is there. *)
Theorem C114_lives : forall es s, run es init = Some s -> bad s = None ->
  (svc s = Live <->
   tcp s = true \/ udp s = true \/
   (exists l x, nth_error (lst s) l = Some x /\ (l_cell x = true \/ l_acc x = true)) \/
   (exists l c, io s = AccTell l c \/ io s = AccArm l c \/ io s = AccEnd l c)).
Proof.
  intros es s R B. pose proof (owned_live s (run_inv _ _ R B)) as O. unfold owned in O.
  rewrite <- O. split; intros [H|[H|[H|(l & H)]]]; auto; right; right; right.
  - destruct (io s) as [|k c|k c|k c|c]; try discriminate; exists k, c; auto.
  - destruct H as (c & [H|[H|H]]); exists l; rewrite H; cbn; apply Nat.eqb_refl.
Qed.
Print Assumptions C114_lives.

(** A remote, and a handler of received data, never meet a destroyed service or a
    destroyed actor system. *)
Theorem C114_remotes : forall es s, run es init = Some s -> bad s = None ->
  (forall c p, In (c, p) (rem s) -> svc s = Live /\ sys s = true) /\
  (forall c, io s = Recv c -> svc s <> Gone /\ sys s = true).
Proof.
  intros es s R B. pose proof (run_inv _ _ R B) as I. split.
  - intros c p H. eapply rem_live; eauto.
  - intros c H. split; [|eapply recv_sys; eauto].
    intros G. destruct (i_gone _ _ I G). congruence.
Qed.
Print Assumptions C114_remotes.

(** The destructor which waits for the thread waits for at most one handler of
    received data: no accept is being handled then.  After it nothing is pending,
    no handler runs, and no actor of the module is left. *)
Theorem C114_joined : forall es s, run es init = Some s -> bad s = None ->
  (svc s = Closing -> io s = Idle \/ exists c, io s = Recv c) /\
  (svc s = Gone -> io s = Idle /\ ops s = [] /\ rem s = [] /\ tcp s = false /\ udp s = false /\
     forall l x, nth_error (lst s) l = Some x -> l_cell x = false /\ l_acc x = false).
Proof.
  intros es s R B. pose proof (run_inv _ _ R B) as I. split.
  - intros C. destruct (io s) as [|k c|k c|k c|c] eqn:E; eauto;
      (assert (L : svc s = Live) by
         (apply (lock_live s k I); rewrite E; cbn; apply Nat.eqb_refl); congruence).
  - intros G. destruct (i_gone _ _ I G) as [E O].
    assert (N : ~ owned s) by (intros Q; apply (owned_live s I) in Q; congruence).
    unfold owned in N.
    assert (T : tcp s = false) by (destruct (tcp s); [tauto|reflexivity]).
    assert (U : udp s = false) by (destruct (udp s); [tauto|reflexivity]).
    split; [exact E|]. split; [exact O|]. split.
    + destruct (rem s) as [|[c p] r] eqn:Q; [reflexivity|].
      destruct (rem_live s c p I) as [L _]; [rewrite Q; now left|congruence].
    + split; [exact T|]. split; [exact U|]. exact (alive_cells s I T).
Qed.
Print Assumptions C114_joined.

(** Exactly when the thread of the service joins itself, which terminates the
    program: a handler of an accept ends after both managers are destroyed. *)
Theorem C114_self_join : forall es s e s', run es init = Some s -> step e s = Some s' ->
  (bad s' = Some SelfJoin <->
   e = End /\ (exists l c, io s = AccEnd l c) /\ tcp s = false /\ udp s = false).
Proof.
  intros es s e s' R E. pose proof (step_ok _ _ _ E) as B. pose proof (run_inv _ _ R B) as I.
  split; intros H.
  - exact (step_causes _ _ _ _ I E H).
  - destruct (causes_step SelfJoin e s I B H) as (t & T & F). congruence.
Qed.
Print Assumptions C114_self_join.

(** Exactly when a message is told through a destroyed actor system. *)
Theorem C114_dead_system : forall es s e s', run es init = Some s -> step e s = Some s' ->
  (bad s' = Some DeadSystem <->
   e = Tell /\ (exists l c, io s = AccTell l c) /\ sys s = false).
Proof.
  intros es s e s' R E. pose proof (step_ok _ _ _ E) as B. pose proof (run_inv _ _ R B) as I.
  split; intros H.
  - exact (step_causes _ _ _ _ I E H).
  - destruct (causes_step DeadSystem e s I B H) as (t & T & F). congruence.
Qed.
Print Assumptions C114_dead_system.

(** Exactly when a socket is destroyed after its service: somebody who keeps the
    mailbox of a destroyed listener, with an unread accept inside, lets it go
    after the service is gone. *)
Theorem C114_dead_socket : forall es s e s', run es init = Some s -> step e s = Some s' ->
  (bad s' = Some DeadSocket <->
   exists l x, e = Let l /\ svc s = Gone /\ nth_error (lst s) l = Some x /\
     l_cell x = false /\ l_held x = 1 /\ l_msgs x <> []).
Proof.
  intros es s e s' R E. pose proof (step_ok _ _ _ E) as B. pose proof (run_inv _ _ R B) as I.
  split; intros H.
  - exact (step_causes _ _ _ _ I E H).
  - destruct (causes_step DeadSocket e s I B H) as (t & T & F). congruence.
Qed.
Print Assumptions C114_dead_socket.

(** The regime without faults: the last manager is not destroyed while an accept
    is being handled, and no unread accept is left in a mailbox when the
    service goes. *)
Theorem C114_safe : forall es s, run es init = Some s ->
  (forall a e b t, es = a ++ e :: b -> run a init = Some t ->
     (e = FreeTcp /\ udp t = false) \/ (e = FreeUdp /\ tcp t = false) ->
     io t = Idle \/ exists c, io t = Recv c) ->
  (forall a b t, es = a ++ Join :: b -> run a init = Some t ->
     forall l x, nth_error (lst t) l = Some x -> l_msgs x = []) ->
  bad s = None.
Proof.
  intros es s R A T.
  assert (C : calm es).
  { intros a e b t E Q D l. destruct (A a e b t E Q D) as [X|[c X]]; rewrite X; reflexivity. }
  destruct (calm_run es s R C) as (H1 & H2 & _). destruct (tidy_run es s R T) as (H3 & _).
  destruct (bad s) as [[]|]; congruence.
Qed.
Print Assumptions C114_safe.

(** The two conditions are independent: each excludes its own faults. *)
Theorem C114_safe_each : forall es s, run es init = Some s ->
  ((forall a e b t, es = a ++ e :: b -> run a init = Some t ->
     (e = FreeTcp /\ udp t = false) \/ (e = FreeUdp /\ tcp t = false) ->
     io t = Idle \/ exists c, io t = Recv c) ->
   bad s = None \/ bad s = Some DeadSocket) /\
  ((forall a b t, es = a ++ Join :: b -> run a init = Some t ->
     forall l x, nth_error (lst t) l = Some x -> l_msgs x = []) ->
   bad s <> Some DeadSocket).
Proof.
  intros es s R. split.
  - intros A.
    assert (C : calm es).
    { intros a e b t E Q D l. destruct (A a e b t E Q D) as [X|[c X]]; rewrite X; reflexivity. }
    destruct (calm_run es s R C) as (H1 & H2 & _).
    destruct (bad s) as [[]|]; try congruence; auto.
  - intros T. exact (proj1 (tidy_run es s R T)).
Qed.
Print Assumptions C114_safe_each.

(** From every state in which the service is there, and no accept is being handled
    without managers, an orderly end can be reached: the service is destroyed by
    another thread, nothing is left unread, and no fault happens. *)
Theorem C114_can_end : forall es s, run es init = Some s -> bad s = None -> svc s <> Gone ->
  (tcp s = true \/ udp s = true \/ io s = Idle \/ exists c, io s = Recv c) ->
  exists more s', run (es ++ more) init = Some s' /\ bad s' = None /\ svc s' = Gone /\
    forall l x, nth_error (lst s') l = Some x -> l_msgs x = [].
Proof.
  intros es s R B G H. pose proof (run_inv _ _ R B) as I.
  destruct (can_end (weight s) s (le_n _)) as (more & s' & M & B' & G' & N).
  - split; [exact I|]. split; [exact B|]. split; [exact G|]. intros T U l.
    destruct H as [H|[H|[H|[c H]]]]; [congruence|congruence|rewrite H; reflexivity..].
  - exists more, s'. rewrite run_app, R. repeat split; auto.
    intros l x X. destruct (l_msgs x) eqn:Q; [reflexivity|]. exfalso. apply N.
    exists l, x. split; [exact X|congruence].
Qed.
Print Assumptions C114_can_end.

(** A listener is bound, accepts one connection, gives it to a remote, and all
    ends in order. *)
Definition orderly : list event :=
  [Bind; Start 0; Complete 0 0; Tell; Arm; End; Take 0 true; RecvBegin 0; EndRemote 0; RecvEnd;
   UdpBind; Stop 0; Close 0; Free 0; EndRemote 2; FreeUdp; FreeTcp; Join; FreeSys].

Example C114_example : exists s, run orderly init = Some s /\ bad s = None /\ svc s = Gone /\
  count s = 0.
Proof. eexists. split; [vm_compute; reflexivity|]. auto. Qed.

Example C114_example_lives : exists s, run [Bind; Start 0; Complete 0 0] init = Some s /\
  bad s = None /\ svc s = Live /\ count s = 4 /\ io s = AccTell 0 0.
Proof. eexists. split; [vm_compute; reflexivity|]. auto. Qed.

(** The destructor of the service waits for a handler of received data. *)
Example C114_example_joined : exists s,
  run [Connect; RecvBegin 0; EndRemote 0; FreeTcp; FreeUdp] init = Some s /\
  svc s = Closing /\ io s = Recv 0 /\ step Join s = None /\
  exists s', run [RecvEnd; Join] s = Some s' /\ bad s' = None /\ svc s' = Gone.
Proof.
  eexists. split; [vm_compute; reflexivity|].
  split; [reflexivity|split; [reflexivity|split; [reflexivity|]]].
  eexists. split; [vm_compute; reflexivity|]. auto.
Qed.

(** The hypotheses of [C114_safe] hold for the execution above. *)
Lemma split_snoc : forall (es a b : list event) e, es = a ++ e :: b ->
  a = firstn (length a) es /\ nth_error es (length a) = Some e.
Proof.
  intros es a b e ->. split.
  - rewrite firstn_app, firstn_all, Nat.sub_diag. cbn. now rewrite app_nil_r.
  - rewrite nth_error_app2 by lia. now rewrite Nat.sub_diag.
Qed.

Example C114_example_safe :
  (forall a e b t, orderly = a ++ e :: b -> run a init = Some t ->
     (e = FreeTcp /\ udp t = false) \/ (e = FreeUdp /\ tcp t = false) ->
     io t = Idle \/ exists c, io t = Recv c) /\
  (forall a b t, orderly = a ++ Join :: b -> run a init = Some t ->
     forall l x, nth_error (lst t) l = Some x -> l_msgs x = []).
Proof.
  split.
  - intros a e b t E R D. destruct (split_snoc _ _ _ _ E) as [A N].
    rewrite A in R. clear E. revert A R N. generalize (length a). intros n _ R N.
    do 19 (destruct n as [|n]; [vm_compute in R, N; injection N as <-;
      (destruct D as [[D _]|[D _]]; discriminate D) ||
      (injection R as <-; left; reflexivity)|]).
    vm_compute in N. destruct n; discriminate N.
  - intros a b t E R. destruct (split_snoc _ _ _ _ E) as [A N].
    rewrite A in R. clear E. revert A R N. generalize (length a). intros n _ R N.
    do 19 (destruct n as [|n]; [vm_compute in R, N; (discriminate N) ||
      (injection R as <-; intros [|[|l]] x X; cbn in X; try discriminate X;
       injection X as <-; reflexivity)|]).
    vm_compute in N. destruct n; discriminate N.
Qed.

(** The unrestricted expectation is wrong.  The system is shut down while the
    thread of the service handles an accept: that thread becomes the last owner
    and joins itself. *)
Theorem C114_self_join_refuted : exists es s, run es init = Some s /\ bad s = Some SelfJoin.
Proof.
  exists [Bind; Start 0; Complete 0 0; Tell; Stop 0; Close 0; Free 0; FreeTcp; FreeUdp; Arm; End].
  eexists. split; vm_compute; reflexivity.
Qed.
Print Assumptions C114_self_join_refuted.

(** The same, when the actor system is already destroyed. *)
Theorem C114_dead_system_refuted : exists es s, run es init = Some s /\ bad s = Some DeadSystem.
Proof.
  exists [Bind; Start 0; Complete 0 0; Stop 0; Close 0; Free 0; FreeTcp; FreeUdp; FreeSys; Tell].
  eexists. split; vm_compute; reflexivity.
Qed.
Print Assumptions C114_dead_system_refuted.

(** The thread of an executor which ran the stop of the listener still keeps the
    mailbox; an accepted connection nobody took is inside. *)
Theorem C114_dead_socket_refuted : exists es s, run es init = Some s /\ bad s = Some DeadSocket.
Proof.
  exists [Bind; Start 0; Grab 0; Complete 0 0; Tell; Arm; End; Stop 0; Close 0; Free 0; FreeTcp;
          FreeUdp; Join; Let 0].
  eexists. split; vm_compute; reflexivity.
Qed.
Print Assumptions C114_dead_socket_refuted.
