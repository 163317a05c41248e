(* C113: actors with equal names. *)
From Coq Require Import String List Bool Arith Lia.
From Verif Require Import TreeModel TreeProofs TreeProps AlikeModel AlikeProofs.
Import ListNotations.
Local Open Scope nat_scope.

Lemma reach_ok s : nreachable s -> NInv s.
Proof. intros [xs H]. eapply nrun_ok; [apply ninit_ok|exact H]. Qed.

(* C113: as long as no report of a stopped child is handled while an elder child has the
   same name, the system is the one of numbered actors, and no actor vanishes. *)
Theorem C113_in_order :
  forall xs : list (action * string), nrun_all in_order ninit xs ->
    option_map tree (nrun ninit xs) = run init (map fst xs) /\
    (forall s k, nrun ninit xs = Some s -> ~ vanished (tree s) k).
Proof.
  intros xs H. assert (E := run_alike xs ninit init_core det_init H). split; [exact E|].
  intros s k E1 (A & G & _). rewrite E1 in E. symmetry in E. cbn [option_map] in E.
  assert (D := det_run _ _ _ init_core det_init E). assert (C := run_core _ _ _ init_core E). destruct (d_gone _ D k G) as [X| ->]; [congruence|].
  destruct (c_att _ C 0 A). lia.
Qed.
Print Assumptions C113_in_order.

(* C113: that is so if no actor is attached beside a child with the same name. *)
Theorem C113_new_names :
  forall xs : list (action * string), nrun_all new_name ninit xs -> nrun_all in_order ninit xs.
Proof. intros xs. apply apart_run; [apply init_core|apply det_init|apply apart_init]. Qed.
Print Assumptions C113_new_names.
(* C113: then C44 holds. *)
Theorem C113_shutdown :
  forall (xs : list (action * string)) (s : nstate), nrun_all new_name ninit xs -> nrun ninit xs = Some s ->
    well_behaved_run init (map fst xs) -> well_reachable (tree s).
Proof.
  intros xs s N E W. destruct (C113_in_order xs (C113_new_names xs N)) as [X _]. rewrite E in X. exists (map fst xs). split; [exact W|]. symmetry. exact X.
Qed.
Print Assumptions C113_shutdown.

(* C113: whatever the names, an actor stops only after every actor ever attached to it. *)
Theorem C113_waits :
  forall (s : nstate) (p c : nat), nreachable s -> stopped (nd (tree s) p) = true -> att (nd (tree s) c) = true -> par (nd (tree s) c) = p ->
    stopped (nd (tree s) c) = true.
Proof.
  intros s p c R S A P. destruct (reach_ok s R) as [_ I]. destruct (stopped (nd (tree s) c)) eqn:E; [reflexivity|].
  destruct (r_kid _ _ _ _ I c A E) as [X _]. congruence.
Qed.
Print Assumptions C113_waits.

(* C113: so, when an actor has vanished, it will never have stopped, nor any of those
   above it, nor the root. *)
Theorem C113_hangs :
  forall (s : nstate) (k : nat) (xs : list (action * string)) (s' : nstate), nreachable s -> vanished (tree s) k -> nrun s xs = Some s' ->
    vanished (tree s') k /\ above (tree s') k 0 /\ (forall p, above (tree s') k p -> stopped (nd (tree s') p) = false).
Proof.
  intros s k xs s' R V H. assert (I := reach_ok s R). assert (V' := vanished_stays s xs s' k I V H).
  assert (I' := nrun_ok xs s s' I H). destruct V' as (A & G & S). split; [repeat split; auto|]. split; [apply up_root; auto|].
  intros p P. apply (up_open s' k p); auto.
Qed.
Print Assumptions C113_hangs.

(* C113: the children of an actor whose cell is destroyed are destroyed with it. *)
Theorem C113_subtree :
  forall (s : nstate) (a c : nat), nreachable s -> gone (nd (tree s) a) = true -> In c (kids (nd (tree s) a)) ->
    gone (nd (tree s) c) = true /\ opn (nd (tree s) c) = false.
Proof.
  intros s a c R G I. destruct (reach_ok s R) as [_ N]. assert (X := r_below _ _ _ _ N a c G I). split; [exact X|apply (r_gone _ _ _ _ N c X)].
Qed.
Print Assumptions C113_subtree.

(* C113: when the report of a stopped child c is handled and e, which has not stopped, is
   the first child named as c is, then it is e that vanishes, and the others stay. *)
Theorem C113_elder :
  forall (s : nstate) (a : nat) (ok : bool) (n : string) (c : nat) (q : list smsg) (l : list nat) (e : nat) (r : list nat),
    nreachable s -> opn (nd (tree s) a) = true -> sysq (nd (tree s) a) = SDetach c :: q ->
    kids (nd (tree s) a) = l ++ e :: r -> (forall j, In j l -> nm s j <> nm s c) -> nm s e = nm s c -> stopped (nd (tree s) e) = false ->
    exists s', nstep s (Handle a ok, n) = Some s' /\ vanished (tree s') e /\
      (forall j, In j (l ++ r) -> stopping (nd (tree s) a) = false -> In j (kids (nd (tree s') a))).
Proof. intros. eapply elder_vanishes; eauto using reach_ok. Qed.
Print Assumptions C113_elder.
(* C113: actors vanish in no other way. *)
Theorem C113_only_so :
  forall (s : nstate) (x : action * string) (s' : nstate) (k : nat), nreachable s -> nstep s x = Some s' ->
    ~ vanished (tree s) k -> vanished (tree s') k ->
    exists a ok c q e l r, fst x = Handle a ok /\ sysq (nd (tree s) a) = SDetach c :: q /\ kids (nd (tree s) a) = l ++ e :: r /\
      nm s e = nm s c /\ (forall j, In j l -> nm s j <> nm s c) /\ stopped (nd (tree s) e) = false.
Proof. intros s x s' k R. apply vanish_step, reach_ok, R. Qed.
Print Assumptions C113_only_so.

(* a listener 5 at an address and a connection 6 to the same one, as children of one
   actor; the connection ends *)
Definition here : string := "localhost:9001".
Definition N (a : nat) : action * string := (H a, EmptyString).
Definition ex_two (n5 n6 : string) : list (action * string) :=
  [N 1; N 2; N 3; N 4; (CreateTop 1, n5); N 0; N 1; N 5; (CreateTop 1, n6); N 0; N 1; N 6].
Definition ex_end (n5 n6 : string) := ex_two n5 n6 ++ [(SendStop 6, EmptyString); N 6; N 1].
Definition ex_down : list (action * string) := [(Shutdown true, EmptyString); N 0; N 3; N 4; N 0; N 0; N 0; N 0; N 1; N 2; N 0; N 0; N 1].

(* C113: with equal names, a run in which all start and only attached actors are told to
   stop loses the elder actor, and the shutdown hangs. *)
Theorem C113_equal_names_refuted :
  exists xs ys s s', well_behaved_run init (map fst xs) /\ nrun ninit xs = Some s /\ nm s 5 = nm s 6 /\
    vanished (tree s) 5 /\ stopped (nd (tree s) 6) = true /\ kids (nd (tree s) 1) = [6] /\ requested (tree s) = false /\
    nrun s ys = Some s' /\ requested (tree s') = true /\ quiescent (tree s') /\ opn (nd (tree s') 0) = true /\ opn (nd (tree s') 1) = true.
Proof.
  exists (ex_end here here), ex_down. eexists. eexists. split; [wb|]. split; [vm_compute; reflexivity|].
  split; [vm_compute; reflexivity|]. split; [vm_compute; auto|]. split; [vm_compute; reflexivity|]. split; [vm_compute; reflexivity|]. split; [vm_compute; reflexivity|].
  split; [vm_compute; reflexivity|]. split; [vm_compute; reflexivity|]. split; [quiet|]. vm_compute. auto.
Qed.
Print Assumptions C113_equal_names_refuted.
Ltac news := vm_compute; repeat match goal with |- _ /\ _ => split end; try exact Logic.I;
  let c := fresh in let q := fresh in let E := fresh in let k := fresh in let K := fresh in
  intros c q E; try discriminate E; injection E as <- <-; intros k K; repeat destruct K as [<-|K]; try contradiction K; discriminate.
Example C113_example :
  nrun_all new_name ninit (ex_end here "localhost:9002" ++ ex_down) /\ well_behaved_run init (map fst (ex_end here "localhost:9002" ++ ex_down)) /\
  exists s, nrun ninit (ex_end here "localhost:9002") = Some s /\ stopped (nd (tree s) 6) = true /\ opn (nd (tree s) 5) = true /\ kids (nd (tree s) 1) = [5].
Proof.
  split; [news|]. split; [wb|]. eexists. split; [vm_compute; reflexivity|]. vm_compute. auto.
Qed.
(* in order: the elder of two stops first *)
Example C113_example_in_order :
  exists s, nrun ninit (ex_two here here ++ [(SendStop 5, EmptyString); N 5; N 1; (SendStop 6, EmptyString); N 6; N 1]) = Some s /\
    kids (nd (tree s) 1) = [] /\ stopped (nd (tree s) 5) = true /\ stopped (nd (tree s) 6) = true /\ opn (nd (tree s) 1) = true.
Proof. eexists. split; [vm_compute; reflexivity|]. vm_compute. auto. Qed.
(* the hypotheses of C113_elder *)
Example C113_example_elder :
  exists s, nrun ninit (firstn 14 (ex_end here here)) = Some s /\ opn (nd (tree s) 1) = true /\ sysq (nd (tree s) 1) = [SDetach 6] /\
    kids (nd (tree s) 1) = [] ++ 5 :: [6] /\ nm s 5 = nm s 6 /\ stopped (nd (tree s) 5) = false.
Proof. eexists. split; [vm_compute; reflexivity|]. vm_compute. auto 10. Qed.
(* a child of the vanished actor goes with it *)
Example C113_example_subtree :
  exists s, nrun ninit (ex_two here here ++ [(CreateChild 5, "session"%string); N 5; N 7; (SendStop 6, EmptyString); N 6; N 1]) = Some s /\
    gone (nd (tree s) 5) = true /\ kids (nd (tree s) 5) = [7] /\ vanished (tree s) 7.
Proof. eexists. split; [vm_compute; reflexivity|]. vm_compute. auto. Qed.
