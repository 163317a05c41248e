(* C83: a TCP listener. *)
From Coq Require Import List Bool Arith Lia Permutation Sorting.Sorted.
From Verif Require Import ListenModel ListenSpec ListenProofs.
Import ListNotations.

(* every accepted connection is in one place: on its way to the listener, on its way
   to become a remote, with a remote, or closed; those that live are in the order of acceptance *)
Theorem C83_one_place : forall xs s, run state0 xs = Some s ->
  Permutation (map fst (kids s) ++ attaches (sys s) ++ accepts (mail s) ++ closed s) (seq 0 (length (names s))) /\
  StronglySorted lt (map fst (kids s) ++ attaches (sys s) ++ accepts (mail s)).
Proof.
  intros xs s H. apply reach_inv in H. pose proof (i_place _ H) as P. pose proof (i_sorted _ H) as S. unfold place, live in *.
  rewrite <- !app_assoc in P. auto.
Qed.
(* from its start to its end the listener takes connections, also after errors and
   while it waits for its remotes to end *)
Theorem C83_listening : forall xs s n, run state0 xs = Some s -> ph s = Alive \/ ph s = Stopping ->
  exists s1 s2, step s (Accept n) = Some s1 /\ step s AcceptError = Some s2 /\
    names s1 = names s ++ [n] /\ mail s1 = mail s ++ [MAccept (Some (length (names s)))] /\ ph s1 = ph s /\ ph s2 = ph s.
Proof.
  intros xs s n H F. apply reach_inv in H. pose proof (i_acc _ H) as A.
  assert (E : acceptor s = true /\ armed s = true) by (destruct F as [F|F]; rewrite F in A; destruct A as [A1 A2]; [auto|destruct A2; auto]).
  destruct E as [E1 E2]. cbn [step]. rewrite E2. unfold accept. rewrite E1. do 2 eexists. repeat split.
Qed.
(* the server is told of a connection at most once, and only of one that was accepted *)
Theorem C83_told_once : forall xs s, run state0 xs = Some s -> NoDup (told s) /\ forall c, In c (told s) -> c < length (names s).
Proof.
  intros xs s H. apply reach_inv in H. split; [exact (i_told _ H)|]. intros c X. apply (place_bound _ _ H). exact (told_bound _ _ H X).
Qed.
(* until it stops, a connection is closed only after the server was told of it, or
   because the peer was gone before that *)
Theorem C83_closed : forall xs s c, apart xs -> run state0 xs = Some s -> ph s = Alive -> In c (closed s) ->
  In c (told s) \/ In c (lost s).
Proof. intros xs s c AP H F X. apply (t_closed _ (reach_tidy _ _ AP H)); auto. Qed.
(* and where no peer disappears so early, the server is told of all of them *)
Theorem C83_served : forall xs s, apart xs -> existsb vanished xs = false -> run state0 xs = Some s -> ph s = Alive -> settled s ->
  Permutation (told s) (seq 0 (length (names s))).
Proof.
  intros xs s AP V H F (M & Sy & K). destruct (run_fine _ _ _ H V) as [L NF]; [split; [reflexivity|intros c []]|].
  pose proof (reach_inv _ _ H) as I. pose proof (place_nodup _ I) as ND.
  rewrite <- (i_place _ I). apply NoDup_Permutation; [exact (i_told _ I)|exact ND|]. intros c. split; [exact (told_bound _ _ I)|].
  intros X. unfold place, live in X. rewrite M, Sy, app_nil_r in X. apply in_app_iff in X as [X|X].
  - apply in_map_iff in X as ([d k] & <- & X). apply (i_kids _ I d k X). destruct k; [destruct (K d X)|reflexivity|destruct (NF d X)|reflexivity].
  - destruct (C83_closed _ _ _ AP H F X) as [Y|Y]; [exact Y|]. rewrite L in Y. destruct Y.
Qed.
(* when the listener is destroyed all connections it accepted are closed *)
Theorem C83_nothing_left : forall xs s, run state0 xs = Some s -> ph s = Destroyed -> Permutation (closed s) (seq 0 (length (names s))).
Proof.
  intros xs s H F. pose proof (reach_inv _ _ H) as I. rewrite <- (i_place _ I). unfold place, live.
  destruct (empty_run xs state0 s inv0 ltac:(discriminate) H F) as [-> ->]. pose proof (i_acc _ I) as A. rewrite F in A. destruct A as [_ ->]. reflexivity.
Qed.
(* a stopping listener that has handled its system messages waits for a remote that is
   starting, running, or could not start; so it ends once they have ended, if all could
   start *)
Theorem C83_waits : forall xs s, apart xs -> run state0 xs = Some s -> ph s = Stopping -> sys s = [] ->
  exists c k, In (c, k) (kids s) /\ k <> Ended.
Proof.
  intros xs s AP H F Sy. pose proof (reach_inv _ _ H) as I. pose proof (t_det _ (reach_tidy _ _ AP H)) as D. rewrite Sy in D. cbn in D.
  apply Permutation_nil in D. pose proof (i_acc _ I) as A. rewrite F in A. destruct A as (_ & _ & A).
  destruct (kids s) as [|[c k] l]; [contradiction|]. exists c, k. split; [left; reflexivity|]. intros ->. discriminate.
Qed.
(* as long as it is there it handles its messages, system messages first *)
Theorem C83_handles : forall s there m t, ph s = Alive \/ ph s = Stopping ->
  (sys s <> [] -> step s HandleSys <> None) /\ (sys s = [] -> mail s = m :: t -> step s (Handle there) <> None).
Proof.
  intros s there m t [F|F]; cbn [step]; rewrite F; (split; [destruct (sys s); [congruence|discriminate]|intros -> ->; discriminate]).
Qed.
(* so it stops: when all its remotes could start and nobody connects or tells it anything, it and its remotes
   take a bounded number of steps, and until it is gone one of them can be taken *)
Theorem C83_stops : forall xs s, apart xs -> run state0 xs = Some s -> ph s = Stopping -> (forall c, ~ In (c, Failed) (kids s)) ->
  exists N, forall ys s', forallb leaving ys = true -> run s ys = Some s' ->
    length ys <= N /\ (ph s' = Gone \/ ph s' = Stopping /\ exists x, leaving x = true /\ step s' x <> None).
Proof.
  intros xs s AP H F K. exists (weight s). intros ys s' V R. pose proof (leaving_run _ _ _ V R). split; [lia|].
  destruct (leaves_run ys s s' V R (conj K (or_introl F)) (reach_inv _ _ H) (reach_tidy _ _ AP H)) as ((K' & [P|P]) & I & T); [|auto]. right. split; [exact P|].
  destruct (sys s') as [|m t] eqn:Sy; [|exists HandleSys; cbn [step]; rewrite P, Sy; split; [reflexivity|discriminate]].
  pose proof (t_det _ T) as D. rewrite Sy in D. cbn in D. apply Permutation_nil in D. pose proof (i_acc _ I) as A. rewrite P in A. destruct A as (_ & _ & A).
  destruct (kids s') as [|[c k] l] eqn:Ks; [contradiction|]. assert (C : kid c (kids s') = Some k) by (apply kid_of; [exact (kids_nodup _ I)|rewrite Ks; left; reflexivity]).
  destruct k.
  - exists (KidStarts c true). cbn [step]. rewrite C. split; [reflexivity|discriminate].
  - exists (KidEnds c). cbn [step]. rewrite C. split; [reflexivity|discriminate].
  - destruct (K' c (or_introl eq_refl)).
  - discriminate D.
Qed.
(* then, or when it is stopped without remotes, it listens no more: a connection still
   accepted is closed *)
Theorem C83_ended : forall xs s n s', run state0 xs = Some s -> ph s = Gone \/ ph s = Destroyed -> step s (Accept n) = Some s' ->
  closed s' = closed s ++ [length (names s)] /\ told s' = told s /\ step s' (Accept n) = None.
Proof.
  intros xs s n s' H F E. pose proof (i_acc _ (reach_inv _ _ H)) as A. cbn [step] in E. destruct (armed s); [|discriminate]. injection E as <-.
  unfold accept. assert (AC : acceptor s = false) by (destruct F as [F|F]; rewrite F in A; destruct A; auto). rewrite AC. cbn. auto.
Qed.
Print Assumptions C83_one_place.
Print Assumptions C83_listening.
Print Assumptions C83_told_once.
Print Assumptions C83_closed.
Print Assumptions C83_served.
Print Assumptions C83_nothing_left.
Print Assumptions C83_waits.
Print Assumptions C83_ended.
Print Assumptions C83_handles.
Print Assumptions C83_stops.

Definition busy : list action :=
  [Start true; Accept 5; AcceptError; Accept 6; Handle true; HandleSys; Handle true; KidStarts 0 true; Handle true; HandleSys; KidStarts 1 true; KidEnds 0; HandleSys; Accept 5;
   Handle true; HandleSys; KidStarts 2 true].
Example C83_busy_ex : run state0 busy = Some (State Alive true true [] [] [(1, Running); (2, Running)] [5; 6; 5] [0; 1; 2] [0] []) /\
  existsb vanished busy = false.
Proof. split; reflexivity. Qed.
(* the addresses in it are apart *)
Example C83_apart_ex : apart busy.
Proof.
  intros xs1 n xs2 s1 E R. unfold busy in E.
  repeat (destruct xs1 as [|x xs1]; [cbn in E; first [discriminate | injection E as <- <-; cbn in R; injection R as <-; cbn; intuition discriminate] |
    cbn in E; injection E as <- E]). destruct xs1; discriminate.
Qed.
Definition farewell : list action := busy ++ [Tell MTerminated; Handle true; Handle true; HandleSys; KidEnds 1; Accept 9; HandleSys].
Example C83_farewell_ex : run state0 farewell = Some (State Stopping true true [MAccept (Some 3)] [] [(2, Running)] [5; 6; 5; 9] [0; 1; 2] [0; 1] []) /\
  run state0 (farewell ++ [KidEnds 2; HandleSys; Accept 4; Destroy]) = Some (State Destroyed false false [] [] [] [5; 6; 5; 9; 4] [0; 1; 2] [0; 1; 2; 4; 3] []).
Proof. split; reflexivity. Qed.

(* one would expect a listener asked to stop to stop at some time: a remote whose peer is
   gone when it starts never leaves the listener, which waits for it and goes on
   accepting connections, of which the server is never told *)
Theorem C83_stops_refuted : exists xs s, apart xs /\ run state0 xs = Some s /\ In StopRequest xs /\
  forall ys s', run s ys = Some s' -> ph s' = Stopping /\ acceptor s' = true /\ told s' = [].
Proof.
  exists [Start true; Accept 5; Handle true; HandleSys; KidStarts 0 false; StopRequest; HandleSys].
  exists (State Stopping true true [] [] [(0, Failed)] [5] [] [] []). split; [|split; [reflexivity|split; [cbn; auto 10|]]].
  - intros xs1 n xs2 s1 E R.
    repeat (destruct xs1 as [|x xs1]; [cbn in E; first [discriminate | injection E as <- <-; cbn in R; injection R as <-; cbn; intuition discriminate] |
      cbn in E; injection E as <- E]). destruct xs1; discriminate.
  - intros ys s' R. assert (K : stuck 0 (State Stopping true true [] [] [(0, Failed)] [5] [] [] [])) by (repeat split).
    destruct (stuck_run 0 ys _ s' K R) as [(P & A & _) T]. auto.
Qed.
(* connections accepted while the listener waits for its remotes are closed without a
   word, however long that takes *)
Theorem C83_refused_silently_refuted : exists xs s, apart xs /\ existsb vanished xs = false /\ run state0 xs = Some s /\ settled s /\
  acceptor s = true /\ In 1 (closed s) /\ ~ In 1 (told s) /\ kids s = [(0, Running)].
Proof.
  exists [Start true; Accept 5; Handle true; HandleSys; KidStarts 0 true; StopRequest; HandleSys; Accept 6; Handle true; HandleSys].
  exists (State Stopping true true [] [] [(0, Running)] [5; 6] [0] [1] []).
  split; [|split; [reflexivity|split; [reflexivity|split; [|cbn; intuition discriminate]]]].
  - intros xs1 n xs2 s1 E R.
    repeat (destruct xs1 as [|x xs1]; [cbn in E; first [discriminate | injection E as <- <-; cbn in R; injection R as <-; cbn; intuition discriminate] |
      cbn in E; injection E as <- E]). destruct xs1; discriminate.
  - repeat split; cbn. intros c [E|[]]. discriminate.
Qed.
(* remotes are told apart by address and port only: when a peer has come again from the
   same port and that connection ends first, the older remote is destroyed while it runs *)
Theorem C83_same_port_refuted : exists xs s, run state0 xs = Some s /\ In (KidEnds 1) xs /\ ~ In (KidEnds 0) xs /\
  closed s = [0] /\ kids s = [(1, Ended)] /\ ph s = Alive.
Proof.
  exists [Start true; Accept 5; Handle true; HandleSys; KidStarts 0 true; Accept 5; Handle true; HandleSys; KidStarts 1 true; KidEnds 1; HandleSys].
  exists (State Alive true true [] [] [(1, Ended)] [5; 5] [0; 1] [0] []). repeat split; cbn; intuition discriminate.
Qed.
Print Assumptions C83_stops_refuted.
Print Assumptions C83_refused_silently_refuted.
Print Assumptions C83_same_port_refuted.
