(* C71: a TCP connection.  C72: a UDP socket.  C73: the replies of the managers. *)
From Coq Require Import List Bool Arith Lia.
From Verif Require Import IoModel IoSpec IoProofs.
Import ListNotations.

(* ---- C71 ---- *)
(* the bytes told to the handler are the bytes the peer sent, in order, without gap or
   repetition; those still missing wait in the kernel; no chunk is empty *)
Theorem C71_stream : forall Byte xs (s : conn Byte), run (conn0 Byte) xs = Some s ->
  arrived s = told_bytes (log s) ++ incoming s /\ forall h d, In (Told h (Received d)) (log s) -> d <> [].
Proof. intros Byte xs s H. apply reach_inv in H. split; [exact (i_bytes _ _ _ H)|exact (i_full _ _ _ H)]. Qed.
(* all of it is told to the handler assigned first *)
Theorem C71_one_handler : forall Byte xs (s : conn Byte) h t, run (conn0 Byte) xs = Some s -> In (Told h t) (log s) ->
  exists hs, assigns xs = h :: hs.
Proof.
  intros Byte xs s h t H I. apply reach_inv in H. pose proof (i_who _ _ _ H _ _ I) as R.
  pose proof (i_assign _ _ _ H) as A. rewrite R in A. exact A.
Qed.
(* the server is told of the connection once, before anything else happens *)
Theorem C71_connected_first : forall Byte xs (s : conn Byte), run (conn0 Byte) xs = Some s ->
  log s = [] \/ exists l, log s = Connected :: l /\ ~ In Connected l.
Proof.
  intros Byte xs s H. apply reach_inv in H. pose proof (i_first _ _ _ H) as F.
  destruct (ph s); [left; exact (proj1 F)|right; exact F|right; exact F|right; exact F].
Qed.
(* while the handler lives, it is told of the end at most once and nothing after it *)
Theorem C71_closed_last : forall Byte xs (s : conn Byte) l1 h l2, run (conn0 Byte) xs = Some s -> ~ In HandlerEnds xs ->
  log s = l1 ++ Told h Closed :: l2 -> forall e, In e l2 -> is_told e = false.
Proof. intros Byte xs s l1 h l2 H N. exact (f_last _ (fin_run _ _ _ _ _ conn0_inv fin0 N H) l1 h l2). Qed.
(* and when it is told, without a reset or a wait that ends for nothing, the peer has
   closed and everything it sent was told before *)
Theorem C71_clean_end : forall Byte xs (s : conn Byte) l1 h l2, run (conn0 Byte) xs = Some s -> ~ In HandlerEnds xs ->
  ~ In (Complete Reset) xs -> ~ In (Complete Spurious) xs -> log s = l1 ++ Told h Closed :: l2 ->
  peer_done s = true /\ told_bytes l1 = arrived s.
Proof.
  intros Byte xs s l1 h l2 H N N1 N2 E.
  assert (D : drained s).
  { apply (drained_run xs [] [] (conn0 Byte)); auto using conn0_inv, fin0. unfold drained. cbn. intros L. inversion L. }
  destruct D as [D1 D2]; [rewrite E, !sum_app, sum_cons; cbn; lia|].
  split; [exact D2|]. pose proof (i_bytes _ _ _ (reach_inv _ _ H)) as B. rewrite D1, app_nil_r, E, told_app in B. cbn in B.
  assert (Z : told_bytes l2 = []).
  { pose proof (C71_closed_last _ _ _ _ _ _ H N E) as L. clear -L. induction l2 as [|e l2 IH]; [reflexivity|].
    pose proof (L e (or_introl eq_refl)) as T. destruct e; try discriminate; cbn; apply IH; intros e' I; apply L; right; exact I. }
  rewrite Z, app_nil_r in B. auto.
Qed.
(* writes are handled in the order they were told in; what gets through is, for each
   handled one, the part the kernel took *)
Theorem C71_writes : forall Byte xs (s : conn Byte), run (conn0 Byte) xs = Some s ->
  writes xs = handled_writes (log s) ++ mail_writes (mail s) /\ wire s = sent_bytes (log s) /\
  ((forall e, In e (log s) -> ~ write_failed e) -> wire s ++ concat (mail_writes (mail s)) = concat (writes xs)).
Proof.
  intros Byte xs s H. apply reach_inv in H. split; [symmetry; exact (i_writes _ _ _ H)|]. split; [exact (i_wire _ _ _ H)|].
  intros F. rewrite (i_wire _ _ _ H), (write_whole _ F (i_size _ _ _ H)), <- concat_app, (i_writes _ _ _ H). reflexivity.
Qed.
(* while the actor runs, has a handler and nothing to do, it waits for more to arrive *)
Theorem C71_receiving : forall Byte xs (s : conn Byte), run (conn0 Byte) xs = Some s ->
  ph s = Alive -> receiver s <> None -> mail s = [] -> armed s = true.
Proof.
  intros Byte xs s H P R M. destruct (l_armed _ (live_run _ _ _ live0 H) (or_intror P) R) as [X|[X|X]]; [exact X| |]; rewrite M in X; destruct X.
Qed.
(* the connection ends with its handler, as soon as the mailbox is empty *)
Theorem C71_ends_with_handler : forall Byte xs (s : conn Byte), run (conn0 Byte) xs = Some s -> In HandlerEnds xs -> mail s = [] ->
  ph s = Stopping \/ ph s = Destroyed.
Proof. exact @ended_gone. Qed.
Print Assumptions C71_receiving.
Print Assumptions C71_ends_with_handler.
Example C71_handler_ends_ex : run (conn0 nat) [Start; Tell (MAssign 7); Handle 0 false; Arrive [1; 2]; Complete (Ready 1); HandlerEnds; Handle 0 false; Handle 0 false; Handle 0 false] =
  Some (Conn Stopping [] (Some 7) true [2] false [] false [1; 2] [Connected; Told 7 (Received [1]); Told 7 Closed]).
Proof. reflexivity. Qed.
Print Assumptions C71_stream.
Print Assumptions C71_one_handler.
Print Assumptions C71_connected_first.
Print Assumptions C71_closed_last.
Print Assumptions C71_clean_end.
Print Assumptions C71_writes.

Definition talk : list (action nat) :=
  [Start; Arrive [1; 2; 3]; Tell (MAssign 7); Handle 0 false; Complete (Ready 2); Tell (MWrite [8; 9]); Tell (MAssign 5); Arrive [4]; PeerDone;
   Complete (Ready 2); Handle 2 false; Handle 0 false; Complete Eof; Handle 0 false; Handle 0 false; Destroy].
Example C71_talk_ex : run (conn0 nat) talk = Some (Conn Destroyed [] (Some 7) false [] true [8; 9] true [1; 2; 3; 4]
  [Connected; Told 7 (Received [1; 2]); Told 7 (Received [3; 4]); Wrote [8; 9] 2 true; Told 7 Closed]).
Proof. reflexivity. Qed.

(* one would expect the bytes of accepted writes to arrive whole: the socket does not
   block, so that the rest of a write for which there is no room is lost, and the next
   one follows *)
Theorem C71_full_socket_refuted : exists xs (s : conn nat), run (conn0 nat) xs = Some s /\ mail s = [] /\
  (forall d, ~ In (Dropped d) (log s)) /\ writes xs = [[1; 2; 3]; [4]] /\ wire s = [1; 4].
Proof.
  exists [Start; Tell (MAssign 7); Handle 0 false; Tell (MWrite [1; 2; 3]); Tell (MWrite [4]); Handle 1 false; Handle 1 false].
  exists (Conn Alive [] (Some 7) true [] false [1; 4] true [] [Connected; Wrote [1; 2; 3] 1 false; Wrote [4] 1 true]).
  repeat split. intros d [E|[E|[E|[]]]]; discriminate.
Qed.
(* nor are writes kept that come between the connection and the assignment *)
Theorem C71_early_write_refuted : exists xs (s : conn nat), run (conn0 nat) xs = Some s /\ mail s = [] /\
  writes xs = [[1]] /\ In Connected (log s) /\ receiver s = Some 7 /\ wire s = [].
Proof.
  exists [Start; Tell (MWrite [1]); Handle 0 false; Tell (MAssign 7); Handle 0 false].
  exists (Conn Alive [] (Some 7) true [] false [] true [] [Connected; Dropped [1]]). repeat split; cbn; auto.
Qed.
(* a wait that ends without an error and without data counts as the end of the
   connection, with the peer still there *)
Theorem C71_spurious_refuted : exists xs (s : conn nat), run (conn0 nat) xs = Some s /\ In (Told 7 Closed) (log s) /\
  peer_done s = false /\ ph s = Stopping.
Proof.
  exists [Start; Tell (MAssign 7); Handle 0 false; Complete Spurious; Handle 0 false; Handle 0 false].
  exists (Conn Stopping [] (Some 7) false [] false [] true [] [Connected; Told 7 Closed]). repeat split; cbn; auto.
Qed.
Print Assumptions C71_full_socket_refuted.
Print Assumptions C71_early_write_refuted.
Print Assumptions C71_spurious_refuted.

(* ---- C72 ---- *)
(* datagrams are told whole and one by one, in the order they arrived in, each with
   the address it came from; what is sent is handed over unchanged and in order *)
Theorem C72_datagrams : forall Byte Addr cap b xs (s : sock Byte Addr), urun cap (sock0 b) xs = UOk s ->
  (forall p, In p (packets s) -> length (fst p) <= cap) ->
  (exists rest, packets s = utold s ++ rest) /\ outgoing s = sends xs /\
  (uph s = UAlive -> finished s = None -> queued s = [] -> utold s = packets s).
Proof.
  intros Byte Addr cap b xs s H L. pose proof (urun_inv _ _ _ _ _ (sock0_inv cap b) H) as I.
  split; [|split].
  - destruct (u_prefix _ _ _ I) as [rest E]. rewrite cut_whole in E by exact L. exists rest. exact E.
  - exact (u_out _ _ _ I).
  - intros P F Q. pose proof (u_all _ _ _ I P) as E. rewrite F, Q, cut_whole in E by exact L. cbn in E. rewrite app_nil_r in E. auto.
Qed.
(* without destruction nothing goes wrong; while the actor lives a receive is pending
   or complete, so that the next datagram will be taken *)
Theorem C72_safe : forall Byte Addr cap b (xs : list (uaction Byte Addr)), ~ In UDestroyReceiver xs ->
  urun cap (sock0 b) xs <> UUB /\ forall s, urun cap (sock0 b) xs = UOk s -> (finished s = None <-> uarmed s = true).
Proof.
  intros Byte Addr cap b xs N. destruct (urun_safe cap xs [] (sock0 b) (sock0_inv cap b) eq_refl N) as [A B].
  split; [exact A|]. intros s H. pose proof (urun_inv _ _ _ _ _ (sock0_inv cap b) H) as I.
  split; [exact (u_live _ _ _ I (B _ H))|exact (u_arm _ _ _ I)].
Qed.
Print Assumptions C72_datagrams.
Print Assumptions C72_safe.
Example C72_ex : urun 4 (sock0 [0; 0; 0; 0])
  [UArrive [1; 2; 3] 10; UReceive; UArrive [] 11; UArrive [4] 12; UHandle; UReceive; UHandle; USend [5] 10; UReceive] =
  UOk (Sock UAlive [] [4; 2; 3; 0] (Some 12) false (Some 1) [([1; 2; 3], 10); ([], 11); ([4], 12)] [([5], 10)] [([1; 2; 3], 10); ([], 11)]).
Proof. reflexivity. Qed.
(* the buffer of a pending receive is kept alive, but not the place for the sender's
   address: a datagram that comes while the actor is destroyed is written to it *)
Theorem C72_destruction_refuted : exists xs : list (uaction nat nat), urun 4 (sock0 [0; 0; 0; 0]) xs = UUB.
Proof. exists [UDestroyReceiver; UArrive [1] 10; UReceive]. reflexivity. Qed.
Print Assumptions C72_destruction_refuted.

(* ---- C73 ---- *)
(* while addresses resolve, each command is answered at most once, to its handler, and
   a handler is told of a connection exactly when one was made; a UDP socket is
   announced exactly when it was bound *)
Theorem C73_replies : forall Addr net (c : command Addr) s, resolves net = true ->
  exists s' r, manage net c s = MOk s' /\ replies s' = replies s ++ r /\ length r <= 1 /\
    (forall h x, In (h, x) r -> handler_of c = Some h) /\
    ((exists h, In (h, TcpConnected) r) <-> exists a, connections s' = connections s ++ [a]) /\
    (forall h a, c = UdpBind h a -> (In (h, Bound a) r <-> listening s' = listening s ++ [a])) /\
    (forall h a, c = TcpConnect (Some h) a -> still_there net = true -> r <> []).
Proof.
  intros Addr net c s R.
  assert (NE : forall (l : list Addr), (exists a, l = l ++ [a]) -> False).
  { intros l [a E]. apply (f_equal (@length _)) in E. rewrite app_length in E. cbn in E. lia. }
  assert (NE1 : forall (l : list Addr) a, l <> l ++ [a]) by (intros l a E; apply (NE l); eauto).
  assert (G : forall r s', manage net c s = MOk s' -> replies s' = replies s ++ r -> length r <= 1 ->
    (forall h x, In (h, x) r -> handler_of c = Some h) ->
    ((exists h, In (h, TcpConnected) r) <-> exists a, connections s' = connections s ++ [a]) ->
    (forall h a, c = UdpBind h a -> (In (h, Bound a) r <-> listening s' = listening s ++ [a])) ->
    (forall h a, c = TcpConnect (Some h) a -> still_there net = true -> r <> []) ->
    exists s' r, manage net c s = MOk s' /\ replies s' = replies s ++ r /\ length r <= 1 /\
    (forall h x, In (h, x) r -> handler_of c = Some h) /\
    ((exists h, In (h, TcpConnected) r) <-> exists a, connections s' = connections s ++ [a]) /\
    (forall h a, c = UdpBind h a -> (In (h, Bound a) r <-> listening s' = listening s ++ [a])) /\
    (forall h a, c = TcpConnect (Some h) a -> still_there net = true -> r <> [])).
  { intros r s'. intros. exists s', r. repeat (split; [assumption|]). assumption. }
  assert (S1 : forall (h h' : nat) (x y : reply Addr), In (h', x) [(h, y)] -> h' = h /\ x = y).
  { intros h h' x y [[= -> ->]|[]]. auto. }
  assert (W : forall (h : nat) (y : reply Addr), y <> TcpConnected -> (exists h', In (h', TcpConnected) [(h, y)]) <-> exists a, connections s = connections s ++ [a]).
  { intros h y Y. split; intros K; [destruct K as [h' K]; apply S1 in K as [_ K]; destruct Y; auto|destruct (NE _ K)]. }
  assert (W0 : (exists h' : nat, In (h', @TcpConnected Addr) []) <-> exists a, connections s = connections s ++ [a]).
  { split; intros K; [destruct K as [h' []]|destruct (NE _ K)]. }
  destruct c as [h a|[h|] a|h a]; unfold manage in *; rewrite ?R in *.
  - refine (G [(h, Bound a)] _ eq_refl eq_refl (le_n 1) _ (W h _ _) _ _); try discriminate.
    intros h' x K. apply S1 in K as [-> _]. reflexivity.
  - destruct (connects net); [destruct (still_there net)|].
    + refine (G [(h, TcpConnected)] _ eq_refl eq_refl (le_n 1) _ _ _ _); try discriminate.
      * intros h' x K. apply S1 in K as [-> _]. reflexivity.
      * split; intros _; [exists a; reflexivity|exists h; left; reflexivity].
    + refine (G [] _ eq_refl (eq_sym (app_nil_r _)) (le_S _ _ (le_n 0)) _ W0 _ _); try discriminate. intros h' x [].
    + refine (G [(h, CommandFail)] _ eq_refl eq_refl (le_n 1) _ (W h _ _) _ _); try discriminate.
      intros h' x K. apply S1 in K as [-> _]. reflexivity.
  - refine (G [] _ eq_refl (eq_sym (app_nil_r _)) (le_S _ _ (le_n 0)) _ W0 _ _); try discriminate. intros h' x [].
  - destruct (bindable net).
    + refine (G [(h, Bound a)] _ eq_refl eq_refl (le_n 1) _ (W h _ _) _ _); try discriminate.
      * intros h' x K. apply S1 in K as [-> _]. reflexivity.
      * intros h' a' [= <- <-]. split; intros _; [reflexivity|left; reflexivity].
    + refine (G [] _ eq_refl (eq_sym (app_nil_r _)) (le_S _ _ (le_n 0)) _ W0 _ _); try discriminate; [intros h' x []|].
      intros h' a' _. split; [intros []|]. intros E. destruct (NE1 _ _ E).
Qed.
(* a connect is answered with a failure exactly when the network refused it *)
Theorem C73_fail : forall Addr net h (a : Addr) s s', manage net (TcpConnect (Some h) a) s = MOk s' ->
  (replies s' = replies s ++ [(h, CommandFail)] <-> connects net = false) /\
  (connections s' = connections s ++ [a] <-> connects net = true /\ still_there net = true).
Proof.
  intros Addr net h a s s' H. unfold manage in H.
  assert (NE : forall A (l : list A) x, l <> l ++ [x]).
  { intros A l x E. apply (f_equal (@length _)) in E. rewrite app_length in E. cbn in E. lia. }
  destruct (resolves net); [|discriminate].
  destruct (connects net); [destruct (still_there net)|]; injection H as <-; cbn.
  - split; split; intros E; auto; try discriminate. apply app_inv_head in E. discriminate.
  - split; split; intros E; try discriminate; [destruct (NE _ _ _ E)|destruct (NE _ _ _ E)|destruct E; discriminate].
  - split; split; intros E; auto; try discriminate; [destruct (NE _ _ _ E)|destruct E; discriminate].
Qed.
(* a TCP bind is answered at once, and the address is listened at exactly when it can
   be bound *)
Theorem C73_bind : forall Addr net h (a : Addr) s s', manage net (TcpBind h a) s = MOk s' ->
  replies s' = replies s ++ [(h, Bound a)] /\ connections s' = connections s /\
  (listening s' = listening s ++ [a] <-> bindable net = true) /\ (listening s' = listening s <-> bindable net = false).
Proof.
  intros Addr net h a s s' H. unfold manage in H.
  assert (NE : forall A (l : list A) x, l <> l ++ [x]).
  { intros A l x E. apply (f_equal (@length _)) in E. rewrite app_length in E. cbn in E. lia. }
  destruct (resolves net); [|discriminate]. injection H as <-. cbn. split; [reflexivity|]. split; [reflexivity|].
  destruct (bindable net); split; split; intros E; auto; try discriminate; [|destruct (NE _ _ _ E)].
  symmetry in E. destruct (NE _ _ _ E).
Qed.
Print Assumptions C73_bind.
Example C73_bind_ex : manage (Network true true true true) (TcpBind 4 80) (MState [22] [] []) = MOk (MState [22; 80] [] [(4, Bound 80)]).
Proof. reflexivity. Qed.
Print Assumptions C73_replies.
Print Assumptions C73_fail.
Example C73_ex : manage_all [(Network true false true true, TcpConnect (Some 1) 80); (Network true true true true, TcpConnect (Some 2) 80);
    (Network true true true false, UdpBind 3 53)] (MState [] [] []) =
  MOk (MState [] [80] [(1, CommandFail); (2, TcpConnected)]).
Proof. reflexivity. Qed.
(* an address that does not resolve is dereferenced before the error is looked at *)
Theorem C73_unresolved_refuted : exists net (c : command nat) s, manage net c s = MUB.
Proof. exists (Network false true true true), (TcpConnect (Some 1) 80), (MState [] [] []). reflexivity. Qed.
(* the reply bound does not mean that anything listens *)
Theorem C73_bound_refuted : exists net h (a : nat) s', manage net (TcpBind h a) (MState [] [] []) = MOk s' /\
  In (h, Bound a) (replies s') /\ listening s' = [].
Proof. exists (Network true true true false), 1, 80, (MState [] [] [(1, Bound 80)]). repeat split. cbn. auto. Qed.
(* a UDP bind that fails is not answered *)
Theorem C73_silent_refuted : exists net h (a : nat) s', manage net (UdpBind h a) (MState [] [] []) = MOk s' /\ replies s' = [].
Proof. exists (Network true true true false), 1, 80, (MState [] [] []). repeat split. Qed.
Print Assumptions C73_unresolved_refuted.
Print Assumptions C73_bound_refuted.
Print Assumptions C73_silent_refuted.
