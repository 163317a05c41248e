(* C115: addresses as names of actors, and the ports of the udp manager. *)
From Coq Require Import List Bool Arith Ascii String Lia.
From Verif Require Import ActorPathModel PortModel PortProofs.
Import ListNotations.

(* ---- specification ---- *)
(* the kernel may give port p for a bind to a *)
Definition granted (s : state) (a : address) (pick : option nat) (p : nat) : Prop :=
  pick <> None /\ (port a <> 0 -> p = port a) /\ (port a = 0 -> pick = Some p) /\
  p <> 0 /\ ~ In p (map lport (socks s)) /\ ~ In p (others s).
Definition nameable (a : address) : Prop := Forall (fun c => 33 <= nat_of_ascii c <= 126 /\ c <> slash) (host a).
(* all binds of a history ask for a port *)
Definition ports_asked (es : list event) : Prop := Forall (fun e => match e with Bind _ a _ => port a <> 0 | _ => True end) es.
(* what actors and the io service do without being asked from outside, once a shutdown
   has told all of them to stop *)
Definition internal (e : event) : Prop :=
  match e with Serve | Discard | Start _ | Stop _ | Close _ => True | _ => False end.
(* the datagrams that came to the port of socket n while it existed *)
Fixpoint came (literal : str -> option ip) (show : ip -> str) (s : state) (n : nat) (es : list event) : list gram :=
  match es with
  | [] => []
  | e :: t =>
      (match e with
       | Arrive p g => if existsb (fun k => (num k =? n) && (lport k =? p)) (socks s) then [g] else []
       | _ => []
       end) ++
      match step literal show s e with Some s' => came literal show s' n t | None => [] end
  end.
(* what was received through socket n: by whom, what, and from where *)
Fixpoint through (n : nat) (l : list (nat * answer)) : list (nat * data * address) :=
  match l with
  | [] => []
  | (h, Received d a m) :: t => if m =? n then (h, d, a) :: through n t else through n t
  | _ :: t => through n t
  end.

(* ---- examples: addresses of one network ---- *)
Definition chars := list_ascii_of_string.
Definition shw (i : ip) : str := chars "10.0.0." ++ decimal i.
Definition lit (h : str) : option ip := find (fun i => str_eqb h (shw i)) (seq 0 20).
Definition any_host := chars "0.0.0.0".
Definition a80 := Address any_host 80.
Definition a90 := Address (chars "host") 90.
Definition any0 := Address any_host 0.

(* ---- names ---- *)
Theorem C115_names : forall a b, to_string a = to_string b <-> a = b.
Proof. intros a b. split; [apply to_string_inj|now intros ->]. Qed.
Print Assumptions C115_names.
Example C115_names_ex : to_string (Address (chars "a:1") 2) = chars "a:1:2" /\ to_string (Address (chars "a") 12) = chars "a:12".
Proof. split; reflexivity. Qed.

Theorem C115_valid : forall a, is_valid_actor_name (to_string a) = true <-> nameable a.
Proof. exact valid_name. Qed.
Print Assumptions C115_valid.
Example C115_valid_ex : is_valid_actor_name (to_string (Address [] 7)) = true /\ is_valid_actor_name (to_string (Address (chars "a/b") 7)) = false.
Proof. split; reflexivity. Qed.

(* ---- ports ---- *)
Theorem C115_ports : forall literal show es s, run literal show init es = Some s ->
  NoDup (map lport (socks s)) /\
  forall k, In k (socks s) -> lport k <> 0 /\ ~ In (lport k) (others s) /\ (port (asked k) <> 0 -> lport k = port (asked k)).
Proof.
  intros literal show es s H. pose proof (po_run literal show es init s po_init H) as P.
  split; [apply P|]. intros k I. split; [now apply P|]. split; now apply P.
Qed.
Print Assumptions C115_ports.

(* two sockets have one name only if port 0 was asked for *)
Theorem C115_equal_names : forall literal show es s k1 k2, run literal show init es = Some s -> In k1 (socks s) -> In k2 (socks s) ->
  to_string (asked k1) = to_string (asked k2) -> k1 = k2 \/ (asked k1 = asked k2 /\ port (asked k1) = 0 /\ lport k1 <> lport k2).
Proof.
  intros literal show es s k1 k2 H I1 I2 E. pose proof (po_run literal show es init s po_init H) as P.
  destruct (Nat.eq_dec (lport k1) (lport k2)) as [L|L].
  - left. apply (nodup_map_eq _ _ lport (socks s)); auto. apply P.
  - right. assert (k1 <> k2) by congruence. destruct (same_name s k1 k2 P I1 I2 E H0) as [X Y]. auto.
Qed.
Print Assumptions C115_equal_names.
Example C115_ports_ex : exists s, run lit shw init [OtherTakes 81; Bind 1 any0 (Some 80); Serve; Bind 2 a80 (Some 0); Bind 3 any0 (Some 81); Bind 4 any0 (Some 82); Serve] = Some s /\
  map lport (socks s) = [80; 82] /\ map owner (socks s) = [1; 4] /\ map asked (socks s) = [any0; any0] /\ others s = [81].
Proof. eexists. split; [vm_compute; reflexivity|]. vm_compute. auto. Qed.

(* what the manager does with a bind *)
Theorem C115_bind : forall literal show s h a pick, stopped s = false ->
  exists s', step literal show s (Bind h a pick) = Some s' /\
    (forall p, granted s a pick p -> nameable a ->
       socks s' = socks s ++ [Sock (next s) a h p Made []] /\ notes s' = notes s ++ [Attach (next s)] /\
       told s' = told s ++ (if in_dec Nat.eq_dec h (gone s) then [] else [(h, Bound a)])) /\
    ((forall p, ~ granted s a pick p) \/ ~ nameable a -> s' = s).
Proof.
  intros literal show s h a pick U. exists (bind h a pick s). cbn. rewrite U. split; [reflexivity|].
  assert (AC : forall p, granted s a pick p <-> acquire a pick s = Some p).
  { intros p. unfold granted, acquire, used. split.
    - intros (A & B & C & Z & I & O). destruct pick as [q|]; [|congruence].
      replace (if port a =? 0 then q else port a) with p.
      + apply Nat.eqb_neq in Z. rewrite Z. replace (mem p (map lport (socks s) ++ others s)) with false; [reflexivity|].
        symmetry. apply mem_out. rewrite in_app_iff. tauto.
      + destruct (Nat.eqb_spec (port a) 0) as [X|X]; [specialize (C X); congruence|auto].
    - intros H. destruct pick as [q|]; [|discriminate].
      destruct (_ || _) eqn:E in H; [discriminate|]. injection H as <-. apply orb_false_iff in E. destruct E as [E1 E2].
      apply Nat.eqb_neq in E1. apply mem_out in E2. rewrite in_app_iff in E2. split; [discriminate|].
      destruct (Nat.eqb_spec (port a) 0); repeat split; intros; auto; congruence. }
  split.
  - intros p G V. apply AC in G. apply valid_name in V. unfold bind. rewrite G, V. unfold tell. cbn [gone with_next with_notes with_socks].
    destruct (in_dec Nat.eq_dec h (gone s)) as [X|X].
    + apply mem_in in X. rewrite X. cbn. rewrite app_nil_r. auto.
    + apply mem_out in X. rewrite X. cbn. auto.
  - intros [X|X]; unfold bind.
    + destruct (acquire a pick s) as [p|] eqn:E; [|reflexivity]. destruct (X p). now apply AC.
    + destruct (acquire a pick s); [|reflexivity]. destruct (is_valid_actor_name (to_string a)) eqn:E; [|reflexivity].
      apply valid_name in E. now destruct X.
Qed.
Print Assumptions C115_bind.
Definition bound2 : list event := [Bind 1 a80 (Some 0); Serve; Bind 2 a90 (Some 0); Serve; Start 0; Start 1].
Example C115_bind_ex : exists s, run lit shw init bound2 = Some s /\
  map lport (socks s) = [80; 90] /\ told s = [(1, Bound a80); (2, Bound a90)] /\ map ph (socks s) = [Active; Active] /\
  step lit shw s (Bind 3 (Address (chars "other") 80) (Some 0)) = Some s.
Proof. eexists. split; [vm_compute; reflexivity|]. vm_compute. auto. Qed.

(* ---- a started socket stays until it is stopped ---- *)
Theorem C115_running_stays : forall literal show es s e s' k, ports_asked es -> run literal show init es = Some s ->
  step literal show s e = Some s' -> In k (socks s) -> ph k = Active ->
  exists k', In k' (socks s') /\ num k' = num k /\ owner k' = owner k /\ lport k' = lport k /\
    (ph k' = Active \/ (e = Stop (num k) /\ ph k' = Ended)).
Proof.
  intros literal show es s e s' k F H E I A. destruct (ok_run literal show es init s po_init ko_init F H) as [P K].
  destruct (active_step literal show s e s' k P K E I A) as (k' & I' & (S1 & S2 & S3 & S4) & X). exists k'. auto 6.
Qed.
Print Assumptions C115_running_stays.
Example C115_running_stays_ex : exists s s', run lit shw init (bound2 ++ [Stop 0]) = Some s /\ step lit shw s Serve = Some s' /\
  map ph (socks s) = [Ended; Active] /\ map ph (socks s') = [Leaving; Active].
Proof. do 2 eexists. split; [vm_compute; reflexivity|]. split; [vm_compute; reflexivity|]. vm_compute. auto. Qed.

(* the port stays taken, whatever happens to the handler: no bind to it is answered *)
Theorem C115_port_kept : forall literal show es s es' s' k, ports_asked (es ++ es') -> run literal show init es = Some s ->
  run literal show s es' = Some s' -> In k (socks s) -> ph k = Active -> ~ In (Stop (num k)) es' ->
  (exists k', In k' (socks s') /\ num k' = num k /\ owner k' = owner k /\ lport k' = lport k /\ ph k' = Active) /\
  forall h a pick, port a = lport k -> stopped s' = false -> step literal show s' (Bind h a pick) = Some s'.
Proof.
  intros literal show es s es' s' k F H H' I A N. apply Forall_app in F. destruct F as [F F'].
  destruct (ok_run literal show es init s po_init ko_init F H) as [P K].
  destruct (active_run literal show es' s s' k P K F' H' I A N) as (k' & I' & (S1 & S2 & S3 & S4) & A').
  split; [exists k'; auto 6|]. intros h a pick E U. cbn. rewrite U. f_equal.
  apply (taken_port s' h a pick k'); [exact I'|congruence|]. rewrite E. now apply P.
Qed.
Print Assumptions C115_port_kept.
Example C115_port_kept_ex : exists s s', run lit shw init bound2 = Some s /\
  run lit shw s [HandlerEnds 1; Arrive 80 (Gram (7, 5) [1]); Deliver 0; Stop 1; Serve; Close 1; Bind 2 a80 (Some 0)] = Some s' /\
  map lport (socks s') = [80] /\ map ph (socks s') = [Active] /\ told s' = told s.
Proof. do 2 eexists. split; [vm_compute; reflexivity|]. split; [vm_compute; reflexivity|]. vm_compute. auto. Qed.

(* ---- the end ---- *)
Theorem C115_settles : forall literal show es s, ports_asked es -> run literal show init es = Some s ->
  exists bound, forall es' s', Forall internal es' -> run literal show s es' = Some s' -> List.length es' <= bound.
Proof.
  intros literal show es s F H. destruct (ok_run literal show es init s po_init ko_init F H) as [P K].
  exists (measure s). intros es' s' O H'. pose proof (measure_run literal show es' s s' P K O H'). lia.
Qed.
Print Assumptions C115_settles.
Theorem C115_rest : forall literal show es s, ports_asked es -> run literal show init es = Some s ->
  stopping s = true -> (forall e, internal e -> step literal show s e = None) -> stopped s = true /\ socks s = [].
Proof.
  intros literal show es s F H ST R. destruct (ok_run literal show es init s po_init ko_init F H) as [P K].
  exact (rest literal show s P K ST R).
Qed.
Print Assumptions C115_rest.
Example C115_rest_ex : exists s, run lit shw init (bound2 ++ [Shutdown; Bind 1 (Address any_host 70) (Some 0); Stop 1; Stop 0; Serve; Close 2; Serve; Serve; Close 0; Close 1]) = Some s /\
  stopped s = true /\ socks s = [] /\ told s = [(1, Bound a80); (2, Bound a90); (1, Bound (Address any_host 70))].
Proof. eexists. split; [vm_compute; reflexivity|]. vm_compute. auto. Qed.

(* ---- datagrams ---- *)
Lemma came_eq : forall literal show es s s' n, ports_ok s -> run literal show s es = Some s' -> came literal show s n es = arrivals literal show s n es.
Proof.
  induction es as [|e es IH]; cbn; intros s s' n P H; [reflexivity|]. destruct (step literal show s e) as [s1|] eqn:E; [|discriminate].
  f_equal; [|eapply IH; [eapply po_step; eauto|exact H]]. destruct e; try reflexivity. cbn.
  destruct (existsb (fun k => (num k =? n) && (lport k =? p)) (socks s)) eqn:X.
  - apply existsb_exists in X. destruct X as (k & I & X). apply andb_true_iff in X. destruct X as [X1 X2]. apply Nat.eqb_eq in X1. subst n.
    now rewrite (get_some s k (p_num _ P) I), X2.
  - destruct (get n s) as [k|] eqn:G; [|reflexivity]. apply get_in in G. destruct G as [I N]. destruct (lport k =? p) eqn:L; [|reflexivity].
    exfalso. assert (Y : existsb (fun k => (num k =? n) && (lport k =? p)) (socks s) = true).
    { apply existsb_exists. exists k. split; [exact I|]. rewrite L. apply Nat.eqb_eq in N. now rewrite N. }
    congruence.
Qed.
Lemma through_eq : forall n l, through n l = heard n l.
Proof.
  induction l as [|[h m] l IH]; [reflexivity|]. change (heard n ((h, m) :: l)) with (heard n ([(h, m)] ++ l)). rewrite heard_app, <- IH.
  destruct m as [a|d a m|m]; [reflexivity| |reflexivity]. rewrite heard_recv. cbn. destruct (m =? n); reflexivity.
Qed.
(* the handler of a socket hears every datagram that came to its port, once and in
   order; those it has not heard yet wait.  Nobody else hears them *)
Theorem C115_datagrams : forall literal show es s k, run literal show init es = Some s -> In k (socks s) -> ~ In (owner k) (gone s) ->
  exists taken, came literal show init (num k) es = taken ++ waiting k /\
    through (num k) (told s) = map (fun g => (owner k, payload g, Address (show (fst (from g))) (snd (from g)))) taken.
Proof.
  intros literal show es s k H I G. destruct (D_run literal show es _ init s po_init (D_init show) H) as [_ X].
  destruct (X k I) as (taken & Y & Z). exists taken. rewrite (came_eq literal show es init s _ po_init H), through_eq. split; [exact Y|]. now apply Z.
Qed.
Print Assumptions C115_datagrams.
Definition two_in : list event :=
  bound2 ++ [Arrive 90 (Gram (7, 5) [1]); Arrive 80 (Gram (8, 5) [2; 2]); Arrive 90 (Gram (9, 6) [3]); Deliver 1; Deliver 0; Arrive 70 (Gram (9, 6) [4])].
Example C115_datagrams_ex : exists s, run lit shw init two_in = Some s /\
  came lit shw init 1 two_in = [Gram (7, 5) [1]; Gram (9, 6) [3]] /\
  through 1 (told s) = [(2, [1], Address (chars "10.0.0.7") 5)] /\ through 0 (told s) = [(1, [2; 2], Address (chars "10.0.0.8") 5)].
Proof. eexists. split; [vm_compute; reflexivity|]. vm_compute. auto. Qed.

(* an answer to the address of a received datagram goes to where it came from, from the
   port it came to *)
Theorem C115_reply : forall literal show es s h d a n k, (forall i, literal (show i) = Some i) ->
  run literal show init es = Some s -> In (h, Received d a n) (told s) -> In k (socks s) -> num k = n -> ph k = Active ->
  exists g, In g (came literal show init n es) /\ payload g = d /\
    forall d', exists s', step literal show s (Send n d' a true) = Some s' /\
      sent s' = sent s ++ [Packet (lport k) (from g) d'].
Proof.
  intros literal show es s h d a n k L H T I N A. pose proof (po_run literal show es init s po_init H) as P.
  destruct (heard_run literal show es _ init s h d a n po_init (D_init show) H T) as [[]|(g & J & X & Y)].
  exists g. rewrite (came_eq literal show es init s _ po_init H). split; [exact J|]. split; [auto|]. intros d'.
  cbn. subst n. rewrite (get_some s k (p_num _ P) I), A, Y. cbn. rewrite L. eexists. split; [reflexivity|]. cbn.
  now destruct (from g).
Qed.
Print Assumptions C115_reply.
Example C115_reply_ex : exists s s', run lit shw init two_in = Some s /\ step lit shw s (Send 1 [5] (Address (chars "10.0.0.7") 5) true) = Some s' /\
  sent s' = [Packet 90 (7, 5) [5]] /\ lit (shw 7) = Some 7.
Proof. do 2 eexists. split; [vm_compute; reflexivity|]. split; [vm_compute; reflexivity|]. vm_compute. auto. Qed.

(* ---- what does not hold ---- *)
(* with port 0 asked for twice, stopping the younger socket destroys the elder, which
   runs; the younger keeps its port, and the manager does not stop *)
Theorem C115_port_zero_refuted : exists es s s', run lit shw init es = Some s /\ map ph (socks s) = [Active; Active] /\ asked (nth 0 (socks s) (Sock 0 a80 0 0 Made [])) = any0 /\
  run lit shw s [Stop 1; Serve; Close 0; Shutdown] = Some s' /\ map num (socks s') = [1] /\ map ph (socks s') = [Ended] /\
  stopped s' = false /\ (forall e, internal e -> step lit shw s' e = None).
Proof.
  exists [Bind 1 any0 (Some 501); Serve; Bind 2 any0 (Some 502); Serve; Start 0; Start 1]. do 2 eexists.
  split; [vm_compute; reflexivity|]. split; [reflexivity|]. split; [reflexivity|]. split; [vm_compute; reflexivity|].
  split; [reflexivity|]. split; [reflexivity|]. split; [reflexivity|].
  intros e O. destruct e; cbn in O; try easy; destruct n as [|[|n]]; reflexivity.
Qed.
Print Assumptions C115_port_zero_refuted.
(* bound may be told and nothing be bound: the manager is waiting for its children *)
Theorem C115_bound_refuted : exists s, run lit shw init (bound2 ++ [Shutdown; Bind 3 (Address any_host 70) (Some 0); Serve; Close 2]) = Some s /\
  In (3, Bound (Address any_host 70)) (told s) /\ ~ In 70 (map lport (socks s)).
Proof. eexists. split; [vm_compute; reflexivity|]. cbn. split; [tauto|]. intuition discriminate. Qed.
Print Assumptions C115_bound_refuted.
(* a bind to another address of the machine is not answered if the port is taken *)
Theorem C115_host_refuted : exists s, run lit shw init [Bind 1 (Address (chars "10.0.0.1") 80) (Some 0); Serve; Bind 2 (Address (chars "10.0.0.2") 80) (Some 0)] = Some s /\
  told s = [(1, Bound (Address (chars "10.0.0.1") 80))].
Proof. eexists. split; [vm_compute; reflexivity|reflexivity]. Qed.
Print Assumptions C115_host_refuted.
(* a datagram to a host given by name is not sent, and nobody is told *)
Theorem C115_host_name_refuted : exists s, run lit shw init bound2 = Some s /\ step lit shw s (Send 0 [1] (Address (chars "localhost") 9) true) = Some s.
Proof. eexists. split; [vm_compute; reflexivity|reflexivity]. Qed.
Print Assumptions C115_host_name_refuted.
