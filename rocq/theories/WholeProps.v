(* C85: a system of actors that is left alone handles every message *)
From Coq Require Import List Bool Arith Lia Permutation.
From Verif Require Import MailboxModel MailboxProofs WholeModel WholeSpec WholeProofs.
Import ListNotations.

Lemma reach_inv tp n t xs s : reachable tp n t xs s -> inv tp s.
Proof. intros H. exact (run_inv tp xs (init n t) s (inv_init tp n t) H). Qed.
Lemma reach_owed tp n t xs s : reachable tp n t xs s -> owed (outside n xs) s /\ length (boxes s) = n /\ length (workers s) = t.
Proof.
  intros H. destruct (run_owed tp xs [] (init n t) s (inv_init tp n t) (owed_init n t) H) as (O & L1 & L2). cbn [init boxes workers] in *. rewrite !repeat_length in *. auto.
Qed.

(* it comes to rest: from any state there is a number of steps that the system can make on its own *)
Theorem C85_settles : forall tp n t xs s, reachable tp n t xs s ->
  exists N, forall ys s', Forall (own []) ys -> run tp s ys = Some s' -> length ys <= N.
Proof. intros tp n t xs s H. exists (phi s). intros ys s' F R. pose proof (run_phi tp ys s s' (reach_inv _ _ _ _ _ H) F R). lia. Qed.

(* at rest: nothing is queued, every thread sleeps; what was told is what was told from outside and what
   the handled messages ask for; and every actor that is open has handled what it was told, the user
   messages if it is started *)
Theorem C85_all_handled : forall tp n t xs s, t > 0 -> reachable tp n t xs s -> settled tp [] s ->
  tasks s = [] /\ callers s = [] /\ Forall (fun x => x = Waiting) (workers s) /\
  Permutation (told s) (outside n xs ++ asked n 0 (boxes s)) /\
  forall a b, nth_error (boxes s) a = Some b -> is_open b = true ->
    handled_by b Sys = told_to a Sys (told s) /\ (started b = true -> handled_by b User = told_to a User (told s)).
Proof.
  intros tp n t xs s T H St. pose proof (reach_inv _ _ _ _ _ H) as I. destruct (reach_owed _ _ _ _ _ H) as (O & L1 & L2).
  assert (HB : forall w, In w [] -> exists a id todo tell, nth_error (workers s) w = Some (Work a id todo tell)) by (intros w []).
  assert (H0 : exists w, w < length (workers s) /\ ~ In w []) by (exists 0; split; [lia|intros []]).
  destruct (settled_state tp s [] I St HB H0) as (C & Ts & W).
  assert (FW : forall x, In x (workers s) -> x = Waiting). { intros x X. apply In_nth_error in X as (w & X). apply (W w x X). intros []. }
  split; [exact Ts|]. split; [exact C|]. split; [apply Forall_forall; exact FW|]. split.
  - unfold owed in O. rewrite L1 in O. assert (Z : left_over n (workers s) = []).
    { clear -FW. induction (workers s) as [|x l IH]; [reflexivity|]. cbn. rewrite (FW x (or_introl eq_refl)). apply IH. intros y Y. apply FW. right. exact Y. }
    rewrite Z, app_nil_r in O. symmetry. exact O.
  - intros a b N Op. apply (settled_handled tp s [] a b I St HB H0 N Op). intros w x [].
Qed.

(* threads that stay inside handlers, whoever they are, hold up only the actors they run, as long as there is one more thread *)
Theorem C85_blocked : forall tp n t xs s B, reachable tp n t xs s -> settled tp B s ->
  (forall w, In w B -> in_handler s w) -> (exists w, w < t /\ ~ In w B) ->
  tasks s = [] /\ callers s = [] /\
  forall a b, nth_error (boxes s) a = Some b -> is_open b = true -> (forall w x, In w B -> nth_error (workers s) w = Some x -> ~ occupied a x) ->
    handled_by b Sys = told_to a Sys (told s) /\ (started b = true -> handled_by b User = told_to a User (told s)).
Proof.
  intros tp n t xs s B H St HB H0. pose proof (reach_inv _ _ _ _ _ H) as I. destruct (reach_owed _ _ _ _ _ H) as (O & L1 & L2). rewrite <- L2 in H0.
  destruct (settled_state tp s B I St HB H0) as (C & Ts & W). split; [exact Ts|]. split; [exact C|]. intros a b N Op Oc. exact (settled_handled tp s B a b I St HB H0 N Op Oc).
Qed.

(* an actor waiting in the queue is run after those before it, of which there are fewer than there are actors, none of them twice *)
Theorem C85_fair : forall tp n t xs s ys s' l1 a l2, reachable tp n t xs s -> run tp s ys = Some s' -> tasks s = l1 ++ a :: l2 ->
  NoDup (l1 ++ [a]) /\ length l1 < n /\
  (length (begun s) + length l1 < length (begun s') -> firstn (S (length (begun s) + length l1)) (begun s') = begun s ++ l1 ++ [a]).
Proof.
  intros tp n t xs s ys s' l1 a l2 H R T. destruct (reach_owed _ _ _ _ _ H) as (_ & L1 & _). rewrite <- L1. exact (fair tp s ys s' l1 a l2 (reach_inv _ _ _ _ _ H) R T).
Qed.

(* an actor is run by one thread at a time *)
Theorem C85_one_thread : forall tp n t xs s v w a i j p q f g, reachable tp n t xs s ->
  nth_error (workers s) v = Some (Work a i p f) -> nth_error (workers s) w = Some (Work a j q g) -> v = w.
Proof.
  intros tp n t xs s v w a i j p q f g H Nv Nw. destruct (Nat.eq_dec v w) as [E|E]; [exact E|]. exfalso.
  pose proof (other_not_on tp s w a j q g v _ (reach_inv _ _ _ _ _ H) Nw Nv E) as X. cbn in X. rewrite Nat.eqb_refl in X. discriminate.
Qed.

(* whatever the threads do, what an actor handles from one sender is a beginning of what that sender told it, and everything it handles it was told *)
Theorem C85_order : forall tp n t xs s a b k who, reachable tp n t xs s -> nth_error (boxes s) a = Some b ->
  prefix (handled_by b k) (told_to a k (told s)) /\ prefix (from job who (handled_by b k)) (from job who (told_to a k (told s))).
Proof.
  intros tp n t xs s a b k who H N. pose proof (reach_inv _ _ _ _ _ H) as I. pose proof (i_reach _ _ I a b N) as R. rewrite <- (i_told _ _ I a b k N). split.
  - destruct (handled_prefix job tp b k R) as (l & E). destruct (accepted_prefix job tp b k R) as (l' & E'). exists (l ++ l'). unfold handled_by. rewrite E', E, app_assoc. reflexivity.
  - exact (per_sender_order job tp b k who R).
Qed.

(* ---- examples ---- *)
(* some enabled own step, of threads not in B *)
Fixpoint first_some {A} (f : action -> option A) (l : list action) : option (action * A) :=
  match l with [] => None | x :: t => match f x with Some y => Some (x, y) | None => first_some f t end end.
Definition choices (t : nat) (B : list nat) : list action :=
  flat_map (fun v => [CallerSchedules 0 v]) (seq 0 t) ++
  flat_map (fun w => if existsb (Nat.eqb w) B then [] else Enter w :: map (Go w) (seq 0 t)) (rev (seq 0 t)).
Fixpoint drive (tp t : nat) (B : list nat) (fuel : nat) (s : state) : list action * state :=
  match fuel with
  | 0 => ([], s)
  | S f => match first_some (step tp s) (choices t B) with
           | None => ([], s)
           | Some (x, s') => let (l, r) := drive tp t B f s' in (x :: l, r)
           end
  end.
Definition start : job := Job 0 false true [].
Definition pong : job := Job 2 false true [].
Definition ping : job := Job 1 false true [(1, User, pong); (7, User, pong); (1, User, pong)].
Definition tells_ : list action := [Tell 0 Sys (Msg 9 start); Tell 1 Sys (Msg 9 start); Tell 0 User (Msg 9 ping); Tell 2 User (Msg 9 pong)].
Definition after_tells : state := match run 2 (init 3 2) tells_ with Some s => s | None => init 3 2 end.
Definition done_ : list action * state := drive 2 2 [] 200 after_tells.
Example C85_ex : reachable 2 3 2 (tells_ ++ fst done_) (snd done_) /\
  length (fst done_) = 24 /\ begun (snd done_) = [0; 1] /\
  map (fun b => map (fun m => match m_payload m with Job i _ _ _ => i end) (handled_by b User)) (boxes (snd done_)) = [[1]; [2; 2]; []] /\
  tasks (snd done_) = [] /\ workers (snd done_) = [Waiting; Waiting].
Proof. vm_compute. repeat split; reflexivity. Qed.
(* when only threads outside B sleep, nothing can be done *)
Lemma settled_by tp B s : callers s = [] -> (forall w x, nth_error (workers s) w = Some x -> ~ In w B -> x = Waiting) -> settled tp B s.
Proof.
  intros C W [j k m|i v|w|w|w v] O; cbn [own] in O; try contradiction; cbn [step].
  - rewrite C. destruct i; reflexivity.
  - destruct (nth_error (workers s) w) as [x|] eqn:N; [|reflexivity]. rewrite (W w x N O). reflexivity.
  - destruct (nth_error (workers s) w) as [x|] eqn:N; [|reflexivity]. rewrite (W w x N O). reflexivity.
Qed.
Example C85_ex_settled : settled 2 [] (snd done_).
Proof. apply settled_by; [vm_compute; reflexivity|]. vm_compute workers. intros [|[|w]] x; cbn; intros H _; [congruence|congruence|destruct w; discriminate]. Qed.
(* thread 1 stays in the handler of ping, having told actor 1 once; thread 0 does the rest *)
Definition stuck1 : list action * state := drive 2 2 [] 9 after_tells.
Definition blocked : list action * state := drive 2 2 [1] 200 (snd stuck1).
Example C85_ex_blocked : reachable 2 3 2 (tells_ ++ fst stuck1 ++ fst blocked) (snd blocked) /\ settled 2 [1] (snd blocked) /\
  nth_error (workers (snd blocked)) 1 = Some (Work 0 0 [(7, User, pong); (1, User, pong)] None) /\
  map (fun b => map (fun m => match m_payload m with Job i _ _ _ => i end) (handled_by b User)) (boxes (snd blocked)) = [[1]; [2]; []].
Proof.
  split; [vm_compute; reflexivity|]. split; [|split; vm_compute; reflexivity].
  apply settled_by; [vm_compute; reflexivity|]. vm_compute workers. intros [|[|w]] x; cbn; intros H N; [congruence|tauto|destruct w; discriminate].
Qed.
(* one would expect a free actor to be run although all threads are inside handlers of others: it waits *)
Theorem C85_all_blocked_refuted : exists tp n t xs s B b, reachable tp n t xs s /\ settled tp B s /\ (forall w, In w B -> in_handler s w) /\ t > 0 /\
  nth_error (boxes s) 1 = Some b /\ is_open b = true /\ (forall w x, In w B -> nth_error (workers s) w = Some x -> ~ occupied 1 x) /\
  handled_by b Sys <> told_to 1 Sys (told s).
Proof.
  pose (xs := [Tell 0 Sys (Msg 9 start); CallerSchedules 0 0; Enter 0; Go 0 0; Tell 1 Sys (Msg 9 start); CallerSchedules 0 0]).
  pose (s := match run 1 (init 2 1) xs with Some s => s | None => init 2 1 end).
  exists 1, 2, 1, xs, s, [0]. eexists. split; [vm_compute; reflexivity|]. split.
  { apply settled_by; [vm_compute; reflexivity|]. vm_compute workers. intros [|w] x; cbn; intros H N; [tauto|destruct w; discriminate]. }
  split; [intros w [<-|[]]; unfold in_handler; vm_compute; eauto 6|]. split; [lia|]. split; [vm_compute; reflexivity|]. split; [reflexivity|]. split; [|vm_compute; discriminate].
  intros w x [<-|[]]. vm_compute. intros [= <-] [H|H]; discriminate.
Qed.
Print Assumptions C85_settles.
Print Assumptions C85_all_handled.
Print Assumptions C85_blocked.
Print Assumptions C85_fair.
Print Assumptions C85_one_thread.
Print Assumptions C85_order.
Print Assumptions C85_all_blocked_refuted.
