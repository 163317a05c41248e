From Coq Require Import List Bool Arith Lia Permutation.
From Verif Require Import MailboxModel MailboxProofs WholeModel WholeSpec.
Import ListNotations.

Lemma nth_upd {A} (l : list A) i j x : nth_error (upd l i x) j = if i =? j then match nth_error l i with Some _ => Some x | None => None end else nth_error l j.
Proof.
  revert i j. induction l as [|y l IH]; intros i j; [destruct i, j; cbn; try reflexivity; destruct (i =? j); reflexivity|].
  destruct i, j; cbn; try reflexivity. apply IH.
Qed.
Lemma upd_length {A} (l : list A) i x : length (upd l i x) = length l.
Proof. revert i. induction l as [|y l IH]; intros [|i]; cbn; auto. Qed.
Definition b1 (b : bool) : nat := if b then 1 else 0.
Definition cw (f : wstate -> bool) (l : list wstate) : nat := list_sum (map (fun x => b1 (f x)) l).
Lemma cw_cons f x l : cw f (x :: l) = b1 (f x) + cw f l.
Proof. reflexivity. Qed.
Lemma cw_upd f l w x y : nth_error l w = Some x -> cw f (upd l w y) + b1 (f x) = cw f l + b1 (f y).
Proof.
  revert w. induction l as [|z l IH]; intros [|w] H; cbn [nth_error] in H; try discriminate; cbn [upd]; rewrite !cw_cons.
  - injection H as ->. lia.
  - specialize (IH w H). lia.
Qed.
Lemma cw_in f l w x : nth_error l w = Some x -> f x = true -> cw f l > 0.
Proof. revert w. induction l as [|z l IH]; intros [|w] H F; cbn [nth_error] in H; try discriminate; rewrite cw_cons; [injection H as ->; rewrite F; cbn; lia|]. specialize (IH w H F). lia. Qed.
Lemma cw_zero f l : cw f l = 0 -> forall w x, nth_error l w = Some x -> f x = false.
Proof. intros Z w x H. destruct (f x) eqn:E; [|reflexivity]. pose proof (cw_in f l w x H E). lia. Qed.
Lemma cw_none f l : (forall w x, nth_error l w = Some x -> f x = false) -> cw f l = 0.
Proof.
  induction l as [|z l IH]; intros H; [reflexivity|]. rewrite cw_cons, (H 0 z eq_refl), IH; [reflexivity|]. intros w x E. exact (H (S w) x E).
Qed.
Lemma cw_two f l v w x y : v <> w -> nth_error l v = Some x -> nth_error l w = Some y -> f x = true -> f y = true -> cw f l >= 2.
Proof.
  revert v w. induction l as [|z l IH]; intros [|v] [|w] N H1 H2 F1 F2; cbn [nth_error] in *; try discriminate; try congruence; rewrite cw_cons.
  - injection H1 as ->. pose proof (cw_in f l w y H2 F2). rewrite F1. cbn. lia.
  - injection H2 as ->. pose proof (cw_in f l v x H1 F1). rewrite F2. cbn. lia.
  - assert (v <> w) as N' by congruence. specialize (IH v w N' H1 H2 F1 F2). lia.
Qed.
Lemma existsb_cw f l : existsb f l = true <-> cw f l > 0.
Proof.
  induction l as [|z l IH]; [cbn; split; [discriminate|lia]|]. cbn [existsb]. rewrite cw_cons. destruct (f z); cbn [b1 orb]; [split; [lia|reflexivity]|exact IH].
Qed.
Definition cnt (a : nat) (l : list nat) : nat := count_occ Nat.eq_dec l a.
Lemma cnt_app a l r : cnt a (l ++ r) = cnt a l + cnt a r.
Proof. apply count_occ_app. Qed.
Lemma cnt_one a c : cnt c [a] = b1 (a =? c).
Proof. unfold cnt. cbn. destruct (Nat.eq_dec a c) as [->|N]; [rewrite Nat.eqb_refl; reflexivity|]. apply Nat.eqb_neq in N. rewrite N. reflexivity. Qed.
Lemma cnt_cons a c l : cnt c (a :: l) = b1 (a =? c) + cnt c l.
Proof. change (a :: l) with ([a] ++ l). rewrite cnt_app, cnt_one. reflexivity. Qed.
Lemma cnt_without l i j c : nth_error l i = Some j -> cnt c l = b1 (j =? c) + cnt c (without l i).
Proof.
  revert i. induction l as [|x l IH]; intros [|i] H; cbn [nth_error] in H; try discriminate; cbn [without]; rewrite ?cnt_cons; [injection H as ->; reflexivity|].
  rewrite (IH i H). lia.
Qed.
Lemma without_in {A} (l : list A) i x : In x (without l i) -> In x l.
Proof. revert i. induction l as [|y l IH]; intros [|i]; cbn; auto. intros [->|H]; auto. right. eapply IH, H. Qed.
Lemma cnt_in c l : cnt c l > 0 <-> In c l.
Proof. unfold cnt. rewrite (count_occ_In Nat.eq_dec). reflexivity. Qed.

Definition tells (c : nat) (x : wstate) : bool := match x with Work _ _ _ (Some j) => j =? c | _ => false end.
Definition works (c : nat) (x : wstate) : bool := match x with Work a _ _ _ => a =? c | _ => false end.
Definition ready (x : wstate) : bool := match x with Ready => true | _ => false end.
Definition handling (p : pc job) : bool := match p with HandlingSys _ _ | HandlingUser _ _ => true | _ => false end.

Section Proofs.
Variable tp : nat.
Notation bstep := (MailboxModel.step job tp).
Notation breach := (MailboxModel.reachable job tp).

Lemma breach_step b x b' : breach b -> bstep b x = Some b' -> breach b'.
Proof. intros R H. apply (reachable_run job tp b [x] b' R). cbn [MailboxModel.run]. rewrite H. reflexivity. Qed.
Lemma one b id p : breach b -> get_pc job (acts b) id = Some p -> acts b = [(id, p)] /\ queued b = 0.
Proof. intros R G. apply reachable_inv in R. destruct R as (H & _). destruct (one_act job b id p H G) as (A & B & _). auto. Qed.
Lemma at_most b : breach b -> queued b + length (acts b) <= 1.
Proof. apply mutual_exclusion. Qed.

(* what each critical section does to the parts of a box that other parts of the state refer to *)
Lemma send_box b k m b' : bstep b (Send k m) = Some b' ->
  queued b' = queued b /\ acts b' = acts b /\ pending b' = pending b + b1 (is_open b && negb (scheduled b)) /\ sent b' = sent b ++ [(k, m)].
Proof.
  cbn [MailboxModel.step]. intros [= <-]. unfold enqueue. destruct (is_open b); [|cbn; repeat split; lia]. destruct k, (scheduled b); cbn; repeat split; lia.
Qed.
Lemma sched_box b b' : bstep b SenderSchedules = Some b' ->
  acts b' = acts b /\ pending b = S (pending b') /\ sent b' = sent b /\ (queued b' = queued b \/ queued b' = S (queued b)).
Proof.
  cbn [MailboxModel.step]. destruct (pending b) as [|p]; [discriminate|]. intros [= <-]. unfold schedule. cbn [scheduled].
  destruct (negb (scheduled b) || false); [|cbn; auto]. destruct (has_work job _); cbn; auto.
Qed.
Lemma start_box b b' : bstep b WorkerStarts = Some b' ->
  queued b = S (queued b') /\ acts b' = acts b ++ [(next_act b, Popping 0)] /\ pending b' = pending b /\ sent b' = sent b.
Proof. cbn [MailboxModel.step]. destruct (queued b); [discriminate|]. intros [= <-]. cbn. auto. Qed.
Lemma pop_box b id b' : breach b -> bstep b (Pop id) = Some b' ->
  queued b' = queued b /\ pending b' = pending b /\ sent b' = sent b /\ exists p, acts b' = [(id, p)].
Proof.
  intros R. cbn [MailboxModel.step]. destruct (get_pc job (acts b) id) as [[c| | | |]|] eqn:G; try discriminate. intros [= <-].
  destruct (one b id _ R G) as [A _]. unfold pop. rewrite A. cbn [set_pc]. rewrite Nat.eqb_refl.
  destruct (sys b); [destruct (started b); [destruct (usr b)|]|]; cbn; repeat split; eexists; reflexivity.
Qed.
Lemma sysdone_box b id st sd b' : breach b -> bstep b (SysDone id st sd) = Some b' ->
  queued b' = queued b /\ pending b' = pending b /\ sent b' = sent b /\ exists p, acts b' = [(id, p)].
Proof.
  intros R. cbn [MailboxModel.step]. destruct (get_pc job (acts b) id) as [[|m c| | |]|] eqn:G; try discriminate. intros [= <-].
  destruct (one b id _ R G) as [A _]. cbn. rewrite A. cbn [set_pc]. rewrite Nat.eqb_refl. repeat split; eexists; reflexivity.
Qed.
Lemma userdone_box b id b' : breach b -> bstep b (UserDone id) = Some b' ->
  queued b' = queued b /\ pending b' = pending b /\ sent b' = sent b /\ exists p, acts b' = [(id, p)].
Proof.
  intros R. cbn [MailboxModel.step]. destruct (get_pc job (acts b) id) as [[| |m c| |]|] eqn:G; try discriminate. intros [= <-].
  destruct (one b id _ R G) as [A _]. cbn. rewrite A. cbn [set_pc]. rewrite Nat.eqb_refl. repeat split; eexists; reflexivity.
Qed.
Lemma resched_box b id b' : breach b -> bstep b (Reschedule id) = Some b' ->
  queued b = 0 /\ queued b' <= 1 /\ pending b' = pending b /\ sent b' = sent b /\ length (acts b) = 1 /\ acts b' = [].
Proof.
  intros R. cbn [MailboxModel.step]. destruct (get_pc job (acts b) id) as [[| | | |]|] eqn:G; try discriminate. intros [= <-].
  destruct (one b id _ R G) as [A Q]. unfold schedule, with_acts. cbn [scheduled has_work usr sys is_open started queued]. rewrite orb_true_r.
  match goal with |- context [if has_work job ?z then _ else _] => destruct (has_work job z) end; cbn; rewrite A, Q; cbn; rewrite Nat.eqb_refl; repeat split; lia.
Qed.
Lemma close_box b id b' : breach b -> bstep b (Close id) = Some b' ->
  queued b' = queued b /\ pending b' = pending b /\ sent b' = sent b /\ length (acts b) = 1 /\ acts b' = [].
Proof.
  intros R. cbn [MailboxModel.step]. destruct (get_pc job (acts b) id) as [[| | | |]|] eqn:G; try discriminate. intros [= <-].
  destruct (one b id _ R G) as [A _]. cbn. rewrite A. cbn. rewrite Nat.eqb_refl. repeat split; reflexivity.
Qed.

(* ---- invariant ---- *)
Definition fits_worker (bs : list box) (x : wstate) : Prop :=
  match x with
  | Work a id todo tell =>
      (exists b p, nth_error bs a = Some b /\ get_pc job (acts b) id = Some p /\ (todo = [] /\ tell = None \/ handling p = true)) /\
      match tell with Some j => j < length bs | None => True end
  | _ => True
  end.
Record inv (s : state) : Prop := {
  i_reach : forall a b, nth_error (boxes s) a = Some b -> breach b;
  i_tasks : forall a b, nth_error (boxes s) a = Some b -> cnt a (tasks s) = queued b;
  i_pend : forall a b, nth_error (boxes s) a = Some b -> cnt a (callers s) + cw (tells a) (workers s) = pending b;
  i_work : forall a b, nth_error (boxes s) a = Some b -> cw (works a) (workers s) = length (acts b);
  i_told : forall a b k, nth_error (boxes s) a = Some b -> sent_of job k (sent b) = told_to a k (told s);
  i_in : (forall a, In a (tasks s) -> a < length (boxes s)) /\ (forall a, In a (callers s) -> a < length (boxes s));
  i_fits : forall w x, nth_error (workers s) w = Some x -> fits_worker (boxes s) x;
  i_wake : length (tasks s) <= cw ready (workers s) \/ cw is_waiting (workers s) = 0
}.

Lemma inv_init n w : inv (init n w).
Proof.
  assert (B : forall a b, nth_error (repeat (MailboxModel.init job) n) a = Some b -> b = MailboxModel.init job).
  { intros a b H. apply nth_error_In, repeat_spec in H. exact H. }
  assert (W : forall v x, nth_error (repeat Ready w) v = Some x -> x = Ready).
  { intros v x H. apply nth_error_In, repeat_spec in H. exact H. }
  constructor; cbn [boxes tasks workers callers told init].
  - intros a b H. apply B in H as ->. exists []. reflexivity.
  - intros a b H. apply B in H as ->. reflexivity.
  - intros a b H. apply B in H as ->. cbn. apply cw_none. intros v x E. apply W in E as ->. reflexivity.
  - intros a b H. apply B in H as ->. cbn. apply cw_none. intros v x E. apply W in E as ->. reflexivity.
  - intros a b k H. apply B in H as ->. reflexivity.
  - split; intros a [].
  - intros v x E. apply W in E as ->. exact I.
  - left. cbn. lia.
Qed.

(* one box changes *)
Lemma inv_upd s s' a b b' : inv s -> nth_error (boxes s) a = Some b -> breach b' -> boxes s' = upd (boxes s) a b' ->
  (forall c, cnt c (tasks s') + b1 (a =? c) * queued b = cnt c (tasks s) + b1 (a =? c) * queued b') ->
  (forall c, cnt c (callers s') + cw (tells c) (workers s') + b1 (a =? c) * pending b = cnt c (callers s) + cw (tells c) (workers s) + b1 (a =? c) * pending b') ->
  (forall c, cw (works c) (workers s') + b1 (a =? c) * length (acts b) = cw (works c) (workers s) + b1 (a =? c) * length (acts b')) ->
  (forall c k, told_to c k (told s') = told_to c k (told s) ++ if a =? c then skipn (length (sent_of job k (sent b))) (sent_of job k (sent b')) else []) ->
  (forall k, exists l, sent_of job k (sent b') = sent_of job k (sent b) ++ l) ->
  (forall c, In c (tasks s') -> c < length (boxes s)) -> (forall c, In c (callers s') -> c < length (boxes s)) ->
  (forall w x, nth_error (workers s') w = Some x -> fits_worker (upd (boxes s) a b') x) ->
  (length (tasks s') <= cw ready (workers s') \/ cw is_waiting (workers s') = 0) -> inv s'.
Proof.
  intros I N R B T P W S S' I1 I2 F D. constructor.
  - intros c d. rewrite B, nth_upd, N. destruct (a =? c); [intros [= <-]; exact R|apply (i_reach _ I)].
  - intros c d. rewrite B, nth_upd, N. specialize (T c). destruct (a =? c) eqn:E; cbn [b1] in T.
    + intros [= <-]. apply Nat.eqb_eq in E as <-. pose proof (i_tasks _ I a b N). lia.
    + intros H. pose proof (i_tasks _ I c d H). lia.
  - intros c d. rewrite B, nth_upd, N. specialize (P c). destruct (a =? c) eqn:E; cbn [b1] in P.
    + intros [= <-]. apply Nat.eqb_eq in E as <-. pose proof (i_pend _ I a b N). lia.
    + intros H. pose proof (i_pend _ I c d H). lia.
  - intros c d. rewrite B, nth_upd, N. specialize (W c). destruct (a =? c) eqn:E; cbn [b1] in W.
    + intros [= <-]. apply Nat.eqb_eq in E as <-. pose proof (i_work _ I a b N). lia.
    + intros H. pose proof (i_work _ I c d H). lia.
  - intros c d k. rewrite B, nth_upd, N. specialize (S c k). destruct (a =? c) eqn:E.
    + intros [= <-]. apply Nat.eqb_eq in E as <-. rewrite S, <- (i_told _ I a b k N). destruct (S' k) as [l ->].
      rewrite skipn_app, skipn_all, Nat.sub_diag. reflexivity.
    + intros H. rewrite S, app_nil_r. apply (i_told _ I c d k H).
  - rewrite B, upd_length. auto.
  - rewrite B. exact F.
  - exact D.
Qed.
(* only a worker, a caller or the tasks change *)
Lemma on_box_cases a x woken s s' : on_box tp a x woken s = Some s' -> exists b b',
  nth_error (boxes s) a = Some b /\ bstep b x = Some b' /\ boxes s' = upd (boxes s) a b' /\ callers s' = callers s /\ begun s' = begun s /\ told s' = told s /\
  (queued b' <= queued b /\ tasks s' = tasks s /\ workers s' = workers s \/
   queued b < queued b' /\ tasks s' = tasks s ++ [a] /\
   (cw is_waiting (workers s) = 0 /\ workers s' = workers s \/ nth_error (workers s) woken = Some Waiting /\ workers s' = upd (workers s) woken Ready)).
Proof.
  unfold on_box. destruct (nth_error (boxes s) a) as [b|]; [|discriminate]. destruct (bstep b x) as [b'|] eqn:E; [|discriminate]. intros H. exists b, b'.
  split; [reflexivity|]. split; [exact E|]. destruct (queued b <? queued b') eqn:Q.
  - apply Nat.ltb_lt in Q. unfold notify_one in H. destruct (existsb is_waiting (workers s)) eqn:X.
    + destruct (nth_error (workers s) woken) as [[| |]|] eqn:V; try discriminate. injection H as <-. cbn. repeat split; auto. right. repeat split; auto.
    + injection H as <-. cbn. repeat split; auto. right. repeat split; auto. left. split; [|reflexivity].
      destruct (cw is_waiting (workers s)) eqn:Z; [reflexivity|]. assert (existsb is_waiting (workers s) = true) by (apply existsb_cw; lia). congruence.
  - apply Nat.ltb_ge in Q. injection H as <-. cbn. repeat split; auto.
Qed.
Lemma wake_ok (ws ws' : list wstate) (ts : list nat) a woken :
  length ts <= cw ready ws \/ cw is_waiting ws = 0 ->
  cw is_waiting ws = 0 /\ ws' = ws \/ nth_error ws woken = Some Waiting /\ ws' = upd ws woken Ready ->
  length (ts ++ [a]) <= cw ready ws' \/ cw is_waiting ws' = 0.
Proof.
  rewrite app_length. cbn [length]. intros D [[Z ->]|[N ->]]; [auto|]. pose proof (cw_in is_waiting ws woken _ N eq_refl) as P.
  pose proof (cw_upd ready ws woken _ Ready N). cbn in *. lia.
Qed.
Lemma tell_cases j k m s s' need : tell_ tp j k m s = Some (s', need) ->
  nth_error (boxes s) j = None /\ s' = s /\ need = false \/
  exists b b', nth_error (boxes s) j = Some b /\ bstep b (Send k m) = Some b' /\
    s' = State (upd (boxes s) j b') (tasks s) (workers s) (callers s) (begun s) (told s ++ [(j, k, m)]) /\ need = is_open b && negb (scheduled b).
Proof.
  unfold tell_. destruct (nth_error (boxes s) j) as [b|] eqn:N; [|intros [= <- <-]; auto]. destruct (on_box tp j (Send k m) 0 s) as [s1|] eqn:E; [|discriminate].
  intros [= <- <-]. right. exists b. apply on_box_cases in E as (c & b' & N' & E & B & C & G & T & Q). rewrite N in N'. injection N' as <-.
  exists b'. split; [reflexivity|]. split; [exact E|]. pose proof (send_box b k m b' E) as (Eq & _). destruct Q as [(_ & T' & W)|(L & _)]; [|lia].
  rewrite B, C, G, T, T', W. auto.
Qed.
Lemma fits_other bs a b b' x : fits_worker bs x -> nth_error bs a = Some b -> acts b' = acts b \/ works a x = false -> fits_worker (upd bs a b') x.
Proof.
  destruct x as [| |c id todo tell]; cbn [fits_worker works]; auto. intros [(d & p & N & G & H) L] Na O. split; [|rewrite upd_length; exact L].
  destruct (Nat.eq_dec c a) as [->|Ne].
  - rewrite Nat.eqb_refl in O. destruct O as [O|O]; [|discriminate]. exists b', p. rewrite nth_upd, Nat.eqb_refl, Na. rewrite N in Na. injection Na as ->. rewrite O. auto.
  - exists d, p. rewrite nth_upd. assert (E : (a =? c) = false) by (apply Nat.eqb_neq; congruence). rewrite E. auto.
Qed.
Lemma told_snoc c k l j k' m : told_to c k (l ++ [(j, k', m)]) = told_to c k l ++ (if (j =? c) && kind_eqb k k' then [m] else []).
Proof. unfold told_to. rewrite flat_map_app. cbn. rewrite app_nil_r. reflexivity. Qed.
Lemma skip_sent k (b b' : box) k' m : sent b' = sent b ++ [(k', m)] ->
  skipn (length (sent_of job k (sent b))) (sent_of job k (sent b')) = (if kind_eqb k k' then [m] else []).
Proof. intros ->. rewrite (sent_app job), skipn_app, skipn_all, Nat.sub_diag. unfold sent_of. cbn. rewrite app_nil_r. reflexivity. Qed.
Lemma skip_same k (b b' : box) : sent b' = sent b -> skipn (length (sent_of job k (sent b))) (sent_of job k (sent b')) = [].
Proof. intros ->. apply skipn_all. Qed.
Lemma lt_nth {A} (l : list A) a x : nth_error l a = Some x -> a < length l.
Proof. intros H. apply nth_error_Some. congruence. Qed.
Lemma other_not_on s w a id todo tell v x : inv s -> nth_error (workers s) w = Some (Work a id todo tell) -> nth_error (workers s) v = Some x -> v <> w -> works a x = false.
Proof.
  intros I Nw Nv Ne. destruct (works a x) eqn:E; [|reflexivity]. exfalso.
  destruct (i_fits _ I w _ Nw) as [(b & p & N & _) _].
  pose proof (cw_two (works a) (workers s) v w x _ Ne Nv Nw E (Nat.eqb_refl a)) as T. pose proof (i_work _ I a b N). pose proof (at_most b (i_reach _ I a b N)). lia.
Qed.
Ltac told_same := intros; rewrite ?skip_same by assumption; destruct (_ =? _); rewrite app_nil_r; reflexivity.
Ltac told_ext := intros; exists []; rewrite app_nil_r; congruence.

Lemma tell_inv j k m s : inv s -> forall b b', nth_error (boxes s) j = Some b -> bstep b (Send k m) = Some b' ->
  forall ws cs,
  (forall c, cnt c cs + cw (tells c) ws = cnt c (callers s) + cw (tells c) (workers s) + b1 (j =? c) * b1 (is_open b && negb (scheduled b))) ->
  (forall c, cw (works c) ws = cw (works c) (workers s)) ->
  (forall c, In c cs -> c < length (boxes s)) ->
  (forall w x, nth_error ws w = Some x -> fits_worker (boxes s) x) ->
  (length (tasks s) <= cw ready ws \/ cw is_waiting ws = 0) ->
  inv (State (upd (boxes s) j b') (tasks s) ws cs (begun s) (told s ++ [(j, k, m)])).
Proof.
  intros I b b' N E ws cs P W C F D. destruct (send_box b k m b' E) as (Q & A & Pe & Se).
  apply (inv_upd s _ j b b' I N); cbn [boxes tasks workers callers told]; auto.
  - eapply breach_step; [apply (i_reach _ I j b N)|exact E].
  - intros c. specialize (P c). rewrite Pe. nia.
  - intros c. rewrite A, W. lia.
  - intros c k'. rewrite told_snoc, (skip_sent k' b b' k m Se). destruct (j =? c); reflexivity.
  - intros k'. rewrite Se, (sent_app job). eauto.
  - apply (i_in _ I).
  - intros w x Nx. apply (fits_other _ j b b' x (F w x Nx) N). left. exact A.
Qed.
Lemma sched_inv j woken s s' : forall b, nth_error (boxes s) j = Some b ->
  (forall a b, nth_error (boxes s) a = Some b -> breach b) ->
  (forall a b, nth_error (boxes s) a = Some b -> cnt a (tasks s) = queued b) ->
  (forall a b, nth_error (boxes s) a = Some b -> cnt a (callers s) + cw (tells a) (workers s) + b1 (j =? a) = pending b) ->
  (forall a b, nth_error (boxes s) a = Some b -> cw (works a) (workers s) = length (acts b)) ->
  (forall a b k, nth_error (boxes s) a = Some b -> sent_of job k (sent b) = told_to a k (told s)) ->
  (forall a, In a (tasks s) -> a < length (boxes s)) -> (forall a, In a (callers s) -> a < length (boxes s)) ->
  (forall w x, nth_error (workers s) w = Some x -> fits_worker (boxes s) x) ->
  (length (tasks s) <= cw ready (workers s) \/ cw is_waiting (workers s) = 0) ->
  on_box tp j SenderSchedules woken s = Some s' -> inv s'.
Proof.
  intros b N R T P W S I1 I2 F D H. apply on_box_cases in H as (c & b' & N' & E & B & C & G & To & O). rewrite N in N'. injection N' as <-.
  destruct (sched_box b b' E) as (A & Pe & Se & Qe).
  assert (Wk : forall f, f Ready = false -> f Waiting = false -> cw f (workers s') = cw f (workers s)).
  { intros f F1 F2. destruct O as [(_ & _ & ->)|(_ & _ & [[_ ->]|[Nw ->]])]; auto. pose proof (cw_upd f _ _ _ Ready Nw) as U. rewrite F1, F2 in U. cbn in U. lia. }
  constructor.
  - intros a d. rewrite B, nth_upd, N. destruct (j =? a); [intros [= <-]; eapply breach_step; [apply (R j b N)|exact E]|apply R].
  - intros a d. rewrite B, nth_upd, N. destruct (j =? a) eqn:Ej.
    + apply Nat.eqb_eq in Ej as <-. intros [= <-]. pose proof (T j b N). destruct O as [(L & -> & _)|(L & -> & _)]; [lia|]. rewrite cnt_app, cnt_one, Nat.eqb_refl. cbn. lia.
    + intros Na. pose proof (T a d Na). destruct O as [(L & -> & _)|(L & -> & _)]; [lia|]. rewrite cnt_app, cnt_one, Ej. cbn. lia.
  - intros a d. rewrite B, nth_upd, N, C, Wk by reflexivity. destruct (j =? a) eqn:Ej.
    + apply Nat.eqb_eq in Ej as <-. intros [= <-]. pose proof (P j b N) as X. rewrite Nat.eqb_refl in X. cbn in X. lia.
    + intros Na. pose proof (P a d Na) as X. rewrite Ej in X. cbn in X. lia.
  - intros a d. rewrite B, nth_upd, N, Wk by reflexivity. destruct (j =? a) eqn:Ej; [|apply W]. apply Nat.eqb_eq in Ej as <-. intros [= <-]. rewrite A. apply (W j b N).
  - intros a d k. rewrite B, nth_upd, N, To. destruct (j =? a) eqn:Ej; [|apply S]. apply Nat.eqb_eq in Ej as <-. intros [= <-]. rewrite Se. apply (S j b k N).
  - rewrite B, upd_length, C. split; [|exact I2]. intros a. destruct O as [(_ & -> & _)|(_ & -> & _)]; [apply I1|]. rewrite in_app_iff. intros [X|[<-|[]]]; [auto|]. apply lt_nth in N. exact N.
  - intros w x. rewrite B. intros Nx. assert (X : fits_worker (boxes s) x).
    { destruct O as [(_ & _ & Ew)|(_ & _ & [[_ Ew]|[Nw Ew]])]; rewrite Ew in Nx; try exact (F w x Nx). rewrite nth_upd, Nw in Nx. destruct (woken =? w); [injection Nx as <-; exact I|exact (F w x Nx)]. }
    apply (fits_other _ j b b' x X N). left. exact A.
  - destruct O as [(_ & -> & ->)|(_ & -> & O)]; [exact D|]. exact (wake_ok _ _ _ j woken D O).
Qed.
Lemma fits_set s w y : (forall v x, nth_error (workers s) v = Some x -> fits_worker (boxes s) x) -> fits_worker (boxes s) y ->
  forall v x, nth_error (upd (workers s) w y) v = Some x -> fits_worker (boxes s) x.
Proof.
  intros F Y v x. rewrite nth_upd. destruct (w =? v); [|apply F]. destruct (nth_error (workers s) w); [intros [= <-]; exact Y|discriminate].
Qed.
Lemma idle_inv s w x y : inv s -> nth_error (workers s) w = Some x -> (x = Ready \/ x = Waiting) -> (y = Ready \/ y = Waiting /\ tasks s = []) -> inv (set_worker s w y).
Proof.
  intros I N X Y.
  assert (K : forall f, f Ready = false -> f Waiting = false -> cw f (upd (workers s) w y) = cw f (workers s)).
  { intros f F1 F2. pose proof (cw_upd f _ _ _ y N) as U. destruct X as [-> | ->], Y as [-> | [-> _]]; rewrite ?F1, ?F2 in U; cbn in U; lia. }
  constructor; cbn [set_worker boxes tasks workers callers told]; try apply I.
  - intros a b Na. rewrite K by reflexivity. apply (i_pend _ I a b Na).
  - intros a b Na. rewrite K by reflexivity. apply (i_work _ I a b Na).
  - apply fits_set; [apply I|]. destruct Y as [-> | [-> _]]; exact Logic.I.
  - destruct Y as [-> | [-> ->]]; [|left; cbn; lia]. pose proof (i_wake _ I) as D. pose proof (cw_upd ready _ _ _ Ready N). pose proof (cw_upd is_waiting _ _ _ Ready N).
    destruct X as [-> | ->]; cbn in *; lia.
Qed.
(* a worker takes the first task *)
Lemma take_inv s w a r b b' : inv s -> nth_error (workers s) w = Some Ready -> tasks s = a :: r -> nth_error (boxes s) a = Some b -> bstep b WorkerStarts = Some b' ->
  inv (State (upd (boxes s) a b') r (upd (workers s) w (Work a (next_act b) [] None)) (callers s) (begun s ++ [a]) (told s)).
Proof.
  intros I Nw Ts N E. destruct (start_box b b' E) as (Q & A & Pe & Se). pose proof (breach_step b _ b' (i_reach _ I a b N) E) as R'.
  pose proof (at_most b (i_reach _ I a b N)) as M. assert (A0 : acts b = []) by (destruct (acts b); [reflexivity|cbn in M; lia]). rewrite A0 in A. cbn in A.
  apply (inv_upd s _ a b b' I N); cbn [boxes tasks workers callers told]; auto.
  - intros c. rewrite Ts, cnt_cons, Q. destruct (a =? c); cbn; lia.
  - intros c. pose proof (cw_upd (tells c) _ _ _ (Work a (next_act b) [] None) Nw) as U. cbn in U. rewrite Pe. lia.
  - intros c. pose proof (cw_upd (works c) _ _ _ (Work a (next_act b) [] None) Nw) as U. cbn [works b1] in U. rewrite A0, A. cbn. lia.
  - told_same.
  - told_ext.
  - intros c C. apply (proj1 (i_in _ I)). rewrite Ts. right. exact C.
  - apply (i_in _ I).
  - intros v x Nx. rewrite nth_upd in Nx. destruct (w =? v) eqn:Ev.
    + rewrite Nw in Nx. injection Nx as <-. cbn [fits_worker]. split; [|exact Logic.I]. exists b', (Popping 0). rewrite nth_upd, Nat.eqb_refl, N, A. cbn. rewrite Nat.eqb_refl. auto.
    + apply (fits_other _ a b b' x (i_fits _ I v x Nx) N). right. pose proof (i_work _ I a b N) as Z. rewrite A0 in Z. exact (cw_zero _ _ Z v x Nx).
  - pose proof (i_wake _ I) as D. rewrite Ts in D. cbn [length] in D.
    pose proof (cw_upd ready _ _ _ (Work a (next_act b) [] None) Nw). pose proof (cw_upd is_waiting _ _ _ (Work a (next_act b) [] None) Nw). cbn in *. lia.
Qed.
(* a worker goes on inside its activation *)
Lemma stay_inv s w a id todo b b' p y : inv s -> nth_error (workers s) w = Some (Work a id todo None) -> nth_error (boxes s) a = Some b -> breach b' ->
  queued b' = queued b -> pending b' = pending b -> sent b' = sent b -> length (acts b) = 1 -> acts b' = [(id, p)] -> (y = [] \/ handling p = true) ->
  inv (State (upd (boxes s) a b') (tasks s) (upd (workers s) w (Work a id y None)) (callers s) (begun s) (told s)).
Proof.
  intros I Nw N R Q Pe Se L A Y.
  apply (inv_upd s _ a b b' I N); cbn [boxes tasks workers callers told]; try apply (i_in _ I); auto.
  - intros c. pose proof (cw_upd (tells c) _ _ _ (Work a id y None) Nw) as U. cbn in U. rewrite Pe. lia.
  - intros c. pose proof (cw_upd (works c) _ _ _ (Work a id y None) Nw) as U. cbn [works] in U. rewrite L, A. cbn [length]. lia.
  - told_same.
  - told_ext.
  - intros v x Nx. rewrite nth_upd in Nx. destruct (w =? v) eqn:Ev.
    + rewrite Nw in Nx. injection Nx as <-. cbn [fits_worker]. split; [|exact Logic.I]. exists b', p. rewrite nth_upd, Nat.eqb_refl, N, A. cbn. rewrite Nat.eqb_refl. intuition.
    + apply (fits_other _ a b b' x (i_fits _ I v x Nx) N). right. apply Nat.eqb_neq in Ev. apply (other_not_on s w a id todo None v x I Nw Nx). congruence.
  - pose proof (i_wake _ I) as D. pose proof (cw_upd ready _ _ _ (Work a id y None) Nw). pose proof (cw_upd is_waiting _ _ _ (Work a id y None) Nw). cbn in *. lia.
Qed.
(* a worker leaves its activation; ws: the workers after a possible notify_one *)
Lemma leave_inv s w woken a id todo b b' ts ws : inv s -> nth_error (workers s) w = Some (Work a id todo None) -> nth_error (boxes s) a = Some b -> breach b' ->
  pending b' = pending b -> sent b' = sent b -> length (acts b) = 1 -> acts b' = [] -> queued b = 0 ->
  (queued b' = 0 /\ ts = tasks s /\ ws = workers s \/
   queued b' = 1 /\ ts = tasks s ++ [a] /\ (cw is_waiting (workers s) = 0 /\ ws = workers s \/ nth_error (workers s) woken = Some Waiting /\ ws = upd (workers s) woken Ready)) ->
  inv (State (upd (boxes s) a b') ts (upd ws w Ready) (callers s) (begun s) (told s)).
Proof.
  intros I Nw N R Pe Se L A Q0 O.
  assert (Nw' : nth_error ws w = Some (Work a id todo None)).
  { destruct O as [(_ & _ & ->)|(_ & _ & [[_ ->]|[X ->]])]; auto. rewrite nth_upd. destruct (woken =? w) eqn:E; [|exact Nw]. apply Nat.eqb_eq in E as <-. congruence. }
  assert (Wk : forall f, f Ready = false -> f Waiting = false -> cw f ws = cw f (workers s)).
  { intros f F1 F2. destruct O as [(_ & _ & ->)|(_ & _ & [[_ ->]|[X ->]])]; auto. pose proof (cw_upd f _ _ _ Ready X) as U. rewrite F1, F2 in U. cbn in U. lia. }
  apply (inv_upd s _ a b b' I N); cbn [boxes tasks workers callers told]; try apply (i_in _ I); auto.
  - intros c. destruct O as [(Q & -> & _)|(Q & -> & _)]; rewrite Q, Q0; [lia|]. rewrite cnt_app, cnt_one. lia.
  - intros c. pose proof (cw_upd (tells c) _ _ _ Ready Nw') as U. rewrite (Wk (tells c) eq_refl eq_refl) in U. cbn in U. rewrite Pe. lia.
  - intros c. pose proof (cw_upd (works c) _ _ _ Ready Nw') as U. rewrite (Wk (works c) eq_refl eq_refl) in U. cbn [works b1] in U. rewrite L, A. cbn [length]. lia.
  - told_same.
  - told_ext.
  - intros c. destruct O as [(_ & -> & _)|(_ & -> & _)]; [apply (i_in _ I)|]. rewrite in_app_iff. intros [X|[<-|[]]]; [apply (proj1 (i_in _ I)); exact X|]. apply lt_nth in N. exact N.
  - intros v x Nx. rewrite nth_upd in Nx. destruct (w =? v) eqn:Ev.
    + rewrite Nw' in Nx. injection Nx as <-. exact Logic.I.
    + apply Nat.eqb_neq in Ev. assert (X : fits_worker (boxes s) x /\ works a x = false); [|apply (fits_other _ a b b' x (proj1 X) N); right; apply X].
      assert (Y : forall x, nth_error (workers s) v = Some x -> fits_worker (boxes s) x /\ works a x = false).
      { intros z Nz. split; [apply (i_fits _ I v z Nz)|]. apply (other_not_on s w a id todo None v z I Nw Nz). congruence. }
      destruct O as [(_ & _ & ->)|(_ & _ & [[_ ->]|[X ->]])]; auto. rewrite nth_upd, X in Nx. destruct (woken =? v); [injection Nx as <-; split; reflexivity|auto].
  - assert (D : length ts <= cw ready ws \/ cw is_waiting ws = 0).
    { destruct O as [(_ & -> & ->)|(_ & -> & O)]; [apply (i_wake _ I)|]. exact (wake_ok _ _ _ a woken (i_wake _ I) O). }
    pose proof (cw_upd ready _ _ _ Ready Nw'). pose proof (cw_upd is_waiting _ _ _ Ready Nw'). cbn in *. lia.
Qed.
Lemma state_eta s : State (boxes s) (tasks s) (workers s) (callers s) (begun s) (told s) = s.
Proof. destruct s; reflexivity. Qed.
Lemma upd_same {A} (l : list A) i x : nth_error l i = Some x -> upd l i x = l.
Proof. revert i. induction l as [|y l IH]; intros [|i] H; cbn in *; try discriminate; [congruence|]. f_equal. auto. Qed.

(* the cases of one step of a worker inside an activation *)
Inductive gone (s : state) (w a id : nat) (todo : list (nat * kind * job)) (woken : nat) : option nat -> state -> Prop :=
| g_sched j b s' : nth_error (boxes s) j = Some b -> on_box tp j SenderSchedules woken (set_worker s w (Work a id todo None)) = Some s' ->
    gone s w a id todo woken (Some j) s'
| g_none j k x t b p : nth_error (boxes s) a = Some b -> get_pc job (acts b) id = Some p -> handling p = true -> todo = (j, k, x) :: t ->
    nth_error (boxes s) j = None -> gone s w a id todo woken None (set_worker s w (Work a id t None))
| g_tell j k x t b p c c' : nth_error (boxes s) a = Some b -> get_pc job (acts b) id = Some p -> handling p = true -> todo = (j, k, x) :: t ->
    nth_error (boxes s) j = Some c -> bstep c (Send k (Msg a x)) = Some c' ->
    gone s w a id todo woken None (State (upd (boxes s) j c') (tasks s) (upd (workers s) w (Work a id t (if is_open c && negb (scheduled c) then Some j else None))) (callers s) (begun s) (told s ++ [(j, k, Msg a x)]))
| g_stay b b' x p y : nth_error (boxes s) a = Some b -> bstep b x = Some b' -> internal job x = true -> queued b' = queued b -> pending b' = pending b -> sent b' = sent b ->
    length (acts b) = 1 -> acts b' = [(id, p)] -> todo = [] ->
    (y = [] /\ (exists m c, acts b = [(id, HandlingSys m c)] \/ acts b = [(id, HandlingUser m c)]) \/
     y = match p with HandlingSys m _ | HandlingUser m _ => sends_of (m_payload m) | _ => [] end /\ x = Pop id) ->
    gone s w a id todo woken None (State (upd (boxes s) a b') (tasks s) (upd (workers s) w (Work a id y None)) (callers s) (begun s) (told s))
| g_leave b b' x ts ws : nth_error (boxes s) a = Some b -> bstep b x = Some b' -> internal job x = true -> pending b' = pending b -> sent b' = sent b ->
    length (acts b) = 1 -> acts b' = [] -> queued b = 0 -> todo = [] ->
    (queued b' = 0 /\ ts = tasks s /\ ws = workers s \/
     queued b' = 1 /\ ts = tasks s ++ [a] /\ (cw is_waiting (workers s) = 0 /\ ws = workers s \/ nth_error (workers s) woken = Some Waiting /\ ws = upd (workers s) woken Ready)) ->
    gone s w a id todo woken None (State (upd (boxes s) a b') ts (upd ws w Ready) (callers s) (begun s) (told s)).

Lemma stay_eq s w a id b' s1 y : boxes s1 = upd (boxes s) a b' -> callers s1 = callers s -> begun s1 = begun s -> told s1 = told s -> tasks s1 = tasks s -> workers s1 = workers s ->
  set_worker s1 w (Work a id y None) = State (upd (boxes s) a b') (tasks s) (upd (workers s) w (Work a id y None)) (callers s) (begun s) (told s).
Proof. intros E1 E2 E3 E4 E5 E6. unfold set_worker. congruence. Qed.

Lemma go_gone s w a id todo tell woken s' : inv s -> nth_error (workers s) w = Some (Work a id todo tell) -> go tp w a id todo tell woken s = Some s' -> gone s w a id todo woken tell s'.
Proof.
  intros I Nw H. destruct (i_fits _ I w _ Nw) as [(b & p & N & G & T) Lt]. unfold go in H. destruct tell as [j|].
  { destruct (nth_error (boxes s) j) as [c|] eqn:Nj; [|apply nth_error_None in Nj; lia]. eapply g_sched; eassumption. }
  rewrite N, G in H. pose proof (i_reach _ I a b N) as R. destruct (one b id p R G) as [A Q0].
  assert (L1 : length (acts b) = 1) by (rewrite A; reflexivity).
  assert (TELL : forall j k x t, handling p = true -> todo = (j, k, x) :: t ->
    match tell_ tp j k (Msg a x) s with None => None | Some (s', need) => Some (set_worker s' w (Work a id t (if need then Some j else None))) end = Some s' ->
    gone s w a id todo woken None s').
  { intros j k x t Hp Et Hs. destruct (tell_ tp j k (Msg a x) s) as [[s1 need]|] eqn:E; [|discriminate]. injection Hs as <-.
    apply tell_cases in E as [(Nj & -> & ->)|(c & c' & Nj & E & -> & ->)].
    - exact (g_none s w a id todo woken j k x t b p N G Hp Et Nj).
    - exact (g_tell s w a id todo woken j k x t b p c c' N G Hp Et Nj E). }
  destruct p as [c|m c|m c| |].
  - destruct T as [[-> _]|T]; [|discriminate]. destruct (on_box tp a (Pop id) woken s) as [s1|] eqn:E; [|discriminate].
    apply on_box_cases in E as (b0 & b' & N' & E & B & C & Be & To & O). rewrite N in N'. injection N' as <-.
    rewrite B, nth_upd, Nat.eqb_refl, N in H. injection H as <-.
    destruct (pop_box b id b' R E) as (Q & Pe & Se & q & A').
    destruct O as [(_ & Ts & Ws)|(Lt' & _)]; [|lia]. rewrite A'. cbn [get_pc]. rewrite Nat.eqb_refl. rewrite (stay_eq s w a id b' s1 _ B C Be To Ts Ws).
    eapply (g_stay s w a id [] woken b b' (Pop id) q _ N E); auto.
  - destruct todo as [|[[j k] x] t]; [|exact (TELL j k x t eq_refl eq_refl H)].
    apply on_box_cases in H as (b0 & b' & N' & E & B & C & Be & To & O). rewrite N in N'. injection N' as <-.
    destruct (sysdone_box b id _ _ b' R E) as (Q & Pe & Se & q & A'). destruct O as [(_ & Ts & Ws)|(Lt' & _)]; [|lia].
    replace s' with (State (upd (boxes s) a b') (tasks s) (upd (workers s) w (Work a id [] None)) (callers s) (begun s) (told s)).
    + eapply (g_stay s w a id [] woken b b' _ q [] N E); eauto. left. rewrite A. eauto.
    + rewrite (upd_same _ _ _ Nw), <- B, <- C, <- Be, <- To, <- Ts, <- Ws. apply state_eta.
  - destruct todo as [|[[j k] x] t]; [|exact (TELL j k x t eq_refl eq_refl H)].
    apply on_box_cases in H as (b0 & b' & N' & E & B & C & Be & To & O). rewrite N in N'. injection N' as <-.
    destruct (userdone_box b id b' R E) as (Q & Pe & Se & q & A'). destruct O as [(_ & Ts & Ws)|(Lt' & _)]; [|lia].
    replace s' with (State (upd (boxes s) a b') (tasks s) (upd (workers s) w (Work a id [] None)) (callers s) (begun s) (told s)).
    + eapply (g_stay s w a id [] woken b b' _ q [] N E); eauto. left. rewrite A. eauto.
    + rewrite (upd_same _ _ _ Nw), <- B, <- C, <- Be, <- To, <- Ts, <- Ws. apply state_eta.
  - destruct T as [[-> _]|T]; [|discriminate]. destruct (on_box tp a (Reschedule id) woken s) as [s1|] eqn:E; [|discriminate]. injection H as <-.
    apply on_box_cases in E as (b0 & b' & N' & E & B & C & Be & To & O). rewrite N in N'. injection N' as <-.
    destruct (resched_box b id b' R E) as (_ & Q & Pe & Se & _ & A'). unfold set_worker. rewrite B, C, Be, To.
    eapply (g_leave s w a id [] woken b b' _ (tasks s1) (workers s1) N E); auto.
    destruct O as [(L & Ts & Ws)|(L & Ts & Ws)]; [left|right]; repeat split; auto; lia.
  - destruct T as [[-> _]|T]; [|discriminate]. destruct (on_box tp a (Close id) woken s) as [s1|] eqn:E; [|discriminate]. injection H as <-.
    apply on_box_cases in E as (b0 & b' & N' & E & B & C & Be & To & O). rewrite N in N'. injection N' as <-.
    destruct (close_box b id b' R E) as (Q & Pe & Se & _ & A'). unfold set_worker. rewrite B, C, Be, To.
    eapply (g_leave s w a id [] woken b b' _ (tasks s1) (workers s1) N E); auto.
    destruct O as [(L & Ts & Ws)|(L & Ts & Ws)]; [left|right]; repeat split; auto; lia.
Qed.
Lemma go_inv s w a id todo tell woken s' : inv s -> nth_error (workers s) w = Some (Work a id todo tell) -> go tp w a id todo tell woken s = Some s' -> inv s'.
Proof.
  intros I Nw H. apply (go_gone s w a id todo tell woken s' I Nw) in H. destruct (i_fits _ I w _ Nw) as [(b & p & N & G & T) Lt].
  assert (K : forall f y, f y = f (Work a id todo tell) -> cw f (upd (workers s) w y) = cw f (workers s)).
  { intros f y F. pose proof (cw_upd f _ _ _ y Nw). rewrite F in H0. lia. }
  inversion H; subst.
  - assert (Hp : todo = [] \/ handling p = true) by intuition.
    revert H1. apply (sched_inv j woken _ s' b0); cbn [set_worker boxes tasks workers callers told]; try apply I; auto.
    + intros c d Nc. pose proof (i_pend _ I c d Nc) as X. pose proof (cw_upd (tells c) _ _ _ (Work a id todo None) Nw) as U. cbn [tells b1] in U. lia.
    + intros c d Nc. rewrite K by reflexivity. apply (i_work _ I c d Nc).
    + apply fits_set; [apply I|]. cbn [fits_worker]. split; [|exact Logic.I]. exists b, p. intuition.
    + rewrite !K by reflexivity. apply (i_wake _ I).
  - rewrite H0 in N. injection N as ->. rewrite G in H1. injection H1 as ->.
    constructor; cbn [set_worker boxes tasks workers callers told]; try apply I.
    + intros c d Nc. rewrite K by reflexivity. apply (i_pend _ I c d Nc).
    + intros c d Nc. rewrite K by reflexivity. apply (i_work _ I c d Nc).
    + apply fits_set; [apply I|]. cbn [fits_worker]. split; [|exact Logic.I]. exists b, p0. intuition.
    + rewrite !K by reflexivity. apply (i_wake _ I).
  - rewrite H0 in N. injection N as ->. rewrite G in H1. injection H1 as ->.
    apply (tell_inv j k (Msg a x) s I c c' H4 H5).
    + intros d. pose proof (cw_upd (tells d) _ _ _ (Work a id t (if is_open c && negb (scheduled c) then Some j else None)) Nw) as U.
      destruct (is_open c && negb (scheduled c)); cbn [tells b1] in *; nia.
    + intros d. apply K. reflexivity.
    + apply (i_in _ I).
    + apply fits_set; [apply I|]. cbn [fits_worker]. split; [exists b, p0; intuition|]. destruct (is_open c && negb (scheduled c)); [|exact Logic.I]. apply lt_nth in H4. exact H4.
    + rewrite !K by reflexivity. apply (i_wake _ I).
  - eapply (stay_inv s w a id [] b0 b' p0 y I Nw); eauto.
    + eapply breach_step; [apply (i_reach _ I a b0 H0)|eassumption].
    + destruct H9 as [[-> _]|[-> _]]; [auto|]. destruct p0; auto.
  - eapply (leave_inv s w woken a id [] b0 b' ts ws I Nw); eauto.
    eapply breach_step; [apply (i_reach _ I a b0 H0)|eassumption].
Qed.
Lemma step_inv s x s' : inv s -> step tp s x = Some s' -> inv s'.
Proof.
  intros I. destruct x as [j k m|i woken|w|w|w woken]; cbn [step].
  - destruct (tell_ tp j k m s) as [[s1 need]|] eqn:E; [|discriminate]. intros [= <-].
    apply tell_cases in E as [(Nj & -> & ->)|(c & c' & Nj & E & -> & ->)]; [rewrite state_eta; exact I|]. cbn [boxes tasks workers callers begun told].
    apply (tell_inv j k m s I c c' Nj E); auto; try apply I.
    + intros d. destruct (is_open c && negb (scheduled c)); cbn [b1]; rewrite ?cnt_app, ?cnt_one; lia.
    + intros d. destruct (is_open c && negb (scheduled c)); [|apply (i_in _ I)]. rewrite in_app_iff. intros [X|[<-|[]]]; [apply (proj2 (i_in _ I)); exact X|apply lt_nth in Nj; exact Nj].
  - destruct (nth_error (callers s) i) as [j|] eqn:Ni; [|discriminate]. pose proof (proj2 (i_in _ I) j (nth_error_In _ _ Ni)) as L.
    destruct (nth_error (boxes s) j) as [b|] eqn:Nj; [|apply nth_error_None in Nj; lia].
    apply (sched_inv j woken _ s' b); cbn [boxes tasks workers callers told]; try apply I; auto.
    + intros c d Nc. pose proof (i_pend _ I c d Nc) as X. rewrite (cnt_without _ _ _ c Ni) in X. lia.
    + intros c X. apply without_in in X. apply (proj2 (i_in _ I)); exact X.
  - destruct (nth_error (workers s) w) as [[| |]|] eqn:Nw; try discriminate. intros [= <-]. eapply idle_inv; eauto.
  - destruct (nth_error (workers s) w) as [[| |]|] eqn:Nw; try discriminate. destruct (tasks s) as [|a r] eqn:Ts; [intros [= <-]; eapply idle_inv; eauto|].
    destruct (nth_error (boxes s) a) as [b|] eqn:N; [|discriminate]. destruct (on_box tp a WorkerStarts 0 s) as [s1|] eqn:E; [|discriminate]. intros [= <-].
    apply on_box_cases in E as (b0 & b' & N' & E & B & C & Be & To & O). rewrite N in N'. injection N' as <-.
    pose proof (start_box b b' E) as (Q & _). destruct O as [(_ & Ts' & Ws)|(Lt' & _)]; [|lia].
    unfold set_worker. cbn [boxes tasks workers callers begun told]. rewrite B, C, Be, To, Ws. eapply take_inv; eauto.
  - destruct (nth_error (workers s) w) as [[| |a id todo tell]|] eqn:Nw; try discriminate. apply go_inv; assumption.
Qed.
Lemma run_inv xs s s' : inv s -> run tp s xs = Some s' -> inv s'.
Proof.
  revert s. induction xs as [|x xs IH]; intros s I H; cbn [run] in H; [injection H as <-; exact I|].
  destruct (step tp s x) as [s1|] eqn:E; [|discriminate]. eapply IH; [|exact H]. eapply step_inv; eassumption.
Qed.
(* ---- a settled system ---- *)
Lemma notify_total l : exists v l', notify_one l v = Some l'.
Proof.
  unfold notify_one. destruct (existsb is_waiting l) eqn:E; [|exists 0; eauto].
  apply existsb_exists in E as (x & Hin & X). apply In_nth_error in Hin as (v & N). exists v. rewrite N. destruct x; try discriminate. eauto.
Qed.
Lemma on_box_total a x s b b' : nth_error (boxes s) a = Some b -> bstep b x = Some b' -> exists v s', on_box tp a x v s = Some s'.
Proof.
  intros N E. unfold on_box. rewrite N, E. destruct (notify_total (workers s)) as (v & l & H). exists v. destruct (queued b <? queued b'); [rewrite H|]; eauto.
Qed.
Lemma go_total s w a id todo tell : inv s -> nth_error (workers s) w = Some (Work a id todo tell) -> exists v s', go tp w a id todo tell v s = Some s'.
Proof.
  intros I Nw. destruct (i_fits _ I w _ Nw) as [(b & p & N & G & T) Lt]. unfold go. destruct tell as [j|].
  { destruct (nth_error (boxes s) j) as [c|] eqn:Nj; [|apply nth_error_None in Nj; lia].
    pose proof (i_pend _ I j c Nj) as P. assert (cw (tells j) (workers s) > 0) by (eapply cw_in; [exact Nw|cbn; apply Nat.eqb_refl]).
    destruct (pending c) as [|q] eqn:Pc; [lia|].
    eapply (on_box_total j SenderSchedules (set_worker s w (Work a id todo None)) c). { exact Nj. } { cbn [MailboxModel.step]. rewrite Pc. reflexivity. } }
  assert (TELL : forall j k x t, exists s', match tell_ tp j k (Msg a x) s with None => None | Some (s', need) => Some (set_worker s' w (Work a id t (if need then Some j else None))) end = Some s').
  { intros j k x t. unfold tell_. destruct (nth_error (boxes s) j) as [c|] eqn:Nj; [|eauto]. 
    unfold on_box. rewrite Nj. destruct (bstep c (Send k (Msg a x))) as [c'|] eqn:Es; [|discriminate Es]. destruct (send_box c k _ c' Es) as (Q & _). rewrite Q, Nat.ltb_irrefl. eauto. }
  rewrite N, G. destruct p as [c|m c|m c| |].
  - destruct (bstep b (Pop id)) as [b'|] eqn:E; [|cbn [MailboxModel.step] in E; rewrite G in E; discriminate].
    destruct (on_box_total a (Pop id) s b b' N E) as (v & s1 & H). exists v. rewrite H. apply on_box_cases in H as (b0 & b1' & N' & E' & B & _).
    rewrite B, nth_upd, Nat.eqb_refl, N. eauto.
  - destruct todo as [|[[j k] x] t]; [|destruct (TELL j k x t) as (s' & H); exists 0, s'; exact H].
    eapply on_box_total; [exact N|]. cbn [MailboxModel.step]. rewrite G. reflexivity.
  - destruct todo as [|[[j k] x] t]; [|destruct (TELL j k x t) as (s' & H); exists 0, s'; exact H].
    eapply on_box_total; [exact N|]. cbn [MailboxModel.step]. rewrite G. reflexivity.
  - destruct (bstep b (Reschedule id)) as [b'|] eqn:E; [|cbn [MailboxModel.step] in E; rewrite G in E; discriminate].
    destruct (on_box_total a _ s b b' N E) as (v & s1 & H). exists v. rewrite H. eauto.
  - destruct (bstep b (Close id)) as [b'|] eqn:E; [|cbn [MailboxModel.step] in E; rewrite G in E; discriminate].
    destruct (on_box_total a _ s b b' N E) as (v & s1 & H). exists v. rewrite H. eauto.
Qed.
Lemma settled_state s B : inv s -> settled tp B s -> (forall w, In w B -> exists a id todo tell, nth_error (workers s) w = Some (Work a id todo tell)) ->
  (exists w, w < length (workers s) /\ ~ In w B) ->
  callers s = [] /\ tasks s = [] /\ (forall w x, nth_error (workers s) w = Some x -> ~ In w B -> x = Waiting).
Proof.
  intros I St HB (w0 & L0 & N0).
  assert (C : callers s = []).
  { destruct (callers s) as [|j cs] eqn:C; [reflexivity|]. exfalso. pose proof (proj2 (i_in _ I) j) as L. rewrite C in L. specialize (L (or_introl eq_refl)).
    destruct (nth_error (boxes s) j) as [b|] eqn:Nj; [|apply nth_error_None in Nj; lia]. pose proof (i_pend _ I j b Nj) as P. rewrite C, cnt_cons, Nat.eqb_refl in P. cbn [b1] in P.
    destruct (pending b) as [|q] eqn:Pb; [lia|].
    destruct (bstep b SenderSchedules) as [b'|] eqn:E; [|cbn [MailboxModel.step] in E; rewrite Pb in E; discriminate].
    destruct (on_box_total j SenderSchedules (State (boxes s) (tasks s) (workers s) cs (begun s) (told s)) b b' Nj E) as (v & s' & H).
    specialize (St (CallerSchedules 0 v) Logic.I). cbn [step] in St. rewrite C in St. cbn [nth_error without] in St. rewrite H in St. discriminate. }
  assert (W : forall w x, nth_error (workers s) w = Some x -> ~ In w B -> x = Waiting).
  { intros w x Nw Nb. destruct x as [| |a id todo tell]; [|reflexivity|]; exfalso.
    - specialize (St (Enter w) Nb). cbn [step] in St. rewrite Nw in St. destruct (tasks s) as [|a r] eqn:Ts; [discriminate|].
      pose proof (proj1 (i_in _ I) a) as L. rewrite Ts in L. specialize (L (or_introl eq_refl)).
      destruct (nth_error (boxes s) a) as [b|] eqn:Na; [|apply nth_error_None in Na; lia]. pose proof (i_tasks _ I a b Na) as Q. rewrite Ts, cnt_cons, Nat.eqb_refl in Q. cbn [b1] in Q.
      destruct (queued b) as [|q] eqn:Qb; [lia|]. unfold on_box in St. rewrite Na in St.
      destruct (bstep b WorkerStarts) as [b'|] eqn:E; [|cbn [MailboxModel.step] in E; rewrite Qb in E; discriminate].
      destruct (start_box b b' E) as (Qe & _). assert (X : (queued b <? queued b') = false) by (apply Nat.ltb_ge; lia). rewrite Qb in X. rewrite Qb, X in St. discriminate.
    - destruct (go_total s w a id todo tell I Nw) as (v & s' & H). specialize (St (Go w v) Nb). cbn [step] in St. rewrite Nw, H in St. discriminate. }
  split; [exact C|]. split; [|exact W].
  destruct (nth_error (workers s) w0) as [x0|] eqn:Nw; [|apply nth_error_None in Nw; lia]. pose proof (W w0 x0 Nw N0) as ->.
  pose proof (cw_in is_waiting _ _ _ Nw eq_refl) as Wt. destruct (i_wake _ I) as [D|D]; [|lia].
  assert (Z : cw ready (workers s) = 0).
  { apply cw_none. intros w x Nx. destruct (in_dec Nat.eq_dec w B) as [Hb|Hb]; [|rewrite (W w x Nx Hb); reflexivity].
    destruct (HB w Hb) as (a & id & todo & tell & E). rewrite E in Nx. injection Nx as <-. reflexivity. }
  destruct (tasks s); [reflexivity|cbn in D; lia].
Qed.
Lemma settled_handled s B a b : inv s -> settled tp B s -> (forall w, In w B -> exists c id todo tell, nth_error (workers s) w = Some (Work c id todo tell)) ->
  (exists w, w < length (workers s) /\ ~ In w B) ->
  nth_error (boxes s) a = Some b -> is_open b = true -> (forall w x, In w B -> nth_error (workers s) w = Some x -> ~ occupied a x) ->
  handled_by b Sys = told_to a Sys (told s) /\ (started b = true -> handled_by b User = told_to a User (told s)).
Proof.
  intros I St HB H0 N O Oc. destruct (settled_state s B I St HB H0) as (C & T & W).
  rewrite <- !(i_told _ I a b _ N). apply (idle_handled job tp).
  - apply (i_reach _ I a b N).
  - pose proof (i_pend _ I a b N) as P. rewrite C in P. cbn in P. rewrite <- P. apply cw_none. intros w x Nx.
    destruct (in_dec Nat.eq_dec w B) as [Hb|Hb]; [|rewrite (W w x Nx Hb); reflexivity]. specialize (Oc w x Hb Nx). destruct x as [| |c id todo [j|]]; cbn in *; auto.
    apply Nat.eqb_neq. intros ->. auto.
  - pose proof (i_tasks _ I a b N) as Q. rewrite T in Q. cbn in Q. lia.
  - pose proof (i_work _ I a b N) as Wk. assert (Z : cw (works a) (workers s) = 0).
    { apply cw_none. intros w x Nx. destruct (in_dec Nat.eq_dec w B) as [Hb|Hb]; [|rewrite (W w x Nx Hb); reflexivity]. specialize (Oc w x Hb Nx).
      destruct x as [| |c id todo tell]; cbn in *; auto. apply Nat.eqb_neq. intros ->. auto. }
    destruct (acts b); [reflexivity|cbn in Wk; lia].
  - exact O.
Qed.

(* ---- it settles ---- *)
Fixpoint jw (x : job) : nat :=
  match x with
  | Job _ _ _ l => (fix go (l : list (nat * kind * job)) : nat := match l with [] => 0 | (_, _, y) :: t => 73 + jw y + go t end) l
  end.
Definition lw (l : list (nat * kind * job)) : nat := list_sum (map (fun e => 73 + jw (snd e)) l).
Lemma jw_lw x : jw x = lw (sends_of x).
Proof.
  destruct x as [tag st sr l]. cbn [jw sends_of]. induction l as [|[[j k] y] l IH]; [reflexivity|]. unfold lw. cbn [map list_sum snd fold_right]. f_equal. exact IH.
Qed.
Definition qw (b : box) : nat := list_sum (map (fun m => jw (m_payload m)) (usr b)) + list_sum (map (fun m => jw (m_payload m)) (sys b)).
Definition mu (b : box) : nat := 4 * measure job b + qw b.
Definition tw (x : wstate) : nat := match x with Work _ _ todo _ => lw todo | Ready => 1 | Waiting => 0 end.
Definition phi (s : state) : nat := list_sum (map mu (boxes s)) + list_sum (map tw (workers s)).
Lemma sum_upd {A} (f : A -> nat) l i x y : nth_error l i = Some x -> list_sum (map f (upd l i y)) + f x = list_sum (map f l) + f y.
Proof.
  revert i. induction l as [|z l IH]; intros [|i] H; cbn [nth_error] in H; try discriminate; cbn [upd map list_sum fold_right].
  - injection H as ->. lia.
  - specialize (IH i H). unfold list_sum in *. lia.
Qed.
Lemma send_mu b k m b' : breach b -> bstep b (Send k m) = Some b' -> mu b' <= mu b + 72 + jw (m_payload m).
Proof.
  intros R. pose proof (at_most b R) as M. cbn [MailboxModel.step]. intros [= <-]. unfold mu.
  assert (A : forall l (s s' : box), acts_weight job s' l <= acts_weight job s l + 5 * length l).
  { induction l as [|[c p] l IH]; intros s s'; cbn [acts_weight length]; [lia|]. specialize (IH s s'). unfold pc_weight.
    destruct p; try lia. destruct (has_work job s), (has_work job s'); lia. }
  unfold measure, qw, enqueue. destruct (is_open b) eqn:Op.
  - destruct k; cbn [usr sys pending queued acts]; rewrite ?map_app, ?list_sum_app, ?app_length; cbn [map list_sum fold_right length];
      match goal with |- context [acts_weight job ?z _] => pose proof (A (acts b) b z) end; destruct (scheduled b); lia.
  - cbn [usr sys pending queued acts]. match goal with |- context [acts_weight job ?z _] => assert (E : acts_weight job z (acts b) = acts_weight job b (acts b)) end.
    { apply aw_ext. apply has_work_ext; try reflexivity. cbn. congruence. } rewrite E. lia.
Qed.
Lemma internal_mu b x b' : breach b -> internal job x = true -> bstep b x = Some b' ->
  (forall id, x <> Pop id) -> mu b' + 4 <= mu b.
Proof.
  intros R Ix E NP. pose proof (internal_decreases job tp b x b' (reachable_inv job tp b R) Ix E) as D.
  assert (Q : qw b' = qw b); [|unfold mu; lia]. unfold qw. destruct x; try discriminate; cbn [MailboxModel.step] in E.
  - destruct (pending b); [discriminate|]. injection E as <-. match goal with |- context [schedule job ?r ?z] => destruct (schedule_same job r z) as (-> & -> & _) end. reflexivity.
  - destruct (queued b); [discriminate|]. injection E as <-. reflexivity.
  - exfalso. exact (NP a eq_refl).
  - destruct (get_pc job (acts b) a) as [[| | | |]|]; try discriminate. injection E as <-. reflexivity.
  - destruct (get_pc job (acts b) a) as [[| | | |]|]; try discriminate. injection E as <-. reflexivity.
  - destruct (get_pc job (acts b) a) as [[| | | |]|]; try discriminate. injection E as <-. match goal with |- context [schedule job ?r ?z] => destruct (schedule_same job r z) as (-> & -> & _) end. reflexivity.
  - destruct (get_pc job (acts b) a) as [[| | | |]|]; try discriminate. injection E as <-. reflexivity.
Qed.
Definition sends_at (p : pc job) : list (nat * kind * job) := match p with HandlingSys m _ | HandlingUser m _ => sends_of (m_payload m) | _ => [] end.
Lemma pop_mu b id b' p : breach b -> bstep b (Pop id) = Some b' -> acts b' = [(id, p)] -> mu b' + 4 + lw (sends_at p) <= mu b.
Proof.
  intros R E A'. pose proof (internal_decreases job tp b (Pop id) b' (reachable_inv job tp b R) eq_refl E) as D.
  assert (Q : qw b' + lw (sends_at p) = qw b); [|unfold mu; lia]. cbn [MailboxModel.step] in E. destruct (get_pc job (acts b) id) as [[c| | | |]|] eqn:G; try discriminate. injection E as <-.
  destruct (one b id _ R G) as [A _]. unfold pop in *. rewrite A in *. cbn [set_pc] in *. rewrite Nat.eqb_refl in *.
  unfold qw. destruct (sys b) as [|m t] eqn:Sb; [destruct (started b) eqn:St; [destruct (usr b) as [|m t] eqn:Ub|]|]; cbn [usr sys acts with_acts] in *; injection A' as <-; rewrite ?Ub, ?Sb; cbn [map list_sum fold_right sends_at]; rewrite <- ?jw_lw; unfold lw, list_sum; cbn; lia.
Qed.
Lemma on_box_phi a x woken s s' : on_box tp a x woken s = Some s' -> (forall b, nth_error (boxes s) a = Some b -> breach b) -> internal job x = true -> (forall id, x <> Pop id) -> phi s' + 3 <= phi s.
Proof.
  intros H R Ix NP. apply on_box_cases in H as (b & b' & N & E & B & C & G & To & O). pose proof (internal_mu b x b' (R b N) Ix E NP) as M.
  unfold phi. rewrite B. pose proof (sum_upd mu (boxes s) a b b' N) as U.
  assert (W : list_sum (map tw (workers s')) <= list_sum (map tw (workers s)) + 1).
  { destruct O as [(_ & _ & ->)|(_ & _ & [[_ ->]|[X ->]])]; try lia. pose proof (sum_upd tw _ _ _ Ready X) as V. cbn [tw] in V. lia. }
  lia.
Qed.
Lemma own_phi s x s' : inv s -> own [] x -> step tp s x = Some s' -> phi s' < phi s.
Proof.
  intros I Ox. destruct x as [j k m|i woken|w|w|w woken]; cbn [own] in Ox; try contradiction; cbn [step].
  - destruct (nth_error (callers s) i) as [j|] eqn:Ni; [|discriminate]. intros H. apply on_box_phi in H; [|apply (i_reach _ I)|reflexivity|discriminate].
    change (phi (State (boxes s) (tasks s) (workers s) (without (callers s) i) (begun s) (told s))) with (phi s) in H. lia.
  - destruct (nth_error (workers s) w) as [[| |]|] eqn:Nw; try discriminate. destruct (tasks s) as [|a r] eqn:Ts.
    + intros [= <-]. unfold phi, set_worker. cbn [boxes workers]. pose proof (sum_upd tw _ _ _ Waiting Nw) as V. cbn [tw] in V. lia.
    + destruct (nth_error (boxes s) a) as [b|] eqn:N; [|discriminate]. destruct (on_box tp a WorkerStarts 0 s) as [s1|] eqn:E; [|discriminate]. intros [= <-].
      apply on_box_cases in E as (b0 & b' & N' & E & B & C & Be & To & O). rewrite N in N'. injection N' as <-.
      pose proof (start_box b b' E) as (Q & _). destruct O as [(_ & Ts' & Ws)|(Lt' & _)]; [|lia].
      unfold phi, set_worker. cbn [boxes workers]. rewrite B, Ws. pose proof (sum_upd mu (boxes s) a b b' N). pose proof (sum_upd tw _ _ _ (Work a (next_act b) [] None) Nw) as V. cbn [tw] in V.
      pose proof (internal_mu b WorkerStarts b' (i_reach _ I a b N) eq_refl E ltac:(discriminate)). unfold lw in V. cbn in V. lia.
  - destruct (nth_error (workers s) w) as [[| |a id todo tell]|] eqn:Nw; try discriminate. intros H. apply (go_gone s w a id todo tell woken s' I Nw) in H. inversion H; subst.
    + apply on_box_phi in H1; [|intros b1 Nb; eapply (i_reach _ I); exact Nb|reflexivity|discriminate]. unfold phi in *. cbn [set_worker boxes workers] in H1.
      pose proof (sum_upd tw _ _ _ (Work a id todo None) Nw) as V. cbn [tw] in V. lia.
    + unfold phi. cbn [set_worker boxes workers]. pose proof (sum_upd tw _ _ _ (Work a id t None) Nw) as V. cbn [tw] in V. unfold lw in V. cbn [map list_sum fold_right] in V. unfold list_sum in *. lia.
    + unfold phi. cbn [boxes workers]. pose proof (sum_upd tw _ _ _ (Work a id t (if is_open c && negb (scheduled c) then Some j else None)) Nw) as V. cbn [tw] in V.
      pose proof (sum_upd mu (boxes s) j c c' H4) as U. pose proof (send_mu c k _ c' (i_reach _ I j c H4) H5) as M. cbn [m_payload] in M.
      unfold lw in V. cbn [map list_sum fold_right snd] in V. unfold list_sum in *. lia.
    + unfold phi. cbn [boxes workers]. pose proof (sum_upd tw _ _ _ (Work a id y None) Nw) as V. cbn [tw] in V. pose proof (sum_upd mu (boxes s) a b b' H0) as U.
      pose proof (i_reach _ I a b H0) as R. destruct H9 as [[-> (m & c & Am)]|[-> ->]].
      * assert (M : mu b' + 4 <= mu b). { apply (internal_mu b x b' R H2 H1). intros id' ->. cbn [MailboxModel.step] in H1. destruct Am as [Am|Am]; rewrite Am in H1; cbn in H1; destruct (id =? id'); discriminate. }
        lia.
      * pose proof (pop_mu b id b' p R H1 H7) as M. fold (sends_at p) in V. fold (sends_at p). change (lw []) with 0 in V. lia.
    + unfold phi. cbn [boxes workers].
      assert (Nw' : nth_error ws w = Some (Work a id [] None)).
      { destruct H9 as [(_ & _ & ->)|(_ & _ & [[_ ->]|[X ->]])]; auto. rewrite nth_upd. destruct (woken =? w) eqn:E; [|exact Nw]. apply Nat.eqb_eq in E as <-. congruence. }
      pose proof (sum_upd tw _ _ _ Ready Nw') as V. change (tw (Work a id [] None)) with 0 in V. change (tw Ready) with 1 in V. pose proof (sum_upd mu (boxes s) a b b' H0) as U.
      assert (W : list_sum (map tw ws) <= list_sum (map tw (workers s)) + 1).
      { destruct H9 as [(_ & _ & ->)|(_ & _ & [[_ ->]|[X ->]])]; try lia. pose proof (sum_upd tw _ _ _ Ready X) as V'. cbn [tw] in V'. lia. }
      assert (M : mu b' + 4 <= mu b). { apply (internal_mu b x b' (i_reach _ I a b H0) H2 H1). intros id' ->. destruct (pop_box b id' b' (i_reach _ I a b H0) H1) as (_ & _ & _ & p & E). congruence. }
      lia.
Qed.
Lemma own_mono B x : own B x -> own [] x.
Proof. destruct x; cbn; auto. Qed.
Lemma run_phi xs s s' : inv s -> Forall (own []) xs -> run tp s xs = Some s' -> length xs + phi s' <= phi s.
Proof.
  revert s. induction xs as [|x xs IH]; intros s I F H; cbn [run] in H; [injection H as <-; cbn; lia|].
  destruct (step tp s x) as [s1|] eqn:E; [|discriminate]. inversion F; subst. pose proof (own_phi s x s1 I H2 E). pose proof (step_inv s x s1 I E) as I'. specialize (IH s1 I' H3 H). cbn [length]. lia.
Qed.

(* ---- first come, first served ---- *)
Lemma step_order s x s' : inv s -> step tp s x = Some s' -> exists l, begun s' ++ tasks s' = (begun s ++ tasks s) ++ l.
Proof.
  intros I. assert (OB : forall a y woken z z', on_box tp a y woken z = Some z' -> exists l, begun z' ++ tasks z' = (begun z ++ tasks z) ++ l).
  { intros a y woken z z' H. apply on_box_cases in H as (b & b' & N & E & B & C & G & To & O). rewrite G. destruct O as [(_ & -> & _)|(_ & -> & _)].
    - exists []. rewrite app_nil_r. reflexivity.
    - exists [a]. rewrite app_assoc. reflexivity. }
  assert (NIL : exists l, begun s ++ tasks s = (begun s ++ tasks s) ++ l) by (exists []; rewrite app_nil_r; reflexivity).
  destruct x as [j k m|i woken|w|w|w woken]; cbn [step].
  - destruct (tell_ tp j k m s) as [[s1 need]|] eqn:E; [|discriminate]. intros [= <-].
    apply tell_cases in E as [(Nj & -> & ->)|(c & c' & Nj & E & -> & ->)]; exact NIL.
  - destruct (nth_error (callers s) i) as [j|] eqn:Ni; [|discriminate]. intros H. exact (OB _ _ _ _ _ H).
  - destruct (nth_error (workers s) w) as [[| |]|] eqn:Nw; try discriminate. intros [= <-]. exact NIL.
  - destruct (nth_error (workers s) w) as [[| |]|] eqn:Nw; try discriminate. destruct (tasks s) as [|a r] eqn:Ts; [intros [= <-]; cbn; rewrite Ts; exact NIL|].
    destruct (nth_error (boxes s) a) as [b|] eqn:N; [|discriminate]. destruct (on_box tp a WorkerStarts 0 s) as [s1|] eqn:E; [|discriminate]. intros [= <-].
    apply on_box_cases in E as (b0 & b' & N' & E & B & C & Be & To & O). cbn. rewrite Be. exists []. rewrite app_nil_r, <- app_assoc. reflexivity.
  - destruct (nth_error (workers s) w) as [[| |a id todo tell]|] eqn:Nw; try discriminate. intros H. apply (go_gone s w a id todo tell woken s' I Nw) in H. inversion H; subst; try exact NIL.
    + exact (OB _ _ _ _ _ H1).
    + cbn. destruct H9 as [(_ & -> & _)|(_ & -> & _)]; [exact NIL|]. exists [a]. rewrite app_assoc. reflexivity.
Qed.
Lemma run_order xs s s' : inv s -> run tp s xs = Some s' -> exists l, begun s' ++ tasks s' = (begun s ++ tasks s) ++ l.
Proof.
  revert s. induction xs as [|x xs IH]; intros s I H; cbn [run] in H; [injection H as <-; exists []; rewrite app_nil_r; reflexivity|].
  destruct (step tp s x) as [s1|] eqn:E; [|discriminate]. destruct (step_order s x s1 I E) as (l & L). destruct (IH s1 (step_inv s x s1 I E) H) as (l' & ->). rewrite L. exists (l ++ l'). rewrite <- app_assoc. reflexivity.
Qed.
Lemma nodup_l {A} (l r : list A) : NoDup (l ++ r) -> NoDup l.
Proof. induction l as [|x l IH]; cbn; intros H; [constructor|]. inversion H; subst. constructor; [|auto]. intros X. apply H2. rewrite in_app_iff. auto. Qed.
Lemma tasks_nodup s : inv s -> NoDup (tasks s).
Proof.
  intros I. apply (NoDup_count_occ Nat.eq_dec). intros a. destruct (in_dec Nat.eq_dec a (tasks s)) as [Hin|Hin].
  - pose proof (proj1 (i_in _ I) a Hin) as L. destruct (nth_error (boxes s) a) as [b|] eqn:N; [|apply nth_error_None in N; lia].
    pose proof (i_tasks _ I a b N) as Q. unfold cnt in Q. rewrite Q. pose proof (at_most b (i_reach _ I a b N)). lia.
  - apply (count_occ_not_In Nat.eq_dec) in Hin. lia.
Qed.
Lemma fair s xs s' l1 a l2 : inv s -> run tp s xs = Some s' -> tasks s = l1 ++ a :: l2 ->
  NoDup (l1 ++ [a]) /\ length l1 < length (boxes s) /\
  (length (begun s) + length l1 < length (begun s') -> firstn (S (length (begun s) + length l1)) (begun s') = begun s ++ l1 ++ [a]).
Proof.
  intros I H T. pose proof (tasks_nodup s I) as ND. rewrite T in ND.
  assert (ND' : NoDup (l1 ++ [a])). { change (a :: l2) with ([a] ++ l2) in ND. rewrite app_assoc in ND. exact (nodup_l _ _ ND). }
  split; [exact ND'|]. split.
  - pose proof (NoDup_incl_length ND' (l' := seq 0 (length (boxes s)))) as L. rewrite app_length, seq_length in L. cbn in L. assert (X : length l1 + 1 <= length (boxes s)); [|lia].
    apply L. intros c C. apply in_seq. assert (c < length (boxes s)); [|lia]. apply (proj1 (i_in _ I)). rewrite T. rewrite in_app_iff in *. destruct C as [C|[<-|[]]]; [auto|right; left; reflexivity].
  - intros L. destruct (run_order xs s s' I H) as (l & E). rewrite T in E.
    assert (F : firstn (S (length (begun s) + length l1)) (begun s' ++ tasks s') = begun s ++ l1 ++ [a]).
    { rewrite E. replace ((begun s ++ l1 ++ a :: l2) ++ l) with ((begun s ++ l1 ++ [a]) ++ (l2 ++ l)) by (rewrite <- !app_assoc; reflexivity).
      replace (S (length (begun s) + length l1)) with (length (begun s ++ l1 ++ [a])) by (rewrite !app_length; cbn; lia).
      rewrite firstn_app, firstn_all, Nat.sub_diag, firstn_O, app_nil_r. reflexivity. }
    rewrite firstn_app in F. replace (S (length (begun s) + length l1) - length (begun s')) with 0 in F by lia. rewrite firstn_O, app_nil_r in F. exact F.
Qed.

(* ---- what was told is what was asked for ---- *)
Definition left_over (n : nat) (ws : list wstate) : list (nat * kind * msg job) :=
  flat_map (fun x => match x with Work a _ todo _ => msgs_of n a todo | _ => [] end) ws.
Lemma asked_upd n bs a0 a b b' l : nth_error bs a = Some b -> asked_by n (a0 + a) b' = asked_by n (a0 + a) b ++ l ->
  Permutation (asked n a0 (upd bs a b')) (asked n a0 bs ++ l).
Proof.
  revert a0 a. induction bs as [|c bs IH]; intros a0 [|a] N E; cbn [nth_error] in N; try discriminate; cbn [upd asked].
  - injection N as ->. rewrite Nat.add_0_r in E. rewrite E, <- !app_assoc. apply Permutation_app_head, Permutation_app_comm.
  - rewrite <- app_assoc. apply Permutation_app_head. apply IH; [exact N|]. replace (S a0 + a) with (a0 + S a) by lia. exact E.
Qed.
Lemma asked_same n bs a0 a b b' : nth_error bs a = Some b -> asked_by n (a0 + a) b' = asked_by n (a0 + a) b -> asked n a0 (upd bs a b') = asked n a0 bs.
Proof.
  revert a0 a. induction bs as [|c bs IH]; intros a0 [|a] N E; cbn [nth_error] in N; try discriminate; cbn [upd asked].
  - injection N as ->. rewrite Nat.add_0_r in E. congruence.
  - f_equal. apply IH; [exact N|]. replace (S a0 + a) with (a0 + S a) by lia. exact E.
Qed.
Lemma left_upd n ws w x y : nth_error ws w = Some x ->
  Permutation (left_over n (upd ws w y) ++ left_over n [x]) (left_over n ws ++ left_over n [y]).
Proof.
  revert w. induction ws as [|z ws IH]; intros [|w] N; cbn [nth_error] in N; try discriminate; cbn [upd].
  - injection N as ->. change (left_over n (y :: ws)) with (left_over n ([y] ++ ws)). change (left_over n (x :: ws)) with (left_over n ([x] ++ ws)).
    unfold left_over. rewrite !flat_map_app. fold (left_over n ws) (left_over n [x]) (left_over n [y]). 
    rewrite (Permutation_app_comm (left_over n [y] ++ left_over n ws) (left_over n [x])), <- app_assoc. apply Permutation_app_head, Permutation_app_comm.
  - cbn [left_over flat_map]. fold (left_over n (upd ws w y)) (left_over n ws). rewrite <- !app_assoc. apply Permutation_app_head. apply IH. exact N.
Qed.
Lemma asked_step n a b x b' : bstep b x = Some b' -> (forall id, x <> Pop id) -> asked_by n a b' = asked_by n a b.
Proof.
  intros E NP. unfold asked_by. destruct x; cbn [MailboxModel.step] in E.
  - injection E as <-. unfold enqueue. destruct (is_open b); [|reflexivity]. destruct k; cbn [log]; rewrite flat_map_app; cbn; rewrite app_nil_r; reflexivity.
  - destruct (pending b); [discriminate|]. injection E as <-. match goal with |- context [schedule job ?r ?z] => unfold schedule; destruct (negb (scheduled z) || r); [destruct (has_work job z)|] end; reflexivity.
  - destruct (queued b); [discriminate|]. injection E as <-. reflexivity.
  - exfalso. exact (NP a0 eq_refl).
  - destruct (get_pc job (acts b) a0) as [[| | | |]|]; try discriminate. injection E as <-. reflexivity.
  - destruct (get_pc job (acts b) a0) as [[| | | |]|]; try discriminate. injection E as <-. reflexivity.
  - destruct (get_pc job (acts b) a0) as [[| | | |]|]; try discriminate. injection E as <-. match goal with |- context [schedule job ?r ?z] => unfold schedule; destruct (negb (scheduled z) || r); [destruct (has_work job z)|] end; reflexivity.
  - destruct (get_pc job (acts b) a0) as [[| | | |]|]; try discriminate. injection E as <-. reflexivity.
Qed.
Lemma asked_pop n a b id b' p : breach b -> bstep b (Pop id) = Some b' -> acts b' = [(id, p)] -> asked_by n a b' = asked_by n a b ++ msgs_of n a (sends_at p).
Proof.
  intros R E A'. cbn [MailboxModel.step] in E. destruct (get_pc job (acts b) id) as [[c| | | |]|] eqn:G; try discriminate. injection E as <-.
  destruct (one b id _ R G) as [A _]. unfold pop in *. rewrite A in *. cbn [set_pc] in *. rewrite Nat.eqb_refl in *. unfold asked_by.
  destruct (sys b) as [|m t]; [destruct (started b); [destruct (usr b) as [|m t]|]|]; cbn [acts log with_acts] in *; injection A' as <-; cbn [sends_at]; rewrite ?flat_map_app; cbn [flat_map msgs_of]; rewrite ?app_nil_r; reflexivity.
Qed.
Lemma left_one n a id todo tell : left_over n [Work a id todo tell] = msgs_of n a todo.
Proof. unfold left_over. cbn. apply app_nil_r. Qed.
Definition owed (E : list (nat * kind * msg job)) (s : state) : Prop :=
  Permutation (E ++ asked (length (boxes s)) 0 (boxes s)) (told s ++ left_over (length (boxes s)) (workers s)).
Lemma left_idle n ws w x y : nth_error ws w = Some x -> left_over n [x] = left_over n [y] -> Permutation (left_over n (upd ws w y)) (left_over n ws).
Proof. intros N E. pose proof (left_upd n ws w x y N) as P. rewrite E in P. apply Permutation_app_inv_r in P. exact P. Qed.
Lemma on_box_owed E a x woken s s' : owed E s -> on_box tp a x woken s = Some s' -> (forall id, x <> Pop id) -> owed E s'.
Proof.
  intros O H NP. apply on_box_cases in H as (b & b' & N & St & B & C & G & To & Ow). unfold owed in *. rewrite B, upd_length, To.
  rewrite (asked_same _ _ 0 a b b' N); [|apply (asked_step _ _ _ _ _ St NP)].
  destruct Ow as [(_ & _ & ->)|(_ & _ & [[_ ->]|[X ->]])]; auto. rewrite (left_idle _ _ _ _ Ready X) by reflexivity. exact O.
Qed.
Lemma tell_owed E j k m b b' ws s cs : owed E s -> nth_error (boxes s) j = Some b -> bstep b (Send k m) = Some b' ->
  Permutation (left_over (length (boxes s)) ws) (left_over (length (boxes s)) (workers s)) ->
  owed (E ++ [(j, k, m)]) (State (upd (boxes s) j b') (tasks s) ws cs (begun s) (told s ++ [(j, k, m)])).
Proof.
  intros O N St P. unfold owed in *. cbn [boxes told workers]. rewrite upd_length, P. rewrite (asked_same _ _ 0 j b b' N); [|apply (asked_step _ _ _ _ _ St); discriminate].
  rewrite <- !app_assoc. rewrite (Permutation_app_comm [(j, k, m)]), (Permutation_app_comm [(j, k, m)] (left_over _ _)), !app_assoc. apply Permutation_app_tail. exact O.
Qed.
Lemma ltb_nth {A} (l : list A) j x : nth_error l j = Some x -> (j <? length l) = true.
Proof. intros H. apply Nat.ltb_lt. apply lt_nth in H. exact H. Qed.
Lemma step_owed E s x s' : inv s -> owed E s -> step tp s x = Some s' -> owed (E ++ outside (length (boxes s)) [x]) s' /\ length (boxes s') = length (boxes s) /\ length (workers s') = length (workers s).
Proof.
  intros I O.
  assert (LB : forall a y woken z z', on_box tp a y woken z = Some z' -> length (boxes z') = length (boxes z) /\ length (workers z') = length (workers z)).
  { intros a y woken z z' H. apply on_box_cases in H as (b & b' & N & _ & B & C & G & To & Ow). rewrite B, upd_length. split; [reflexivity|].
    destruct Ow as [(_ & _ & ->)|(_ & _ & [[_ ->]|[X ->]])]; rewrite ?upd_length; reflexivity. }
  assert (E0 : E ++ [] = E) by apply app_nil_r.
  destruct x as [j k m|i woken|w|w|w woken]; cbn [step outside flat_map app].
  - destruct (tell_ tp j k m s) as [[s1 need]|] eqn:T; [|discriminate]. intros [= <-]. rewrite app_nil_r.
    apply tell_cases in T as [(Nj & -> & ->)|(c & c' & Nj & T & -> & ->)]; cbn [boxes tasks workers callers begun told].
    + apply nth_error_None in Nj. assert (X : (j <? length (boxes s)) = false) by (apply Nat.ltb_ge; exact Nj). rewrite X, E0. rewrite state_eta. auto.
    + rewrite (ltb_nth _ _ _ Nj), upd_length. split; [|auto]. eapply tell_owed; eauto.
  - destruct (nth_error (callers s) i) as [j|] eqn:Ni; [|discriminate]. intros H. rewrite E0. destruct (LB _ _ _ _ _ H) as [L1 L2]. split; [|split; assumption].
    eapply on_box_owed; [|exact H|discriminate]. exact O.
  - destruct (nth_error (workers s) w) as [[| |]|] eqn:Nw; try discriminate. intros [= <-]. rewrite E0. cbn [set_worker boxes workers]. rewrite upd_length. split; [|auto].
    unfold owed, set_worker. cbn [boxes told workers]. rewrite (left_idle _ _ _ _ Ready Nw) by reflexivity. exact O.
  - destruct (nth_error (workers s) w) as [[| |]|] eqn:Nw; try discriminate. destruct (tasks s) as [|a r] eqn:Ts.
    + intros [= <-]. rewrite E0. cbn [set_worker boxes workers]. rewrite upd_length. split; [|auto].
      unfold owed, set_worker. cbn [boxes told workers]. rewrite (left_idle _ _ _ _ Waiting Nw) by reflexivity. exact O.
    + destruct (nth_error (boxes s) a) as [b|] eqn:N; [|discriminate]. destruct (on_box tp a WorkerStarts 0 s) as [s1|] eqn:H; [|discriminate]. intros [= <-]. rewrite E0.
      destruct (LB _ _ _ _ _ H) as [L1 L2]. cbn [set_worker boxes workers]. rewrite upd_length. split; [|split; assumption].
      assert (O1 : owed E s1) by (eapply on_box_owed; [exact O|exact H|discriminate]).
      apply on_box_cases in H as (b0 & b' & N' & St & B & C & Be & To & Ow). rewrite N in N'. injection N' as <-. pose proof (start_box b b' St) as (Q & _). destruct Ow as [(_ & Ts' & Ws)|(Lt' & _)]; [|lia].
      unfold owed, set_worker in *. cbn [boxes told workers]. rewrite Ws in *. rewrite (left_idle _ _ _ _ (Work a (next_act b) [] None) Nw) by reflexivity. exact O1.
  - destruct (nth_error (workers s) w) as [[| |a id todo tell]|] eqn:Nw; try discriminate. intros H. apply (go_gone s w a id todo tell woken s' I Nw) in H. rewrite E0. inversion H; subst.
    + destruct (LB _ _ _ _ _ H1) as [L1 L2]. cbn [set_worker boxes workers] in L1, L2. rewrite upd_length in L2. split; [|split; assumption].
      eapply on_box_owed; [|exact H1|discriminate]. unfold owed, set_worker in *. cbn [boxes told workers]. rewrite (left_idle _ _ _ _ (Work a id todo None) Nw) by reflexivity. exact O.
    + cbn [set_worker boxes workers]. rewrite upd_length. split; [|auto]. unfold owed, set_worker in *. cbn [boxes told workers]. rewrite (left_idle _ _ _ _ (Work a id t None) Nw); [exact O|].
      apply nth_error_None in H4. assert (X : (j <? length (boxes s)) = false) by (apply Nat.ltb_ge; exact H4). cbn [left_over flat_map msgs_of]. rewrite X. reflexivity.
    + cbn [boxes workers]. rewrite !upd_length. split; [|auto]. unfold owed in *. cbn [boxes told workers]. rewrite upd_length.
      rewrite (asked_same _ _ 0 j c c' H4); [|apply (asked_step _ _ _ _ _ H5); discriminate].
      pose proof (left_upd (length (boxes s)) _ _ _ (Work a id t (if is_open c && negb (scheduled c) then Some j else None)) Nw) as P.
      rewrite !left_one in P. replace (msgs_of (length (boxes s)) a ((j, k, x) :: t)) with ([(j, k, Msg a x)] ++ msgs_of (length (boxes s)) a t) in P by (cbn [msgs_of flat_map]; rewrite (ltb_nth _ _ _ H4); reflexivity).
      rewrite app_assoc in P. apply Permutation_app_inv_r in P. rewrite O, <- app_assoc. apply Permutation_app_head. rewrite <- P. apply Permutation_app_comm.
    + cbn [boxes workers]. rewrite !upd_length. split; [|auto]. unfold owed in *. cbn [boxes told workers]. rewrite upd_length. pose proof (i_reach _ I a b H0) as R.
      destruct H9 as [[-> (m & c & Am)]|[-> ->]].
      * rewrite (asked_same _ _ 0 a b b' H0). { rewrite (left_idle _ _ _ _ (Work a id [] None) Nw) by reflexivity. exact O. }
        apply (asked_step _ _ _ _ _ H1). intros id' ->. cbn [MailboxModel.step] in H1. destruct Am as [Am|Am]; rewrite Am in H1; cbn in H1; destruct (id =? id'); discriminate.
      * fold (sends_at p). rewrite (asked_upd _ _ 0 a b b' _ H0 (asked_pop (length (boxes s)) a b id b' p R H1 H7)).
        pose proof (left_upd (length (boxes s)) _ _ _ (Work a id (sends_at p) None) Nw) as P. rewrite !left_one in P. change (msgs_of (length (boxes s)) a []) with (@nil (nat * kind * msg job)) in P. rewrite app_nil_r in P.
        rewrite P, !app_assoc. apply Permutation_app_tail. exact O.
    + cbn [boxes workers]. 
      assert (Nw' : nth_error ws w = Some (Work a id [] None)).
      { destruct H9 as [(_ & _ & ->)|(_ & _ & [[_ ->]|[X ->]])]; auto. rewrite nth_upd. destruct (woken =? w) eqn:Ee; [|exact Nw]. apply Nat.eqb_eq in Ee as <-. congruence. }
      assert (Lw : length ws = length (workers s)) by (destruct H9 as [(_ & _ & ->)|(_ & _ & [[_ ->]|[X ->]])]; rewrite ?upd_length; reflexivity).
      rewrite !upd_length. split; [|auto]. unfold owed in *. cbn [boxes told workers]. rewrite upd_length.
      rewrite (asked_same _ _ 0 a b b' H0); [|apply (asked_step _ _ _ _ _ H1); intros id' ->; destruct (pop_box b id' b' (i_reach _ I a b H0) H1) as (_ & _ & _ & p & Ee); congruence].
      rewrite (left_idle _ _ _ _ Ready Nw') by reflexivity.
      destruct H9 as [(_ & _ & ->)|(_ & _ & [[_ ->]|[X ->]])]; auto. rewrite (left_idle _ _ _ _ Ready X) by reflexivity. exact O.
Qed.
Lemma run_owed xs E s s' : inv s -> owed E s -> run tp s xs = Some s' -> owed (E ++ outside (length (boxes s)) xs) s' /\ length (boxes s') = length (boxes s) /\ length (workers s') = length (workers s).
Proof.
  revert E s. induction xs as [|x xs IH]; intros E s I O H; cbn [run] in H; [injection H as <-; cbn; rewrite app_nil_r; auto|].
  destruct (step tp s x) as [s1|] eqn:Es; [|discriminate]. destruct (step_owed E s x s1 I O Es) as (O1 & L1 & L2).
  destruct (IH _ s1 (step_inv s x s1 I Es) O1 H) as (O2 & L3 & L4). rewrite L3, L4, L1, L2. rewrite L1 in O2. rewrite <- app_assoc in O2.
  replace (outside (length (boxes s)) (x :: xs)) with (outside (length (boxes s)) [x] ++ outside (length (boxes s)) xs); [auto|].
  unfold outside. cbn [flat_map]. rewrite app_nil_r. reflexivity.
Qed.
Lemma owed_init n t : owed [] (init n t).
Proof.
  unfold owed. cbn [init boxes told workers app]. rewrite repeat_length.
  assert (A : forall k a, asked n a (repeat (MailboxModel.init job) k) = []) by (induction k; intros a; cbn; auto).
  assert (B : forall k, left_over n (repeat Ready k) = []) by (induction k; cbn; auto). rewrite A, B. constructor.
Qed.
End Proofs.
