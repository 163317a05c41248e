From Coq Require Import List Bool Arith Lia Permutation.
From Verif Require Import PinModel PinSpec.
Import ListNotations.

Lemma accepted_app : forall A k (a b : list (event A)), accepted k (a ++ b) = accepted k a ++ accepted k b.
Proof. intros A k a b. induction a as [|[k' m|k' m] a IH]; cbn; rewrite ?IH; try destruct (same k k'); reflexivity. Qed.
Lemma handled_app : forall A k (a b : list (event A)), handled k (a ++ b) = handled k a ++ handled k b.
Proof. intros A k a b. induction a as [|[k' m|k' m] a IH]; cbn; rewrite ?IH; try destruct (same k k'); reflexivity. Qed.

Section P.
Context {A : Type}.
Notation state := (state A).
Notation action := (action A).

(* the shape of the thread list: at most one live thread *)
Record inv (limit : nat) (s : state) : Prop := Inv {
  i_one : match threads s with
          | [] => scheduled s = false
          | [(_, _)] => scheduled s = true
          | _ => False
          end;
  i_wait : forall a, threads s = [(a, Waiting A)] -> sys s = [] /\ (started s = true -> usr s = []);
  i_user : accepted User (log s) = handled User (log s) ++ usr s;
  i_sys : accepted Sys (log s) = handled Sys (log s) ++ sys s;
  i_count : next s = length (threads s) + ended s;
  i_limit : next s + slots s <= limit;
  i_first : ended s = 0 -> is_open s = true;
  i_again : ended s <> 0 -> is_open s = false;
  i_unstarted : next s = 0 -> started s = false;
  i_work : is_open s = true -> refused s = false -> threads s = [] -> pending s = 0 -> sys s = [];
  i_prio : forall l1 m l2, log s = l1 ++ Handled A User m :: l2 -> accepted Sys l1 = handled Sys l1
}.

Lemma get_one : forall b (p q : pc A) a, get_pc A [(b, p)] a = Some q -> b = a /\ p = q.
Proof. intros b p q a H. cbn in H. destruct (b =? a) eqn:E; [|discriminate]. apply Nat.eqb_eq in E. injection H as <-. auto. Qed.
Lemma snoc_inv : forall B (l l1 : list B) x y l2, l ++ [x] = l1 ++ y :: l2 ->
  (l2 = [] /\ x = y /\ l = l1) \/ (exists l3, l2 = l3 ++ [x] /\ l = l1 ++ y :: l3).
Proof.
  intros B l l1 x y l2 H. destruct (exists_last (l := y :: l2) ltac:(discriminate)) as [t [z E]].
  rewrite E, app_assoc in H. apply app_inj_tail in H as [H <-]. destruct t as [|y' t].
  - cbn in E. injection E as -> ->. rewrite app_nil_r in H. left. auto.
  - cbn in E. injection E as <- ->. right. exists t. auto.
Qed.
Lemma same_refl : forall k, same k k = true. Proof. intros []; reflexivity. Qed.

Lemma init_inv : forall limit, inv limit (init A limit).
Proof. intros limit. constructor; cbn; intros; try tauto; try lia; try discriminate. destruct l1; discriminate. Qed.

Ltac mk I := destruct I as [Ione Iwait Iuser Isys Icount Ilimit Ifirst Iagain Iunst Iwork Iprio].

Lemma prio_snoc_other : forall (l : list (event A)) x,
  (forall l1 m l2, l = l1 ++ Handled A User m :: l2 -> accepted Sys l1 = handled Sys l1) ->
  (forall m, x <> Handled A User m) ->
  forall l1 m l2, l ++ [x] = l1 ++ Handled A User m :: l2 -> accepted Sys l1 = handled Sys l1.
Proof.
  intros l x H N l1 m l2 E. apply snoc_inv in E as [(_ & E & _) | (l3 & _ & E)]; [destruct (N _ E)|exact (H _ _ _ E)].
Qed.

Lemma one_thread : forall limit s a p, inv limit s -> get_pc A (threads s) a = Some p -> threads s = [(a, p)].
Proof.
  intros limit s a p I G. pose proof (i_one _ _ I) as O. destruct (threads s) as [|[b q] [|x t]]; [discriminate| |destruct O].
  apply get_one in G as [-> ->]. reflexivity.
Qed.

Lemma set_one : forall a (p q : pc A), set_pc A [(a, p)] a q = [(a, q)].
Proof. intros. cbn. rewrite Nat.eqb_refl. reflexivity. Qed.
Lemma drop_one : forall a (p : pc A), drop_pc A [(a, p)] a = [].
Proof. intros. cbn. rewrite Nat.eqb_refl. reflexivity. Qed.

Lemma schedule_inv : forall limit u sy o sc st p sl ts nx en rf lg,
  inv limit (State A u sy o sc st (S p) sl ts nx en rf lg) -> inv limit (schedule A (State A u sy o sc st p sl ts nx en rf lg)).
Proof.
  intros limit u sy o sc st p sl ts nx en rf lg I. mk I. cbn in *.
  unfold schedule. cbn. destruct sc.
  - constructor; cbn; auto. intros O R T P. rewrite T in Ione. discriminate.
  - destruct ts as [|[b q] [|x t]]; [|discriminate|destruct Ione].
    destruct (has_work A (State A u sy o false st p sl [] nx en rf lg)) eqn:W.
    + destruct sl as [|sl].
      * constructor; cbn; auto. intros. discriminate.
      * constructor; cbn in *; auto; try lia; intros; discriminate.
    + constructor; cbn; auto. intros O R T P. unfold has_work in W. cbn in W.
      destruct sy as [|y sy]; [reflexivity|]. cbn in W. destruct st; [rewrite orb_true_r in W|]; discriminate.
Qed.

Lemma step_inv : forall limit x s s', inv limit s -> step A s x = Some s' -> inv limit s'.
Proof.
  intros limit x s s' I H. destruct x as [k m w| | |a|a|a stop st|a|a]; unfold step in H.
  - (* Send *)
    unfold enqueue in H. destruct (is_open s) eqn:O; [|injection H as <-; exact I].
    destruct (notify A w (threads s)) as [ts|] eqn:N; [|discriminate]. injection H as <-.
    assert (T : (threads s = [] /\ ts = []) \/ exists a p, threads s = [(a, p)] /\ ts = [(a, if is_waiting A p then Popping A else p)]).
    { pose proof (i_one _ _ I) as One. unfold notify in N. destruct (threads s) as [|[b q] [|y t]]; [left|right|destruct One].
      - cbn in N. injection N as <-. auto.
      - exists b, q. split; [reflexivity|]. cbn in N. destruct (is_waiting A q) eqn:Q; cbn in N.
        + destruct (b =? w); [|discriminate]. destruct q; try discriminate. injection N as <-. reflexivity.
        + injection N as <-. reflexivity. }
    mk I.
    assert (W : forall a, ts <> [(a, Waiting A)]).
    { destruct T as [[_ ->] | (a & p & _ & ->)]; [discriminate|]. intros a' E. injection E as -> E. destruct p; discriminate. }
    assert (O1 : match ts with [] => scheduled s = false | [(_, _)] => scheduled s = true | _ => False end).
    { destruct T as [[E ->] | (a & p & E & ->)]; rewrite E in Ione; exact Ione. }
    assert (L : length ts = length (threads s)) by (destruct T as [[E ->] | (a & p & E & ->)]; rewrite E; reflexivity).
    assert (PN : ts = [] -> scheduled s = false) by (intros E; rewrite E in O1; exact O1).
    destruct k; constructor; cbn; rewrite ?accepted_app, ?handled_app; cbn; rewrite ?app_nil_r, ?L; auto;
      try (intros a E; destruct (W _ E));
      try (rewrite Iuser, app_assoc; reflexivity); try (rewrite Isys, app_assoc; reflexivity);
      try (intros E; exfalso; specialize (Iagain E); congruence);
      try (intros _ R E P; rewrite (PN E) in P; discriminate);
      apply prio_snoc_other; auto; discriminate.
  - destruct (pending s) as [|p] eqn:P; [discriminate|]. injection H as <-. apply schedule_inv. rewrite <- P. destruct s. exact I.
  - destruct (slots s) as [|n] eqn:E; [discriminate|]. injection H as <-. mk I. constructor; cbn; auto. lia.
  - (* Pop *)
    destruct (get_pc A (threads s) a) as [[]|] eqn:G; try discriminate. injection H as <-.
    pose proof (one_thread _ _ _ _ I G) as T. mk I. rewrite T in *. cbn in Icount, Ione.
    unfold pop. destruct (sys s) as [|m t] eqn:Sy.
    + destruct (started s) eqn:St; [destruct (usr s) as [|m t] eqn:U|].
      * unfold with_threads. rewrite T, set_one. constructor; cbn; rewrite ?Sy, ?U; auto; try discriminate; intros; congruence.
      * rewrite T, set_one. constructor; cbn; rewrite ?accepted_app, ?handled_app; cbn; rewrite ?app_nil_r; auto; try discriminate; try congruence.
        -- rewrite Iuser, <- app_assoc. reflexivity.
        -- rewrite Isys, app_nil_r. reflexivity.
        -- intros l1 m' l2 E. apply snoc_inv in E as [(_ & _ & <-) | (l3 & _ & E)]; [rewrite Isys, app_nil_r; reflexivity|exact (Iprio _ _ _ E)].
      * unfold with_threads. rewrite T, set_one. constructor; cbn; rewrite ?Sy; auto; try discriminate; try (intros; split; [reflexivity|congruence]); intros; congruence.
    + rewrite T, set_one. constructor; cbn; rewrite ?accepted_app, ?handled_app; cbn; rewrite ?app_nil_r; auto; try discriminate; try congruence.
      * rewrite Isys, <- app_assoc. reflexivity.
      * apply prio_snoc_other; auto; discriminate.
  - destruct (get_pc A (threads s) a) as [[]|] eqn:G; try discriminate. injection H as <-.
    pose proof (one_thread _ _ _ _ I G) as T. mk I. unfold with_threads. rewrite T in *. rewrite set_one. cbn in Icount, Ione.
    constructor; cbn; auto; discriminate.
  - destruct (get_pc A (threads s) a) as [[]|] eqn:G; try discriminate. injection H as <-.
    pose proof (one_thread _ _ _ _ I G) as T. mk I. rewrite T in *. rewrite set_one. cbn in Icount, Ione.
    constructor; cbn; auto; try discriminate; try (destruct stop; discriminate). intros E. lia.
  - destruct (get_pc A (threads s) a) as [[]|] eqn:G; try discriminate. injection H as <-.
    pose proof (one_thread _ _ _ _ I G) as T. mk I. unfold with_threads. rewrite T in *. rewrite set_one. cbn in Icount, Ione.
    constructor; cbn; auto; discriminate.
  - destruct (get_pc A (threads s) a) as [[]|] eqn:G; try discriminate. injection H as <-.
    pose proof (one_thread _ _ _ _ I G) as T. mk I. rewrite T in *. rewrite drop_one. cbn in Icount, Ione.
    constructor; cbn; auto; try discriminate; try lia.
Qed.
Lemma run_inv : forall limit xs s s', inv limit s -> run A s xs = Some s' -> inv limit s'.
Proof.
  intros limit xs. induction xs as [|x xs IH]; intros s s' I H; cbn in H.
  - injection H as <-. exact I.
  - destruct (step A s x) as [s1|] eqn:E; [|discriminate]. exact (IH _ _ (step_inv _ _ _ _ I E) H).
Qed.

Lemma reach_inv : forall limit xs s, run A (init A limit) xs = Some s -> inv limit s.
Proof. intros limit xs s H. exact (run_inv _ _ _ _ (init_inv limit) H). Qed.

Lemma one_thread_only : forall limit xs s, run A (init A limit) xs = Some s ->
  length (threads s) = (if scheduled s then 1 else 0) /\ next s = length (threads s) + ended s /\ next s + slots s <= limit.
Proof.
  intros limit xs s H. apply reach_inv in H. mk H. repeat split; auto.
  destruct (threads s) as [|[b q] [|x t]]; [rewrite Ione; reflexivity|rewrite Ione; reflexivity|destruct Ione].
Qed.
Lemma order : forall limit xs s, run A (init A limit) xs = Some s ->
  accepted User (log s) = handled User (log s) ++ usr s /\ accepted Sys (log s) = handled Sys (log s) ++ sys s.
Proof. intros limit xs s H. apply reach_inv in H. mk H. auto. Qed.
Lemma system_first : forall limit xs s l1 m l2, run A (init A limit) xs = Some s ->
  log s = l1 ++ Handled A User m :: l2 -> accepted Sys l1 = handled Sys l1.
Proof. intros limit xs s l1 m l2 H. apply reach_inv in H. exact (i_prio _ _ H _ _ _). Qed.
Lemma user_started : forall (s s' : state) x m, step A s x = Some s' -> log s' = log s ++ [Handled A User m] -> started s = true.
Proof.
  intros s s' x m H L.
  assert (N : forall l : list (event A), l <> l ++ [Handled A User m]).
  { intros l E. apply (f_equal (@length _)) in E. rewrite app_length in E. cbn in E. lia. }
  destruct x as [k m' w| | |a|a|a stop st|a|a]; unfold step in H.
  - unfold enqueue in H. destruct (is_open s); [|injection H as <-; destruct (N _ L)].
    destruct (notify A w (threads s)); [|discriminate]. injection H as <-.
    destruct k; cbn in L; apply app_inv_head in L; discriminate.
  - destruct (pending s); [discriminate|]. injection H as <-. unfold schedule in L. cbn in L.
    destruct (scheduled s); [|destruct (has_work _ _); [destruct (slots s)|]]; cbn in L; destruct (N _ L).
  - destruct (slots s); [discriminate|]. injection H as <-. destruct (N _ L).
  - destruct (get_pc A (threads s) a) as [[]|]; try discriminate. injection H as <-.
    unfold pop in L. destruct (sys s); [destruct (started s); [reflexivity|]|]; cbn in L.
    + destruct (N _ L).
    + apply app_inv_head in L. discriminate.
  - destruct (get_pc A (threads s) a) as [[]|]; try discriminate. injection H as <-. destruct (N _ L).
  - destruct (get_pc A (threads s) a) as [[]|]; try discriminate. injection H as <-. destruct (N _ L).
  - destruct (get_pc A (threads s) a) as [[]|]; try discriminate. injection H as <-. destruct (N _ L).
  - destruct (get_pc A (threads s) a) as [[]|]; try discriminate. injection H as <-. destruct (N _ L).
Qed.
Lemma no_lost_wakeup : forall limit xs s a, run A (init A limit) xs = Some s -> get_pc A (threads s) a = Some (Waiting A) ->
  sys s = [] /\ (started s = true -> usr s = []).
Proof. intros limit xs s a H G. apply reach_inv in H. exact (i_wait _ _ H _ (one_thread _ _ _ _ H G)). Qed.
Lemma at_rest : forall limit xs s, run A (init A limit) xs = Some s ->
  is_open s = true -> refused s = false -> pending s = 0 -> (forall a p, In (a, p) (threads s) -> p = Waiting A) ->
  sys s = [] /\ (started s = true -> usr s = []).
Proof.
  intros limit xs s H O R P T. apply reach_inv in H. mk H.
  destruct (threads s) as [|[b q] [|x t]] eqn:E; [|specialize (T b q (or_introl eq_refl)); subst q; exact (Iwait _ eq_refl)|destruct Ione].
  split; [auto|]. intros S. cbn in Icount.
  destruct (Nat.eq_dec (ended s) 0) as [Z|Z]; [|specialize (Iagain Z); congruence].
  rewrite Iunst in S by lia. discriminate.
Qed.
(* no thread and no slot, or closed with no thread and no sender about to schedule: nothing happens *)
Lemma no_slot : forall xs (s s' : state), slots s = 0 -> threads s = [] -> run A s xs = Some s' ->
  slots s' = 0 /\ threads s' = [] /\ forall k, handled k (log s') = handled k (log s).
Proof.
  intros xs. induction xs as [|x xs IH]; intros s s' Z T H; cbn in H.
  - injection H as <-. auto.
  - destruct (step A s x) as [s1|] eqn:E; [|discriminate].
    assert (P : slots s1 = 0 /\ threads s1 = [] /\ forall k, handled k (log s1) = handled k (log s)).
    { destruct x as [k m' w| | |a|a|a stop st|a|a]; unfold step in E; rewrite ?T, ?Z in E; try discriminate.
      - unfold enqueue in E. destruct (is_open s); [|injection E as <-; auto]. rewrite T in E. cbn in E. injection E as <-.
        destruct k; cbn; (split; [exact Z|split; [reflexivity|]]); intros k'; rewrite handled_app; cbn; apply app_nil_r.
      - destruct (pending s); [discriminate|]. injection E as <-. unfold schedule. cbn.
        destruct (scheduled s); [auto|]. destruct (has_work _ _); cbn; auto. }
    destruct P as (P1 & P2 & P3). destruct (IH _ _ P1 P2 H) as (Q1 & Q2 & Q3).
    split; [exact Q1|split; [exact Q2|]]. intros k. rewrite Q3. apply P3.
Qed.
Lemma closed_quiet : forall xs (s s' : state), is_open s = false -> threads s = [] -> pending s = 0 -> run A s xs = Some s' ->
  log s' = log s /\ threads s' = [] /\ is_open s' = false.
Proof.
  intros xs. induction xs as [|x xs IH]; intros s s' O T P H; cbn in H.
  - injection H as <-. auto.
  - destruct (step A s x) as [s1|] eqn:E; [|discriminate].
    assert (Q : log s1 = log s /\ threads s1 = [] /\ is_open s1 = false /\ pending s1 = 0).
    { destruct x as [k m' w| | |a|a|a stop st|a|a]; unfold step in E; rewrite ?T, ?P in E; try discriminate.
      - unfold enqueue in E. rewrite O in E. injection E as <-. auto.
      - destruct (slots s); [discriminate|]. injection E as <-. auto. }
    destruct Q as (Q1 & Q2 & Q3 & Q4). destruct (IH _ _ Q3 Q2 Q4 H) as (R1 & R2 & R3). rewrite <- Q1. auto.
Qed.
(* a closed mailbox that keeps a thread with nothing to do keeps it for ever *)
Definition stops (x : action) : bool := match x with SysDone _ _ true _ => true | _ => false end.
(* a thread about to close, or a closed mailbox, comes from a stop *)
Lemma schedule_open : forall s, is_open (schedule A s) = is_open s /\
  ((exists a, In (a, Closing A) (threads (schedule A s))) -> exists a, In (a, Closing A) (threads s)).
Proof.
  intros s. unfold schedule. destruct (scheduled s); [auto|]. destruct (has_work A s); [|auto]. destruct (slots s); cbn; [auto|].
  split; [reflexivity|]. intros [a H]. apply in_app_iff in H as [H|[H|[]]]; [eauto|discriminate].
Qed.
Lemma closing_set : forall l a p, p <> Closing A -> (exists b, In (b, Closing A) (set_pc A l a p)) -> exists b, In (b, Closing A) l.
Proof.
  induction l as [|[b q] l IH]; intros a p N [c H]; [destruct H|]. cbn [set_pc] in H. destruct (b =? a).
  - destruct H as [H|H]; [injection H as _ E; contradiction|exists c; right; exact H].
  - destruct H as [H|H]; [exists c; left; exact H|]. destruct (IH a p N (ex_intro _ c H)) as [d I]. exists d. right. exact I.
Qed.
Lemma closing_drop : forall l a, (exists b, In (b, Closing A) (drop_pc A l a)) -> exists b, In (b, Closing A) l.
Proof.
  induction l as [|[b q] l IH]; intros a [c H]; [destruct H|]. cbn [drop_pc] in H. destruct (b =? a).
  - exists c. right. exact H.
  - destruct H as [H|H]; [exists c; left; exact H|]. destruct (IH a (ex_intro _ c H)) as [d I]. exists d. right. exact I.
Qed.
Lemma closing_get : forall l a, get_pc A l a = Some (Closing A) -> exists b, In (b, Closing A) l.
Proof.
  induction l as [|[b q] l IH]; intros a H; [discriminate|]. cbn [get_pc] in H. destruct (b =? a).
  - injection H as ->. exists b. left. reflexivity.
  - destruct (IH a H) as [c I]. exists c. right. exact I.
Qed.
Lemma closes_step : forall x s s', step A s x = Some s' -> stops x = false ->
  (is_open s' = false \/ exists a, In (a, Closing A) (threads s')) -> is_open s = false \/ exists a, In (a, Closing A) (threads s).
Proof.
  intros x s s' H N C. destruct x as [k m w| | |a|a|a stop st|a|a]; cbn [step] in H.
  - unfold enqueue in H. destruct (is_open s) eqn:O; [|left; reflexivity]. destruct (notify A w (threads s)) as [ts|] eqn:T; [|discriminate].
    assert (E : is_open s' = true /\ threads s' = ts) by (destruct k; injection H as <-; auto). destruct E as [E1 E2]. rewrite E1, E2 in C.
    destruct C as [C|C]; [discriminate|]. right. unfold notify in T. destruct (existsb _ _); [|injection T as <-; exact C].
    destruct (get_pc A (threads s) w) as [[]|]; try discriminate. injection T as <-. apply closing_set in C; [exact C|discriminate].
  - destruct (pending s); [discriminate|]. injection H as <-.
    match type of C with context[schedule A ?q] => destruct (schedule_open q) as [E1 E2] end. rewrite E1 in C. destruct C as [C|C]; [left; exact C|right; exact (E2 C)].
  - destruct (slots s); [discriminate|]. injection H as <-. exact C.
  - destruct (get_pc A (threads s) a) as [[]|]; try discriminate. injection H as <-. unfold pop, with_threads in C.
    destruct (sys s); [destruct (started s); [destruct (usr s)|]|]; cbn [is_open threads] in C;
      (destruct C as [C|C]; [left; exact C|right; apply closing_set in C; [exact C|discriminate]]).
  - destruct (get_pc A (threads s) a) as [[]|]; try discriminate. injection H as <-. cbn in C.
    destruct C as [C|C]; [left; exact C|right; apply closing_set in C; [exact C|discriminate]].
  - destruct (get_pc A (threads s) a) as [[]|]; try discriminate. injection H as <-. cbn [stops] in N. destruct stop; [discriminate|]. cbn in C.
    destruct C as [C|C]; [left; exact C|right; apply closing_set in C; [exact C|discriminate]].
  - destruct (get_pc A (threads s) a) as [[]|]; try discriminate. injection H as <-. cbn in C.
    destruct C as [C|C]; [left; exact C|right; apply closing_set in C; [exact C|discriminate]].
  - destruct (get_pc A (threads s) a) as [[]|] eqn:G; try discriminate. right. exact (closing_get _ _ G).
Qed.
Lemma closes_run : forall xs s s', run A s xs = Some s' -> existsb stops xs = false ->
  (is_open s' = false \/ exists a, In (a, Closing A) (threads s')) -> is_open s = false \/ exists a, In (a, Closing A) (threads s).
Proof.
  induction xs as [|x xs IH]; intros s s' H N C; cbn [run] in H.
  - injection H as <-. exact C.
  - cbn [existsb] in N. apply orb_false_iff in N as [N1 N2]. destruct (step A s x) as [s1|] eqn:E; [|discriminate].
    exact (closes_step _ _ _ E N1 (IH _ _ H N2 C)).
Qed.

Definition idle (a : nat) (s : state) : Prop :=
  is_open s = false /\ scheduled s = true /\ sys s = [] /\ (started s = true -> usr s = []) /\
  (threads s = [(a, Waiting A)] \/ threads s = [(a, Popping A)]).
Lemma zombie : forall a xs (s s' : state), idle a s -> run A s xs = Some s' -> idle a s'.
Proof.
  intros a xs. induction xs as [|x xs IH]; intros s s' I H; cbn in H; [injection H as <-; exact I|].
  destruct (step A s x) as [s1|] eqn:E; [|discriminate]. apply (IH s1 s'); [|exact H].
  destruct I as (O & Sc & Sy & U & T).
  destruct x as [k m' w| | |b|b|b stop st|b|b]; unfold step in E.
  - unfold enqueue in E. rewrite O in E. injection E as <-. repeat split; auto.
  - destruct (pending s); [discriminate|]. injection E as <-. unfold schedule. cbn. rewrite Sc. repeat split; auto.
  - destruct (slots s); [discriminate|]. injection E as <-. repeat split; auto.
  - destruct T as [T|T]; rewrite T in E; destruct (get_pc _ _ b) as [p|] eqn:G; try discriminate; apply get_one in G as [<- <-]; [discriminate|].
    injection E as <-. unfold pop. rewrite Sy. unfold with_threads. rewrite T, set_one.
    destruct (started s) eqn:St; [rewrite (U eq_refl)|]; (repeat split; cbn; auto).
  - destruct T as [T|T]; rewrite T in E; destruct (get_pc _ _ b) as [p|] eqn:G; try discriminate; apply get_one in G as [<- <-]; [|discriminate].
    injection E as <-. unfold with_threads. cbn [set_pc]. rewrite ?Nat.eqb_refl. repeat split; cbn; auto.
  - destruct T as [T|T]; rewrite T in E; destruct (get_pc _ _ b) as [p|] eqn:G; try discriminate; apply get_one in G as [<- <-]; discriminate.
  - destruct T as [T|T]; rewrite T in E; destruct (get_pc _ _ b) as [p|] eqn:G; try discriminate; apply get_one in G as [<- <-]; discriminate.
  - destruct T as [T|T]; rewrite T in E; destruct (get_pc _ _ b) as [p|] eqn:G; try discriminate; apply get_one in G as [<- <-]; discriminate.
Qed.

(* ---- inbox ---- *)
Notation istate := (istate A).
Lemma isent_app : forall (a b : list (ievent A)), isent (a ++ b) = isent a ++ isent b.
Proof. intros a b. induction a as [|[] a IH]; cbn; rewrite ?IH; reflexivity. Qed.
Lemma igot_app : forall (a b : list (ievent A)), igot (a ++ b) = igot a ++ igot b.
Proof. intros a b. induction a as [|[] a IH]; cbn; rewrite ?IH; reflexivity. Qed.
Lemma returned_app : forall (a b : list (ievent A)), returned (a ++ b) = returned a ++ returned b.
Proof. intros a b. induction a as [|[] a IH]; cbn; rewrite ?IH; reflexivity. Qed.

Definition checking (l : list (nat * rpc)) : nat := length (filter (fun e => negb (is_blocked (snd e))) l).
Definition some_blocked (l : list (nat * rpc)) : bool := existsb (fun e => is_blocked (snd e)) l.
Local Arguments some_blocked : simpl never.
Local Arguments checking : simpl never.
Record iinv (s : istate) : Prop := IInv {
  j_order : isent (ilog s) = igot (ilog s) ++ iusr s;
  j_none : forall l1 r l2, ilog s = l1 ++ INone A r :: l2 -> isent l1 = igot l1;
  j_wake : some_blocked (receivers s) = true -> length (iusr s) <= checking (receivers s);
  j_calls : Permutation (seq 0 (inext s)) (returned (ilog s) ++ map fst (receivers s))
}.
Lemma iset_ids : forall l a p, map fst (iset l a p) = map fst l.
Proof. intros l a p. induction l as [|[b q] l IH]; cbn; [reflexivity|]. destruct (b =? a); cbn; rewrite ?IH; reflexivity. Qed.
Lemma iset_checking : forall l a, iget l a = Some Blocked -> checking (iset l a Checking) = S (checking l).
Proof.
  intros l a. unfold checking. induction l as [|[b q] l IH]; cbn; [discriminate|]. destruct (b =? a); intros H.
  - injection H as ->. reflexivity.
  - cbn. destruct (negb (is_blocked q)); cbn; rewrite (IH H); reflexivity.
Qed.
Lemma idrop_checking : forall l a, iget l a = Some Checking -> checking l = S (checking (idrop l a)).
Proof.
  intros l a. unfold checking. induction l as [|[b q] l IH]; cbn; [discriminate|]. destruct (b =? a); intros H.
  - injection H as ->. reflexivity.
  - cbn. destruct (negb (is_blocked q)); cbn; rewrite (IH H); reflexivity.
Qed.
Lemma idrop_perm : forall l a p, iget l a = Some p -> Permutation (map fst l) (a :: map fst (idrop l a)).
Proof.
  intros l a p. induction l as [|[b q] l IH]; cbn; [discriminate|]. destruct (b =? a) eqn:E; intros H.
  - apply Nat.eqb_eq in E. subst. reflexivity.
  - cbn. rewrite (IH H). apply perm_swap.
Qed.
Lemma idrop_blocked : forall l a, iget l a = Some Checking -> some_blocked (idrop l a) = some_blocked l.
Proof.
  intros l a. unfold some_blocked. induction l as [|[b q] l IH]; cbn; [discriminate|]. destruct (b =? a); intros H.
  - injection H as ->. reflexivity.
  - cbn. rewrite (IH H). reflexivity.
Qed.
Lemma iset_blocked : forall l a, iget l a = Some Blocked -> some_blocked l = true.
Proof.
  intros l a. unfold some_blocked. induction l as [|[b q] l IH]; cbn; [discriminate|]. destruct (b =? a); intros H.
  - injection H as ->. reflexivity.
  - rewrite (IH H). apply orb_true_r.
Qed.
Lemma none_snoc : forall (l : list (ievent A)) x,
  (forall l1 r l2, l = l1 ++ INone A r :: l2 -> isent l1 = igot l1) ->
  (forall r, x = INone A r -> isent l = igot l) ->
  forall l1 r l2, l ++ [x] = l1 ++ INone A r :: l2 -> isent l1 = igot l1.
Proof.
  intros l x H N l1 r l2 E. apply snoc_inv in E as [(_ & E & E2) | (l3 & _ & E)]; [subst; exact (N _ eq_refl)|exact (H _ _ _ E)].
Qed.
Lemma inotify_spec : forall w l l', inotify w l = Some l' ->
  map fst l' = map fst l /\ ((some_blocked l = false /\ l' = l) \/ (some_blocked l = true /\ checking l' = S (checking l))).
Proof.
  intros w l l' H. unfold inotify in H. change (existsb (fun e => is_blocked (snd e)) l) with (some_blocked l) in H.
  destruct (some_blocked l) eqn:B.
  - destruct (iget l w) as [[]|] eqn:G; try discriminate. injection H as <-.
    split; [apply iset_ids|]. right. split; [reflexivity|]. apply iset_checking; exact G.
  - injection H as <-. auto.
Qed.
Lemma istep_inv : forall x s s', iinv s -> istep A s x = Some s' -> iinv s'.
Proof.
  intros x s s' I H. destruct I as [Jo Jn Jw Jc]. destruct x as [k m w| |r due|r]; unfold istep in H.
  - destruct (inotify w (receivers s)) as [rs|] eqn:N; [|discriminate]. injection H as <-.
    apply inotify_spec in N as [M [[B ->] | [B C]]].
    + destruct k; constructor; cbn; rewrite ?isent_app, ?igot_app, ?returned_app; cbn; rewrite ?app_nil_r; auto.
      * rewrite Jo, app_assoc. reflexivity.
      * apply none_snoc; [exact Jn|discriminate].
      * intros E. rewrite B in E. discriminate.
    + specialize (Jw B). destruct k; constructor; cbn; rewrite ?isent_app, ?igot_app, ?returned_app; cbn; rewrite ?app_nil_r, ?M; auto.
      * rewrite Jo, app_assoc. reflexivity.
      * apply none_snoc; [exact Jn|discriminate].
      * intros _. rewrite app_length, C. cbn. lia.
      * intros _. rewrite C. lia.
  - injection H as <-. constructor; cbn; auto.
    + unfold some_blocked, checking in *. rewrite existsb_app, filter_app, app_length. cbn. rewrite orb_false_r. intros B. specialize (Jw B). lia.
    + change (0 :: seq 1 (inext s)) with (seq 0 (S (inext s))). rewrite seq_S, map_app, app_assoc. cbn. apply Permutation_app; [exact Jc|reflexivity].
  - destruct (iget (receivers s) r) as [[]|] eqn:G; try discriminate.
    assert (P : forall e, returned [e] = [r] -> Permutation (seq 0 (inext s)) (returned (ilog s ++ [e]) ++ map fst (idrop (receivers s) r))).
    { intros e E. rewrite returned_app, E. rewrite <- app_assoc. cbn. etransitivity; [exact Jc|]. apply Permutation_app_head. exact (idrop_perm _ _ _ G). }
    destruct (iusr s) as [|m t] eqn:U.
    + destruct due; injection H as <-.
      * constructor; cbn; rewrite ?isent_app, ?igot_app; cbn; rewrite ?app_nil_r; auto.
        -- rewrite app_nil_r in Jo. exact Jo.
        -- apply none_snoc; [exact Jn|]. intros r' _. rewrite app_nil_r in Jo. exact Jo.
        -- intros _. lia.
      * constructor; cbn; auto; [intros _; lia|]. rewrite iset_ids. exact Jc.
    + injection H as <-. constructor; cbn; rewrite ?isent_app, ?igot_app; cbn; rewrite ?app_nil_r; auto.
      * rewrite Jo, <- app_assoc. reflexivity.
      * apply none_snoc; [exact Jn|discriminate].
      * rewrite (idrop_blocked _ _ G). intros B. specialize (Jw B). rewrite (idrop_checking _ _ G) in Jw. cbn in Jw. lia.
  - destruct (iget (receivers s) r) as [[]|] eqn:G; try discriminate. injection H as <-. constructor; cbn; auto.
    + intros _. rewrite (iset_checking _ _ G). specialize (Jw (iset_blocked _ _ G)). lia.
    + rewrite iset_ids. exact Jc.
Qed.
Lemma irun_inv : forall xs s s', iinv s -> irun A s xs = Some s' -> iinv s'.
Proof.
  intros xs. induction xs as [|x xs IH]; intros s s' I H; cbn in H.
  - injection H as <-. exact I.
  - destruct (istep A s x) as [s1|] eqn:E; [|discriminate]. exact (IH _ _ (istep_inv _ _ _ I E) H).
Qed.
Lemma iinit_inv : iinv (iinit A).
Proof. constructor; cbn; auto; try discriminate. intros l1 r l2 E. destruct l1; discriminate. Qed.
Lemma isys_kept : forall xs (s s' : istate), irun A s xs = Some s' -> isys s' = isys s ++ system_sends xs.
Proof.
  intros xs. induction xs as [|x xs IH]; intros s s' H; cbn in H.
  - injection H as <-. cbn. rewrite app_nil_r. reflexivity.
  - destruct (istep A s x) as [s1|] eqn:E; [|discriminate]. rewrite (IH _ _ H).
    destruct x as [k m w| |r due|r]; unfold istep in E.
    + destruct (inotify w (receivers s)); [|discriminate]. injection E as <-. destruct k; cbn; [reflexivity|]. rewrite <- app_assoc. reflexivity.
    + injection E as <-. reflexivity.
    + destruct (iget (receivers s) r) as [[]|]; try discriminate. destruct (iusr s); [destruct due|]; injection E as <-; reflexivity.
    + destruct (iget (receivers s) r) as [[]|]; try discriminate. injection E as <-. reflexivity.
Qed.
End P.
