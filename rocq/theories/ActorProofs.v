(* Proofs about ActorModel. *)
From Coq Require Import List Bool Arith Lia.
From Verif Require MailboxProofs.
From Verif Require Import MailboxModel ActorModel.
Import ListNotations.
Module MP := MailboxProofs.
Notation hsys := (handled_of amsg Sys).

Lemma count_app {B} (f : B -> bool) l1 l2 : count f (l1 ++ l2) = count f l1 + count f l2.
Proof. unfold count. rewrite filter_app, app_length. reflexivity. Qed.
Lemma count_nil {B} (f : B -> bool) : count f [] = 0.
Proof. reflexivity. Qed.
Lemma count_zero {B} (f : B -> bool) l : (forall x, In x l -> f x = false) -> count f l = 0.
Proof.
  unfold count. intros H. induction l as [|x l IH]; [reflexivity|]. simpl.
  rewrite (H x (or_introl eq_refl)). apply IH. intros y Hy. apply H. now right.
Qed.

(* the system message being handled, if any *)
Definition inflight (s : state) : list (msg amsg) :=
  flat_map (fun e => match snd e with HandlingSys m _ => [m] | _ => [] end) (acts (mb s)).
Definition closing (s : state) : Prop := exists a, In (a, Closing) (acts (mb s)).

Definition b2n (b : bool) := if b then 1 else 0.
Definition ord (l : list cb) := forall pre n post, l = pre ++ Receive n :: post ->
  count is_prestart_ok pre = 1 /\ count is_poststop pre = 0.

Definition kids_ok (c : cell) (l : list cb) (open : bool) (clos : Prop) (done : list (msg amsg)) : Prop :=
  (forall k, count (starts_child k) l <= count_occ Nat.eq_dec (kids c) k + count (child_ended k) done) /\
  (open = true -> ~ clos -> existsb is_stop_request done = true -> stopping c = true) /\
  (open = true -> clos -> ~ In (PreStart false) l -> kids c = []).

Record AI (tp : nat) (s : state) : Prop := {
  ai_mb : MP.inv amsg tp (mb s);
  ai_pc : forall a p, In (a, p) (acts (mb s)) ->
     match p with
     | HandlingUser m _ => started (mb s) = true /\ is_user_payload (m_payload m) = true
     | Closing => started (mb s) = false
     | _ => True
     end;
  ai_starts : count is_prestart (cbs s) + count is_start (inflight s) = count is_start (hsys (log (mb s)));
  ai_life : starts_sent s <= 1 ->
     count is_poststop (cbs s) + b2n (started (mb s)) = count is_prestart_ok (cbs s);
  ai_ord : starts_sent s <= 1 -> ord (cbs s);
  ai_watch : exists done, hsys (log (mb s)) = done ++ inflight s /\ NoDup (watchers (cel s)) /\
     (forall w, In w (watchers (cel s)) <-> watching w done = true) /\
     kids_ok (cel s) (cbs s) (is_open (mb s)) (closing s) done;
  ai_term : is_open (mb s) = true ->
     (~ closing s /\ (forall w, count (is_terminated_for w) (cbs s) = 0) /\ ~ In (PreStart false) (cbs s)) \/
     (closing s /\ (~ In (PreStart false) (cbs s) ->
        forall w, count (is_terminated_for w) (cbs s) = if existsb (Nat.eqb w) (watchers (cel s)) then 1 else 0));
  ai_users : Forall (fun m => is_user_payload (m_payload m) = true) (usr (mb s))
}.

Lemma ord_snoc l x : ord l -> (forall n, x = Receive n -> count is_prestart_ok l = 1 /\ count is_poststop l = 0) -> ord (l ++ [x]).
Proof.
  intros H Hx pre n post E.
  destruct post as [|z post] using rev_ind.
  - apply app_inj_tail in E. destruct E as [<- E]. eapply Hx; exact E.
  - clear IHpost. change (pre ++ Receive n :: post ++ [z]) with (pre ++ (Receive n :: post) ++ [z]) in E.
    rewrite app_assoc in E. apply app_inj_tail in E. destruct E as [E _]. eapply H; exact E.
Qed.
Definition is_receive (x : cb) : bool := match x with Receive _ => true | _ => false end.
Lemma ord_app l l' : ord l -> Forall (fun x => is_receive x = false) l' -> ord (l ++ l').
Proof.
  intros H F. revert l H. induction F as [|x l' Hx F IH]; intros l H; [now rewrite app_nil_r|].
  change (x :: l') with ([x] ++ l'). rewrite app_assoc. apply IH. apply ord_snoc; [exact H|].
  intros n ->. discriminate.
Qed.

Lemma init_AI tp : AI tp init.
Proof.
  constructor.
  - apply MP.init_inv.
  - intros a p [].
  - reflexivity.
  - reflexivity.
  - intros _ pre n post E. destruct pre; discriminate.
  - exists []. repeat split; try constructor; try discriminate. intros [].
  - intros _. left. repeat split; try (intros []; fail). intros [a []]. 
  - constructor.
Qed.

Lemma watching_app w l m : watching w (l ++ [m]) =
  match m_payload m with MWatch v => if v =? w then true else watching w l
                       | MUnwatch v => if v =? w then false else watching w l | _ => watching w l end.
Proof. unfold watching. rewrite fold_left_app. reflexivity. Qed.

Lemma existsb_In w l : existsb (Nat.eqb w) l = true <-> In w l.
Proof.
  rewrite existsb_exists. split.
  - intros (x & H & E). apply Nat.eqb_eq in E. now subst.
  - intros H. exists w. split; [exact H|apply Nat.eqb_refl].
Qed.
Lemma existsb_bool w l b : (In w l <-> b = true) -> existsb (Nat.eqb w) l = b.
Proof. intros H. rewrite <- existsb_In in H. destruct (existsb _ l), b; intuition congruence. Qed.

Lemma remove_first_In w v l : NoDup l -> (In w (remove_first v l) <-> In w l /\ w <> v).
Proof.
  induction l as [|x l IH]; intros N; simpl; [tauto|]. inversion N; subst.
  destruct (Nat.eqb_spec x v).
  - subst. split; [intros H; split; [now right|intros ->; contradiction]|]. intros [[->|H] K]; [contradiction|exact H].
  - simpl. rewrite (IH H2). split; [intros [->|[H K]]; auto|]. intros [[->|H] K]; auto.
Qed.
Lemma remove_first_NoDup v l : NoDup l -> NoDup (remove_first v l).
Proof.
  induction l as [|x l IH]; intros N; simpl; [constructor|]. inversion N; subst.
  destruct (x =? v); [exact H2|]. constructor; [|now apply IH]. intros K. apply H1. now apply (remove_first_In x v l).
Qed.
Lemma NoDup_snoc (l : list nat) w : NoDup l -> ~ In w l -> NoDup (l ++ [w]).
Proof.
  intros N K. induction N; simpl; [constructor; [intros []|constructor]|].
  constructor; [|apply IHN; intros H'; apply K; now right].
  intros H'. apply in_app_or in H'. destruct H' as [H'|[->|[]]]; [contradiction|apply K; now left].
Qed.

(* what a handler may do *)
Lemma handle_watch c st m ok c' out stop st' : handle c st m ok = (c', out, stop, st') ->
  NoDup (watchers c) ->
  NoDup (watchers c') /\ (forall w, In w (watchers c') <->
    match m with MWatch v => if v =? w then True else In w (watchers c)
               | MUnwatch v => if v =? w then False else In w (watchers c)
               | _ => In w (watchers c) end).
Proof.
  intros H N. destruct m; simpl in H.
  - inversion H; subst; split; [exact N|tauto].
  - destruct (kids c); inversion H; subst; split; simpl; auto; tauto.
  - destruct (kids c); inversion H; subst; split; simpl; auto; tauto.
  - inversion H; subst; simpl. destruct (existsb (Nat.eqb w) (watchers c)) eqn:E.
    + split; [exact N|]. intros v. destruct (Nat.eqb_spec w v); [subst; apply existsb_In in E; tauto|tauto].
    + assert (K : ~ In w (watchers c)) by (rewrite <- existsb_In; congruence).
      split; [now apply NoDup_snoc|]. intros v. rewrite in_app_iff. simpl. destruct (Nat.eqb_spec w v); [subst; tauto|].
      intuition congruence.
  - inversion H; subst; simpl. split; [now apply remove_first_NoDup|]. intros v. rewrite remove_first_In by exact N.
    destruct (Nat.eqb_spec w v); intuition congruence.
  - destruct (stopping c); inversion H; subst; simpl; split; auto; tauto.
  - destruct (stopping c && _); inversion H; subst; simpl; split; auto; tauto.
  - inversion H; subst; split; [exact N|tauto].
  - inversion H; subst; split; [exact N|tauto].
Qed.

Definition plain (x : cb) : bool := match x with TellStart _ | TellPoison _ => true | _ => false end.
Lemma handle_shape c st m ok c' out stop st' : handle c st m ok = (c', out, stop, st') ->
  (m = MStart /\ out = [PreStart ok] /\ stop = negb ok /\ st' = ok /\ c' = c) \/
  (m <> MStart /\ stop = true /\ st' = false /\ watchers c' = watchers c /\ out = stop_impl c' st) \/
  (m <> MStart /\ stop = false /\ st' = st /\ Forall (fun x => plain x = true) out).
Proof.
  intros H. destruct m; simpl in H.
  - left. inversion H; subst. repeat split; reflexivity.
  - right. destruct (kids c) eqn:K; inversion H; subst.
    + left. repeat split; auto; discriminate.
    + right. repeat split; auto; try discriminate. clear. constructor; [reflexivity|]. induction l; constructor; auto.
  - right. destruct (kids c) eqn:K; inversion H; subst.
    + left. repeat split; auto; discriminate.
    + right. repeat split; auto; try discriminate.
  - right; right. inversion H; subst. repeat split; auto; discriminate.
  - right; right. inversion H; subst. repeat split; auto; discriminate.
  - right; right. destruct (stopping c); inversion H; subst; repeat split; auto; discriminate.
  - destruct (stopping c && _); inversion H; subst; right; [left|right]; repeat split; auto; discriminate.
  - right; right. inversion H; subst. repeat split; auto; discriminate.
  - right; right. inversion H; subst. repeat split; auto; discriminate.
Qed.

Lemma count_occ_remove k v l : count_occ Nat.eq_dec l k <= count_occ Nat.eq_dec (remove_first v l) k + (if v =? k then 1 else 0).
Proof.
  induction l as [|x l IH]; simpl; [lia|]. destruct (Nat.eqb_spec x v).
  - subst. destruct (Nat.eq_dec v k); [subst; rewrite Nat.eqb_refl; lia|]. destruct (Nat.eqb_spec v k); [contradiction|lia].
  - simpl. destruct (Nat.eq_dec x k); lia.
Qed.
Lemma count_starts_stop k c st : count (starts_child k) (stop_impl c st) = 0.
Proof.
  apply count_zero. intros x H. unfold stop_impl in H. apply in_app_or in H. destruct H as [H|H].
  - destruct st; [destruct H as [<-|[]]; reflexivity|destruct H].
  - apply in_app_or in H. destruct H as [H|[<-|[]]]; [|reflexivity]. apply in_map_iff in H. destruct H as (w & <- & _). reflexivity.
Qed.
Lemma handle_kids c st m ok c' out stop st' : handle c st m ok = (c', out, stop, st') ->
  (forall k, count (starts_child k) out + count_occ Nat.eq_dec (kids c) k <=
     count_occ Nat.eq_dec (kids c') k + count (child_ended k) [Msg 0 m]) /\
  (stop = false -> stopping c = true \/ is_stop_request (Msg 0 m) = true -> stopping c' = true) /\
  (stop = true -> out <> [PreStart false] -> kids c' = []).
Proof.
  intros H. destruct m; simpl in H.
  - inversion H; subst. split; [intros k; cbn; lia|]. split; [intros _ [S|S]; [exact S|discriminate]|].
    destruct st'; [discriminate|]. intros _ N. destruct (N eq_refl).
  - destruct (kids c) eqn:K; inversion H; subst.
    + rewrite K. split; [intros k; rewrite count_starts_stop; cbn; lia|]. split; [discriminate|auto].
    + split; [intros k|split; [reflexivity|discriminate]]. rewrite count_zero; [cbn; destruct (Nat.eq_dec n k); lia|].
      intros x Hx. change (TellPoison n :: map TellPoison l) with (map TellPoison (n :: l)) in Hx.
      apply in_map_iff in Hx. destruct Hx as (w & <- & _). reflexivity.
  - destruct (kids c) eqn:K; inversion H; subst.
    + rewrite K. split; [intros k; rewrite count_starts_stop; cbn; lia|]. split; [discriminate|auto].
    + split; [intros k; cbn; destruct (Nat.eq_dec n k); lia|split; [reflexivity|discriminate]].
  - inversion H; subst. split; [intros k; cbn; lia|]. split; [intros _ [S|S]; [exact S|discriminate]|discriminate].
  - inversion H; subst. split; [intros k; cbn; lia|]. split; [intros _ [S|S]; [exact S|discriminate]|discriminate].
  - destruct (stopping c) eqn:S; inversion H; subst.
    + split; [intros k; cbn; lia|]. split; [auto|discriminate].
    + split; [intros k|split; [intros _ [F|F]; discriminate|discriminate]].
      cbn [kids]. rewrite count_occ_app. unfold count; cbn [filter starts_child count_occ child_ended m_payload].
      destruct (Nat.eq_dec c0 k); [subst; rewrite Nat.eqb_refl|destruct (Nat.eqb_spec c0 k); [contradiction|]]; cbn [length]; lia.
  - pose proof (fun k => count_occ_remove k c0 (kids c)) as R.
    destruct (stopping c && _) eqn:E; inversion H; subst.
    + apply andb_prop in E. destruct E as [_ E]. cbn [kids]. destruct (remove_first c0 (kids c)) eqn:F; [|discriminate].
      split; [intros k; specialize (R k); rewrite count_starts_stop|split; [discriminate|reflexivity]].
      unfold count; cbn [filter child_ended m_payload]. destruct (c0 =? k); cbn [length]; lia.
    + split; [intros k; specialize (R k)|split; [intros _ [S|S]; [exact S|discriminate]|discriminate]].
      unfold count; cbn [filter child_ended m_payload kids]. destruct (c0 =? k); cbn [length]; lia.
  - inversion H; subst. split; [intros k; cbn; lia|]. split; [intros _ [S|S]; [exact S|discriminate]|discriminate].
  - inversion H; subst. split; [intros k; cbn; lia|]. split; [intros _ [S|S]; [exact S|discriminate]|discriminate].
Qed.

Lemma count_plain f out : Forall (fun x => plain x = true) out -> (forall x, plain x = true -> f x = false) -> count f out = 0.
Proof. intros F H. apply count_zero. rewrite Forall_forall in F. intros x Hx. apply H, F, Hx. Qed.
Lemma count_map_term (f : cb -> bool) l : (forall w, f (TellTerminated w) = false) -> count f (map TellTerminated l) = 0.
Proof. intros H. apply count_zero. intros x Hx. apply in_map_iff in Hx. destruct Hx as (w & <- & _). apply H. Qed.
Lemma count_term w l : NoDup l -> count (is_terminated_for w) (map TellTerminated l) = if existsb (Nat.eqb w) l then 1 else 0.
Proof.
  induction 1 as [|x l Hx N IH]; [reflexivity|].
  change (map TellTerminated (x :: l)) with ([TellTerminated x] ++ map TellTerminated l). rewrite count_app, IH.
  unfold count; simpl. rewrite (Nat.eqb_sym w x). destruct (Nat.eqb_spec x w); simpl; [|reflexivity].
  subst. destruct (existsb (Nat.eqb w) l) eqn:E; [apply existsb_In in E; contradiction|reflexivity].
Qed.

Section Steps.
Variable tp : nat.
Notation mstep := (MailboxModel.step amsg tp).

(* mailbox steps that do not concern the handlers *)
Definition neutral (s : state) (m' : MailboxModel.state amsg) : Prop :=
  MP.inv amsg tp m' /\
  (forall a p, In (a, p) (acts m') -> match p with
     | HandlingUser m _ => started m' = true /\ is_user_payload (m_payload m) = true
     | Closing => started m' = false | _ => True end) /\
  started m' = started (mb s) /\
  (exists new, hsys (log m') = hsys (log (mb s)) ++ new /\
     flat_map (fun e : nat * pc amsg => match snd e with HandlingSys m _ => [m] | _ => [] end) (acts m') = inflight s ++ new) /\
  (exists more, sent_of amsg Sys (sent m') = sent_of amsg Sys (sent (mb s)) ++ more) /\
  (is_open m' = true -> is_open (mb s) = true /\ ((exists a, In (a, Closing) (acts m')) <-> closing s)) /\
  Forall (fun m => is_user_payload (m_payload m) = true) (usr m').

Lemma neutral_AI s m' d u : AI tp s -> neutral s m' -> AI tp (AState m' (cel s) (cbs s) d u).
Proof.
  intros [I1 I2 I3 I4 I5 I6 I7 I8] (N1 & N2 & N3 & (new & N4 & N4') & (more & N5) & N6 & N7).
  assert (L : starts_sent (AState m' (cel s) (cbs s) d u) <= 1 -> starts_sent s <= 1).
  { unfold starts_sent; simpl. rewrite N5, count_app. lia. }
  constructor; simpl; try assumption.
  - unfold inflight at 1; simpl. rewrite N4, N4', !count_app. unfold inflight in *. lia.
  - intros H. rewrite N3. apply I4, L, H.
  - intros H. apply I5, L, H.
  - destruct I6 as (done & D1 & D2 & D3 & D4). exists done. split; [|split; [assumption|split; [assumption|]]].
    + rewrite N4, D1, <- app_assoc. unfold inflight at 2; simpl. now rewrite N4'.
    + destruct D4 as (E1 & E2 & E3). split; [exact E1|]. unfold closing in *; simpl. split; intros H; destruct (N6 H) as [O C].
      * rewrite C. apply E2, O.
      * rewrite C. apply E3, O.
  - intros H. destruct (N6 H) as [O C]. unfold closing in *; simpl. rewrite C. apply I7, O.
Qed.

Lemma sent_enqueue k m s : sent (enqueue amsg k m s) = sent s ++ [(k, m)].
Proof. unfold enqueue. destruct (is_open s), k; reflexivity. Qed.
Lemma hsys_enqueue k m s : hsys (log (enqueue amsg k m s)) = hsys (log s).
Proof. unfold enqueue. destruct (is_open s), k; simpl; rewrite ?MP.han_app; simpl; rewrite ?app_nil_r; reflexivity. Qed.
Lemma acts_enqueue k m s : acts (enqueue amsg k m s) = acts s.
Proof. unfold enqueue. destruct (is_open s), k; reflexivity. Qed.
Lemma open_enqueue k m s : is_open (enqueue amsg k m s) = is_open s.
Proof. unfold enqueue. destruct (is_open s) eqn:E, k; simpl; auto. Qed.
Lemma started_enqueue k m s : started (enqueue amsg k m s) = started s.
Proof. unfold enqueue. destruct (is_open s), k; reflexivity. Qed.

Lemma neutral_enqueue s k m : AI tp s ->
  match k with User => is_user_payload (m_payload m) | Sys => negb (is_user_payload (m_payload m)) end = true ->
  neutral s (enqueue amsg k m (mb s)).
Proof.
  intros I Hk. unfold neutral.
  rewrite acts_enqueue, hsys_enqueue, started_enqueue, sent_enqueue, open_enqueue.
  split; [apply MP.enqueue_inv, I|]. split; [apply I|]. split; [reflexivity|].
  split; [exists []; rewrite !app_nil_r; split; reflexivity|].
  split; [rewrite MP.sent_app; eexists; reflexivity|].
  split; [intros H; split; [exact H|reflexivity]|].
  unfold enqueue. destruct (is_open (mb s)), k; simpl; try apply I.
  apply Forall_app. split; [apply I|]. constructor; [exact Hk|constructor].
Qed.

Lemma run_one s a p : MP.inv amsg tp s -> get_pc amsg (acts s) a = Some p -> acts s = [(a,p)] /\ queued s = 0 /\ scheduled s = true.
Proof. intros I. apply MP.one_act. apply I. Qed.

Lemma schedule_nt (r : bool) s :
  acts (schedule amsg r s) = acts s /\ log (schedule amsg r s) = log s /\ sent (schedule amsg r s) = sent s /\
  started (schedule amsg r s) = started s /\ is_open (schedule amsg r s) = is_open s /\ usr (schedule amsg r s) = usr s.
Proof. unfold schedule. destruct (negb (scheduled s) || r), (has_work amsg s); repeat split. Qed.

Lemma step_AI s x s' : AI tp s -> step tp s x = Some s' -> AI tp s'.
Proof.
  intros I H. destruct x as [k m| | |a|a ok|a|a|a|]; cbn [ActorModel.step lift] in H.
  - (* send *)
    destruct (match k with User => _ | Sys => _ end) eqn:Hk; [|discriminate]. simpl in H. inversion H; subst.
    apply neutral_AI; [exact I|now apply neutral_enqueue].
  - destruct (mstep (mb s) SenderSchedules) as [m'|] eqn:E; [|discriminate]. inversion H; subst.
    apply neutral_AI; [exact I|]. unfold neutral. split; [eapply MP.step_inv; [apply I|exact E]|].
    simpl in E. destruct (pending (mb s)); [discriminate|]. inversion E; subst; clear E.
    match goal with |- context [schedule amsg false ?y] => destruct (schedule_nt false y) as (-> & -> & -> & -> & -> & ->) end.
    simpl. split; [apply I|]. split; [reflexivity|].
    split; [exists []; rewrite !app_nil_r; split; reflexivity|]. split; [exists []; now rewrite app_nil_r|].
    split; [intros; split; [assumption|reflexivity]|apply I].
  - destruct (mstep (mb s) WorkerStarts) as [m'|] eqn:E; [|discriminate]. inversion H; subst.
    apply neutral_AI; [exact I|]. unfold neutral. split; [eapply MP.step_inv; [apply I|exact E]|].
    simpl in E. destruct (queued (mb s)) eqn:Q; [discriminate|]. inversion E; subst; clear E. simpl.
    split. { intros a p K. apply in_app_or in K. destruct K as [K|[K|[]]]; [eapply I; exact K|]. inversion K; subst. exact Logic.I. }
    split; [reflexivity|].
    split. { exists []. rewrite !app_nil_r. split; [reflexivity|]. rewrite flat_map_app. simpl. now rewrite app_nil_r. }
    split; [exists []; now rewrite app_nil_r|].
    split; [|apply I]. intros O. split; [exact O|]. unfold closing. split; intros [a K]; exists a.
    + apply in_app_or in K. destruct K as [K|[K|[]]]; [exact K|discriminate].
    + apply in_or_app. now left.
  - (* pop *)
    destruct (mstep (mb s) (Pop a)) as [m'|] eqn:E; [|discriminate]. inversion H; subst.
    apply neutral_AI; [exact I|]. unfold neutral. split; [eapply MP.step_inv; [apply I|exact E]|].
    simpl in E. destruct (get_pc amsg (acts (mb s)) a) as [[c| | | |]|] eqn:G; try discriminate.
    inversion E; subst; clear E H. destruct (run_one _ _ _ (ai_mb _ _ I) G) as (A1 & Q1 & S1).
    unfold pop, inflight, closing. rewrite A1.
    assert (NC : ~ closing s) by (intros [b K]; rewrite A1 in K; destruct K as [K|[]]; discriminate).
    destruct (sys (mb s)) as [|m t] eqn:Y; [destruct (started (mb s)) eqn:ST; [destruct (usr (mb s)) as [|m t] eqn:U|]|];
      simpl; rewrite Nat.eqb_refl; simpl; rewrite ?ST, ?MP.han_app.
    + split; [intros b p [K|[]]; inversion K; subst; exact Logic.I|]. split; [reflexivity|].
      split; [exists []; rewrite app_nil_r; split; reflexivity|]. split; [exists []; now rewrite app_nil_r|].
      split; [|rewrite U; constructor]. intros O. split; [exact O|]. split; intros [b K]; [destruct K as [K|[]]; discriminate|].
      destruct K as [K|[]]; discriminate.
    + split. { intros b p [K|[]]; inversion K; subst. split; [first [exact ST|reflexivity]|]. pose proof (ai_users _ _ I) as F. rewrite U in F. now inversion F. }
      split; [first [exact ST|reflexivity]|].
      split; [exists []; rewrite !app_nil_r; split; reflexivity|]. split; [exists []; now rewrite app_nil_r|].
      split. { intros O. split; [exact O|]. split; intros [b K]; [destruct K as [K|[]]; discriminate|].
        destruct K as [K|[]]; discriminate. }
      pose proof (ai_users _ _ I) as F. rewrite U in F. now inversion F.
    + split; [intros b p [K|[]]; inversion K; subst; exact Logic.I|]. split; [reflexivity|].
      split; [exists []; rewrite app_nil_r; split; reflexivity|]. split; [exists []; now rewrite app_nil_r|].
      split; [|apply I]. intros O. split; [exact O|]. split; intros [b K]; [destruct K as [K|[]]; discriminate|].
      destruct K as [K|[]]; discriminate.
    + split; [intros b p [K|[]]; inversion K; subst; exact Logic.I|]. split; [reflexivity|].
      split; [exists [m]; split; reflexivity|]. split; [exists []; now rewrite app_nil_r|].
      split; [|apply I]. intros O. split; [exact O|]. split; intros [b K]; [destruct K as [K|[]]; discriminate|].
      destruct K as [K|[]]; discriminate.
  - (* a system message has been handled *)
    destruct (get_pc amsg (acts (mb s)) a) as [[|m c| | |]|] eqn:G; try discriminate.
    destruct (handle (cel s) (started (mb s)) (m_payload m) ok) as [[[c' out] stop] st] eqn:Hd.
    cbn [MailboxModel.step] in H. rewrite G in H.
    inversion H; subst; clear H.
    match goal with |- AI _ (AState ?m' _ _ _ _) => set (M := m') end.
    assert (IM : MP.inv amsg tp M).
    { apply (MP.step_inv amsg tp (mb s) (SysDone a stop st)); [apply I|]. simpl. rewrite G. reflexivity. }
    destruct (run_one _ _ _ (ai_mb _ _ I) G) as (A1 & Q1 & S1).
    assert (AM : acts M = [(a, if stop then Closing else Popping c)]) by (unfold M; simpl; rewrite A1; simpl; now rewrite Nat.eqb_refl).
    assert (FI : inflight s = [m]) by (unfold inflight; rewrite A1; reflexivity).
    assert (FI' : inflight (AState M c' (cbs s ++ out) (destroyed s) (ub s || destroyed s)) = []).
    { unfold inflight; simpl mb. rewrite AM. destruct stop; reflexivity. }
    assert (NC : ~ closing s) by (intros [b K]; rewrite A1 in K; destruct K as [K|[]]; discriminate).
    assert (CM : closing (AState M c' (cbs s ++ out) (destroyed s) (ub s || destroyed s)) <-> stop = true).
    { unfold closing; simpl mb. rewrite AM. split.
      - intros [b [K|[]]]. destruct stop; [reflexivity|discriminate].
      - intros ->. exists a. now left. }
    pose proof (handle_shape _ _ _ _ _ _ _ _ Hd) as Sh.
    destruct I as [I1 I2 I3 I4 I5 I6 I7 I8].
    destruct I6 as (done & D1 & D2 & D3 & D4).
    pose proof (handle_kids _ _ _ _ _ _ _ _ Hd) as HK.
    destruct (handle_watch _ _ _ _ _ _ _ _ Hd D2) as (W1 & W2).
    assert (HL : hsys (log M) = hsys (log (mb s))) by reflexivity.
    assert (HS : starts_sent (AState M c' (cbs s ++ out) (destroyed s) (ub s || destroyed s)) = starts_sent s) by reflexivity.
    constructor; rewrite ?FI', ?HS; simpl mb; simpl cbs; simpl cel; rewrite ?HL.
    + exact IM.
    + rewrite AM. intros b p [K|[]]. inversion K; subst.
      destruct stop; [|exact Logic.I]. change (started M) with st.
      destruct Sh as [(_ & _ & S & -> & _)|[(_ & _ & -> & _)|(_ & S & _)]]; [destruct ok; [discriminate|reflexivity]|reflexivity|discriminate].
    + rewrite FI in I3. rewrite count_app, count_nil. rewrite <- I3.
      destruct Sh as [(Em & -> & _)|[(Em & _ & _ & _ & ->)|(Em & _ & _ & F)]].
      * assert (is_start m = true) by (unfold is_start; now rewrite Em). unfold count; simpl. rewrite H; simpl. lia.
      * assert (is_start m = false) by (unfold is_start; destruct (m_payload m); auto; congruence).
        unfold stop_impl. rewrite !count_app, count_map_term by reflexivity.
        destruct (started (mb s)); unfold count; simpl; rewrite H; simpl; lia.
      * assert (is_start m = false) by (unfold is_start; destruct (m_payload m); auto; congruence).
        rewrite (count_plain _ _ F) by (intros []; simpl; congruence). unfold count; simpl. rewrite H; simpl. lia.
    + intros S. specialize (I4 S). rewrite !count_app. change (started M) with st.
      destruct Sh as [(Em & -> & _ & -> & _)|[(Em & _ & -> & _ & ->)|(Em & _ & -> & F)]].
      * (* start: nothing was started before *)
        assert (count is_start (inflight s) = 1) by (rewrite FI; unfold count, is_start; simpl; now rewrite Em).
        assert (count is_start (hsys (log (mb s))) <= starts_sent s).
        { unfold starts_sent. destruct I1 as (_ & _ & Fi & Se & _). specialize (Fi Sys). destruct (Se Sys) as [[z Z] _].
          rewrite Z, Fi. rewrite !count_app. lia. }
        assert (P0 : count is_prestart (cbs s) = 0) by lia.
        assert (count is_prestart_ok (cbs s) = 0).
        { apply Nat.le_0_r. rewrite <- P0. clear. unfold count. induction (cbs s) as [|[[] | | | | | |] l IH]; simpl; lia. }
        unfold count in *; simpl. destruct ok; simpl; lia.
      * unfold stop_impl. rewrite !count_app, !count_map_term by reflexivity.
        destruct (started (mb s)); unfold count in *; simpl in *; lia.
      * rewrite !(count_plain _ _ F) by (intros []; simpl; congruence). lia.
    + intros S. apply ord_app; [apply I5, S|].
      destruct Sh as [(Em & -> & _)|[(Em & _ & _ & _ & ->)|(Em & _ & _ & F)]].
      * repeat constructor.
      * unfold stop_impl. apply Forall_app. split; [destruct (started (mb s)); repeat constructor|].
        apply Forall_app. split; [|repeat constructor]. apply Forall_forall. intros x Hx. apply in_map_iff in Hx. now destruct Hx as (w & <- & _).
      * eapply Forall_impl; [|exact F]. intros []; simpl; congruence.
    + exists (done ++ [m]). rewrite app_nil_r, D1, FI. split; [reflexivity|]. split; [exact W1|]. split.
      { intros w. rewrite W2, watching_app. destruct (m_payload m); try apply D3.
        * destruct (w0 =? w); [tauto|apply D3].
        * destruct (w0 =? w); [intuition congruence|apply D3]. }
      destruct D4 as (E1 & E2 & E3). destruct HK as (K1 & K2 & K3).
      split; [|split].
      * intros k. specialize (E1 k). specialize (K1 k). rewrite !count_app.
        assert (X : count (child_ended k) [m] = count (child_ended k) [Msg 0 (m_payload m)])
          by (unfold count; cbn [filter]; unfold child_ended; cbn [m_payload]; destruct (m_payload m); try reflexivity; destruct (c0 =? k); reflexivity).
        lia.
      * change (is_open M) with (is_open (mb s)). intros O C. rewrite CM in C. destruct stop; [destruct (C eq_refl)|].
        rewrite existsb_app. cbn [existsb]. rewrite orb_false_r. intros H. apply K2; [reflexivity|].
        apply orb_true_iff in H. destruct H as [H|H]; [left; apply (E2 O NC H)|right; exact H].
      * intros O C NF. apply CM in C. apply K3; [exact C|]. intros ->. apply NF. apply in_or_app. right. now left.
    + intros O. change (is_open M) with (is_open (mb s)) in O. specialize (I7 O). destruct I7 as [(_ & T & NF)|[C _]]; [|contradiction].
      destruct Sh as [(Em & -> & -> & -> & Ec)|[(Em & -> & _ & Ew & ->)|(Em & -> & _ & F)]].
      * destruct ok.
        -- left. split; [intros K; apply CM in K; discriminate|]. split; [intros w; rewrite count_app, T; reflexivity|].
           intros K. apply in_app_or in K. destruct K as [K|[K|[]]]; [contradiction|discriminate].
        -- right. split; [now apply CM|]. intros K. exfalso. apply K. apply in_or_app. right. now left.
      * right. split; [now apply CM|]. intros _ w. rewrite count_app, T. unfold stop_impl. rewrite !count_app.
        rewrite count_term by exact W1. destruct (started (mb s)); unfold count; simpl; lia.
      * left. split; [intros K; apply CM in K; discriminate|]. split.
        -- intros w. rewrite count_app, T. rewrite (count_plain _ _ F) by (intros []; simpl; congruence). reflexivity.
        -- intros K. apply in_app_or in K. destruct K as [K|K]; [contradiction|]. rewrite Forall_forall in F. specialize (F _ K). discriminate.
    + exact I8.
  - (* a user message has been handled *)
    destruct (get_pc amsg (acts (mb s)) a) as [[| |m c| |]|] eqn:G; try discriminate.
    destruct (run_one _ _ _ (ai_mb _ _ I) G) as (A1 & Q1 & S1).
    destruct (m_payload m) as [| | | | | | |n|] eqn:Em; try discriminate.
    + cbn [MailboxModel.step] in H. rewrite G in H. inversion H; subst; clear H.
      match goal with |- AI _ (AState (with_acts _ _ ?l) _ _ _ _) =>
        assert (AM : l = [(a, if tp <=? S c then Rescheduling else Popping (S c))]) by (rewrite A1; simpl; now rewrite Nat.eqb_refl) end.
      rewrite AM. clear AM.
      assert (IM : MP.inv amsg tp (with_acts amsg (mb s) [(a, if tp <=? S c then Rescheduling else Popping (S c))])).
      { eapply (MP.step_inv amsg tp (mb s) (UserDone a)); [apply I|]. simpl. rewrite G, A1. simpl. now rewrite Nat.eqb_refl. }
      assert (FI : inflight s = []) by (unfold inflight; rewrite A1; reflexivity).
      assert (NC : ~ closing s) by (intros [b K]; rewrite A1 in K; destruct K as [K|[]]; discriminate).
      assert (ST : started (mb s) = true) by (apply (ai_pc _ _ I a (HandlingUser m c)); rewrite A1; now left).
      destruct I as [I1 I2 I3 I4 I5 I6 I7 I8].
      match goal with |- AI _ ?x => assert (FI' : inflight x = []) by (unfold inflight; simpl; destruct (tp <=? S c); reflexivity);
        assert (NC' : ~ closing x) by (unfold closing; simpl; intros [b [K|[]]]; destruct (tp <=? S c); discriminate) end.
      constructor; rewrite ?FI'.
      * exact IM.
      * simpl. intros b p [K|[]]. destruct (tp <=? S c); inversion K; subst; exact Logic.I.
      * rewrite FI in I3. simpl. rewrite count_app, I3 || (rewrite count_app). unfold count in *; simpl in *. lia.
      * intros S. specialize (I4 S). simpl. rewrite !count_app. unfold count in *; simpl in *. lia.
      * intros S. simpl. apply ord_snoc; [apply I5, S|]. intros n' En. inversion En; subst.
        specialize (I4 S). rewrite ST in I4. simpl in I4.
        assert (count is_start (hsys (log (mb s))) <= starts_sent s).
        { unfold starts_sent. destruct I1 as (_ & _ & Fi & Se & _). specialize (Fi Sys). destruct (Se Sys) as [[z Z] _].
          rewrite Z, Fi. rewrite !count_app. lia. }
        assert (count is_prestart_ok (cbs s) <= count is_prestart (cbs s)).
        { clear. unfold count. induction (cbs s) as [|[[] | | | | | |] l IH]; simpl; lia. }
        unfold starts_sent in S. simpl in S. unfold starts_sent in *. lia.
      * destruct I6 as (done & D1 & D2 & D3 & E1 & E2 & E3). exists done. simpl. rewrite D1, FI. split; [reflexivity|split; [assumption|split; [assumption|]]].
        split; [|split].
        -- intros k. rewrite count_app. specialize (E1 k). unfold count at 2. simpl. lia.
        -- intros O C. apply E2; [exact O|exact NC].
        -- intros O C. destruct (NC' C).
      * intros O. left. split; [exact NC'|]. simpl in *. destruct (I7 O) as [(_ & T & NF)|[C _]]; [|contradiction].
        split; [intros w; rewrite count_app, T; reflexivity|].
        intros K. apply in_app_or in K. destruct K as [K|[K|[]]]; [contradiction|discriminate].
      * exact I8.
    + (* poison pill *)
      cbn [MailboxModel.step] in H. rewrite acts_enqueue, G in H. simpl in H. inversion H; subst; clear H.
      assert (I' : AI tp (AState (enqueue amsg Sys (Msg 0 MStop) (mb s)) (cel s) (cbs s) (destroyed s) (ub s))).
      { apply neutral_AI; [exact I|]. apply neutral_enqueue; [exact I|reflexivity]. }
      match goal with |- AI _ (AState ?mm _ _ _ ?u) =>
        change (AI tp (AState mm (cel (AState (enqueue amsg Sys (Msg 0 MStop) (mb s)) (cel s) (cbs s) (destroyed s) (ub s)))
                  (cbs (AState (enqueue amsg Sys (Msg 0 MStop) (mb s)) (cel s) (cbs s) (destroyed s) (ub s))) (destroyed s) u)) end.
      apply neutral_AI; [exact I'|]. unfold neutral, inflight, closing. simpl mb. rewrite acts_enqueue, A1. simpl. rewrite Nat.eqb_refl.
      split. { eapply (MP.step_inv amsg tp (enqueue amsg Sys (Msg 0 MStop) (mb s)) (UserDone a)); [apply I'|]. simpl.
               rewrite acts_enqueue, G, A1. simpl. now rewrite Nat.eqb_refl. }
      split. { intros b p [K|[]]. destruct (tp <=? S c); inversion K; subst; exact Logic.I. }
      split; [reflexivity|].
      split. { exists []. rewrite app_nil_r. split; [reflexivity|]. destruct (tp <=? S c); reflexivity. }
      split; [exists []; now rewrite app_nil_r|].
      split; [|apply I']. intros O. split; [exact O|]. split; intros [b [K|[]]]; [destruct (tp <=? S c); discriminate|discriminate].
  - (* reschedule *)
    destruct (mstep (mb s) (Reschedule a)) as [m'|] eqn:E; [|discriminate]. inversion H; subst.
    apply neutral_AI; [exact I|]. unfold neutral. split; [eapply MP.step_inv; [apply I|exact E]|].
    simpl in E. destruct (get_pc amsg (acts (mb s)) a) as [[| | | |]|] eqn:G; try discriminate.
    destruct (run_one _ _ _ (ai_mb _ _ I) G) as (A1 & Q1 & S1).
    inversion E; subst; clear E.
    match goal with |- context [schedule amsg true ?y] => destruct (schedule_nt true y) as (-> & -> & -> & -> & -> & ->) end.
    simpl. unfold inflight, closing. rewrite A1. simpl. rewrite Nat.eqb_refl.
    split; [intros b p []|]. split; [reflexivity|].
    split; [exists []; rewrite app_nil_r; split; reflexivity|]. split; [exists []; now rewrite app_nil_r|].
    split; [|apply I]. intros O. split; [exact O|]. split; intros [b K]; [destruct K|destruct K as [K|[]]; discriminate].
  - (* close *)
    destruct (mstep (mb s) (Close a)) as [m'|] eqn:E; [|discriminate]. inversion H; subst.
    apply neutral_AI; [exact I|]. unfold neutral. split; [eapply MP.step_inv; [apply I|exact E]|].
    simpl in E. destruct (get_pc amsg (acts (mb s)) a) as [[| | | |]|] eqn:G; try discriminate.
    destruct (run_one _ _ _ (ai_mb _ _ I) G) as (A1 & Q1 & S1).
    inversion E; subst; clear E. simpl. unfold inflight, closing. rewrite A1. simpl. rewrite Nat.eqb_refl.
    split; [intros b p []|]. split; [reflexivity|].
    split; [exists []; rewrite app_nil_r; split; reflexivity|]. split; [exists []; now rewrite app_nil_r|].
    split; [discriminate|apply I].
  - destruct (existsb is_detach (cbs s) && negb (destroyed s)); [|discriminate]. inversion H; subst.
    destruct I as [I1 I2 I3 I4 I5 I6 I7 I8]. constructor; assumption.
Qed.

Lemma run_AI xs s s' : AI tp s -> run tp s xs = Some s' -> AI tp s'.
Proof.
  revert s. induction xs as [|x xs IH]; simpl; intros s I H; [now inversion H; subst|].
  destruct (step tp s x) as [s1|] eqn:E; [|discriminate]. eapply IH; [eapply step_AI; eassumption|exact H].
Qed.
Lemma reachable_AI s : reachable tp s -> AI tp s.
Proof. intros [xs H]. eapply run_AI; [apply init_AI|exact H]. Qed.

Lemma starts_bound s : AI tp s -> count is_prestart (cbs s) <= starts_sent s.
Proof.
  intros I. pose proof (ai_starts _ _ I). assert (count is_start (hsys (log (mb s))) <= starts_sent s); [|lia].
  unfold starts_sent. destruct (ai_mb _ _ I) as (_ & _ & Fi & Se & _). specialize (Fi Sys). destruct (Se Sys) as [[z Z] _].
  rewrite Z, Fi. rewrite !count_app. lia.
Qed.
Lemma ok_le_all l : count is_prestart_ok l <= count is_prestart l.
Proof. unfold count. induction l as [|[[] | | | | | |] l IH]; simpl; lia. Qed.

Lemma receive_between s pre n post : reachable tp s -> starts_sent s <= 1 -> cbs s = pre ++ Receive n :: post ->
  count is_prestart_ok pre = 1 /\ count is_poststop pre = 0.
Proof. intros R S E. exact (ai_ord _ _ (reachable_AI s R) S pre n post E). Qed.
Lemma poststop_once s : reachable tp s -> starts_sent s <= 1 -> count is_prestart (cbs s) <= 1 /\ count is_poststop (cbs s) <= 1.
Proof.
  intros R S. apply reachable_AI in R. pose proof (starts_bound s R). pose proof (ai_life _ _ R S). pose proof (ok_le_all (cbs s)). lia.
Qed.
Lemma close_life s a s' : reachable tp s -> starts_sent s <= 1 -> step tp s (AClose a) = Some s' ->
  cbs s' = cbs s /\ count is_poststop (cbs s') = count is_prestart_ok (cbs s').
Proof.
  intros R S H. apply reachable_AI in R. simpl in H.
  destruct (get_pc amsg (acts (mb s)) a) as [[| | | |]|] eqn:G; try discriminate.
  destruct (run_one _ _ _ (ai_mb _ _ R) G) as (A1 & _). inversion H; subst; simpl. split; [reflexivity|].
  pose proof (ai_pc _ _ R a Closing) as F. rewrite A1 in F. specialize (F (or_introl eq_refl)). simpl in F.
  pose proof (ai_life _ _ R S) as L. rewrite F in L. simpl in L. lia.
Qed.
Lemma told_nothing_before s w : reachable tp s -> is_open (mb s) = true -> ~ closing s -> count (is_terminated_for w) (cbs s) = 0.
Proof. intros R O C. destruct (ai_term _ _ (reachable_AI s R) O) as [(_ & T & _)|[C' _]]; [apply T|contradiction]. Qed.
Lemma close_watch s a s' w : reachable tp s -> is_open (mb s) = true -> step tp s (AClose a) = Some s' ->
  ~ In (PreStart false) (cbs s') ->
  count (is_terminated_for w) (cbs s') = if watching w (hsys (log (mb s'))) then 1 else 0.
Proof.
  intros R O H NF. apply reachable_AI in R. simpl in H.
  destruct (get_pc amsg (acts (mb s)) a) as [[| | | |]|] eqn:G; try discriminate.
  destruct (run_one _ _ _ (ai_mb _ _ R) G) as (A1 & _). inversion H; subst; simpl in *.
  destruct (ai_watch _ _ R) as (done & D1 & D2 & D3 & _).
  assert (FI : inflight s = []) by (unfold inflight; rewrite A1; reflexivity). rewrite FI, app_nil_r in D1.
  destruct (ai_term _ _ R O) as [[C _]|[_ T]].
  - exfalso. apply C. exists a. rewrite A1. now left.
  - rewrite (T NF w). rewrite D1. specialize (D3 w). apply existsb_bool in D3. rewrite D3. reflexivity.
Qed.

(* ---- children ---- *)
Lemma close_children s a s' k : reachable tp s -> is_open (mb s) = true -> step tp s (AClose a) = Some s' ->
  ~ In (PreStart false) (cbs s') -> count (starts_child k) (cbs s') <= count (child_ended k) (hsys (log (mb s'))).
Proof.
  intros R O H NF. apply reachable_AI in R. simpl in H.
  destruct (get_pc amsg (acts (mb s)) a) as [[| | | |]|] eqn:G; try discriminate.
  destruct (run_one _ _ _ (ai_mb _ _ R) G) as (A1 & _). inversion H; subst; simpl in *.
  destruct (ai_watch _ _ R) as (done & D1 & D2 & D3 & E1 & E2 & E3).
  assert (FI : inflight s = []) by (unfold inflight; rewrite A1; reflexivity). rewrite FI, app_nil_r in D1.
  specialize (E1 k). rewrite D1. rewrite (E3 O) in E1; auto. exists a. rewrite A1. now left.
Qed.
Lemma no_child_while_stopping s x s' l m k : reachable tp s -> is_open (mb s) = true ->
  hsys (log (mb s)) = l ++ [m] -> existsb is_stop_request l = true -> step tp s x = Some s' ->
  count (starts_child k) (cbs s') = count (starts_child k) (cbs s).
Proof.
  intros R O L SR H. apply reachable_AI in R. destruct x as [y n| | |a|a ok|a|a|a|]; cbn [ActorModel.step lift] in H.
  - destruct (match y with User => _ | Sys => _ end); [|discriminate]. inversion H; subst. reflexivity.
  - destruct (mstep (mb s) SenderSchedules); inversion H; subst; reflexivity.
  - destruct (mstep (mb s) WorkerStarts); inversion H; subst; reflexivity.
  - destruct (mstep (mb s) (Pop a)); inversion H; subst; reflexivity.
  - destruct (get_pc amsg (acts (mb s)) a) as [[|n c| | |]|] eqn:G; try discriminate.
    destruct (handle (cel s) (started (mb s)) (m_payload n) ok) as [[[c' out] stop] st] eqn:Hd.
    cbn [MailboxModel.step] in H. rewrite G in H. inversion H; subst; clear H. cbn [cbs]. rewrite count_app.
    destruct (run_one _ _ _ (ai_mb _ _ R) G) as (A1 & _).
    destruct (ai_watch _ _ R) as (done & D1 & D2 & D3 & E1 & E2 & E3).
    assert (FI : inflight s = [n]) by (unfold inflight; rewrite A1; reflexivity). rewrite FI, L in D1. apply app_inj_tail in D1. destruct D1 as [-> ->].
    assert (NC : ~ closing s) by (intros [b K]; rewrite A1 in K; destruct K as [K|[]]; discriminate).
    specialize (E2 O NC SR). destruct (m_payload n); simpl in Hd.
    + inversion Hd; subst; cbn; lia.
    + destruct (kids (cel s)) as [|q qs] eqn:K; inversion Hd; subst; [rewrite count_starts_stop; lia|].
      rewrite (count_zero (starts_child k) (TellPoison q :: map TellPoison qs)); [lia|].
      intros x Hx. change (TellPoison q :: map TellPoison qs) with (map TellPoison (q :: qs)) in Hx.
      apply in_map_iff in Hx. destruct Hx as (w & <- & _). reflexivity.
    + destruct (kids (cel s)) eqn:K; inversion Hd; subst; [rewrite count_starts_stop; lia|]. cbn; lia.
    + inversion Hd; subst; cbn; lia.
    + inversion Hd; subst; cbn; lia.
    + rewrite E2 in Hd. inversion Hd; subst; cbn; lia.
    + destruct (stopping (cel s) && _); inversion Hd; subst; [rewrite count_starts_stop; lia|cbn; lia].
    + inversion Hd; subst; cbn; lia.
    + inversion Hd; subst; cbn; lia.
  - destruct (get_pc amsg (acts (mb s)) a) as [[| |n c| |]|] eqn:G; try discriminate.
    destruct (m_payload n); try discriminate.
    + destruct (mstep (mb s) (UserDone a)); inversion H; subst; cbn [cbs]. rewrite count_app. cbn. lia.
    + destruct (mstep _ (UserDone a)); inversion H; subst; reflexivity.
  - destruct (mstep (mb s) (Reschedule a)); inversion H; subst; reflexivity.
  - destruct (mstep (mb s) (Close a)); inversion H; subst; reflexivity.
  - destruct (existsb is_detach (cbs s) && negb (destroyed s)); inversion H; subst; reflexivity.
Qed.

(* ---- a destroyed cell is not touched ---- *)
Record DI (s : state) : Prop := {
  di_detach : is_open (mb s) = true -> existsb is_detach (cbs s) = true -> closing s;
  di_ub : ub s = false;
  di_dead : destroyed s = true -> quiet s /\ (is_open (mb s) = true -> closing s)
}.

Lemma existsb_false_plain out : Forall (fun x => plain x = true) out -> existsb is_detach out = false.
Proof. induction 1 as [|x l H F IH]; [reflexivity|]. simpl. rewrite IH. destruct x; simpl in *; congruence. Qed.

Lemma quiet_get s a p : quiet s -> MP.inv amsg tp (mb s) -> get_pc amsg (acts (mb s)) a = Some p -> p = Closing.
Proof. intros (_ & _ & Q) I G. destruct (run_one _ _ _ I G) as (A1 & _). apply (Q a). rewrite A1. now left. Qed.

Lemma closing_scheduled s : MP.inv amsg tp (mb s) -> closing s -> scheduled (mb s) = true.
Proof.
  intros (T & _) [a K]. unfold MP.inv_tasks, MP.b2n in T. destruct (acts (mb s)); [destruct K|].
  simpl in T. destruct (scheduled (mb s)); [reflexivity|lia].
Qed.

Lemma step_DI s x s' : AI tp s -> DI s -> (x = ADestroy -> quiet s) -> step tp s x = Some s' -> DI s'.
Proof.
  intros I [D1 D2 D3] Hq H.
  assert (IM := ai_mb _ _ I).
  destruct (destroyed s) eqn:Ds.
  { (* already destroyed: only sends and the final close are possible *)
    destruct (D3 eq_refl) as [Q C]. assert (Q' := Q). destruct Q as (P0 & Q0 & AC).
    destruct x as [k m| | |a|a ok|a|a|a|]; cbn [ActorModel.step lift MailboxModel.step] in H.
    - destruct (match k with User => _ | Sys => _ end); [|discriminate]. inversion H; subst; clear H.
      rewrite D2. simpl.
      assert (PP : pending (enqueue amsg k m (mb s)) = 0).
      { unfold enqueue. destruct (is_open (mb s)) eqn:O; [|exact P0].
        rewrite (closing_scheduled s IM (C eq_refl)). destruct k; exact P0. }
      assert (QQ : queued (enqueue amsg k m (mb s)) = 0).
      { unfold enqueue. destruct (is_open (mb s)), k; exact Q0. }
      constructor; simpl; rewrite ?open_enqueue.
      + unfold closing in *; simpl; rewrite acts_enqueue. exact D1.
      + reflexivity.
      + intros _. split.
        * unfold quiet; simpl. rewrite PP, QQ, acts_enqueue. repeat split; auto.
        * unfold closing in *; simpl; rewrite acts_enqueue. exact C.
    - rewrite P0 in H. discriminate.
    - rewrite Q0 in H. discriminate.
    - destruct (get_pc amsg (acts (mb s)) a) as [p|] eqn:G; [|discriminate].
      apply (quiet_get s a p Q' IM) in G. subst. discriminate.
    - destruct (get_pc amsg (acts (mb s)) a) as [p|] eqn:G; [|discriminate].
      apply (quiet_get s a p Q' IM) in G. subst. discriminate.
    - destruct (get_pc amsg (acts (mb s)) a) as [p|] eqn:G; [|discriminate].
      apply (quiet_get s a p Q' IM) in G. subst. discriminate.
    - destruct (get_pc amsg (acts (mb s)) a) as [p|] eqn:G; [|discriminate].
      apply (quiet_get s a p Q' IM) in G. subst. discriminate.
    - destruct (get_pc amsg (acts (mb s)) a) as [p|] eqn:G; [|discriminate].
      assert (G' := G). apply (quiet_get s a p Q' IM) in G. subst.
      destruct (run_one _ _ _ IM G') as (A1 & _). inversion H; subst; clear H.
      rewrite D2. constructor; simpl; try discriminate; [reflexivity|]. intros _. split; [|discriminate].
      unfold quiet; simpl. rewrite A1. simpl. rewrite Nat.eqb_refl. repeat split; auto. intros b p [].
    - rewrite Ds, andb_false_r in H. discriminate. }
  destruct x as [k m| | |a|a ok|a|a|a|]; cbn [ActorModel.step lift] in H.
  - destruct (match k with User => _ | Sys => _ end); [|discriminate]. simpl in H. inversion H; subst; clear H.
    constructor; simpl; [|now rewrite D2|congruence].
    rewrite open_enqueue. unfold closing in *; simpl. rewrite acts_enqueue. exact D1.
  - simpl in H. destruct (pending (mb s)); [discriminate|]. simpl in H. inversion H; subst; clear H.
    constructor; simpl; [|rewrite D2, Ds, andb_false_r; reflexivity|congruence].
    match goal with |- context [schedule amsg false ?y] => destruct (schedule_nt false y) as (Z1 & Z2 & Z3 & Z4 & Z5 & Z6) end.
    unfold closing in *; simpl. rewrite Z1, Z5. exact D1.
  - simpl in H. destruct (queued (mb s)); [discriminate|]. simpl in H. inversion H; subst; clear H.
    constructor; simpl; [|rewrite D2, Ds; reflexivity|congruence].
    intros O K. destruct (D1 O K) as [a C]. exists a. simpl. apply in_or_app. now left.
  - cbn [MailboxModel.step] in H. destruct (get_pc amsg (acts (mb s)) a) as [[c| | | |]|] eqn:G; try discriminate.
    destruct (run_one _ _ _ IM G) as (A1 & _). inversion H; subst; clear H.
    constructor; [|simpl; rewrite D2, Ds; reflexivity|simpl; congruence]. cbn [mb cbs].
    intros O K. exfalso.
    assert (O' : is_open (mb s) = true).
    { revert O. unfold pop. destruct (sys (mb s)); [destruct (started (mb s)); [destruct (usr (mb s))|]|]; exact (fun z => z). }
    destruct (D1 O' K) as [b C]. rewrite A1 in C. destruct C as [C|[]]. discriminate.
  - destruct (get_pc amsg (acts (mb s)) a) as [[|m c| | |]|] eqn:G; try discriminate.
    destruct (handle (cel s) (started (mb s)) (m_payload m) ok) as [[[c' out] stop] st] eqn:Hd.
    cbn [MailboxModel.step] in H. rewrite G in H.
    destruct (run_one _ _ _ IM G) as (A1 & _). inversion H; subst; clear H.
    constructor; [|simpl; rewrite D2, Ds; reflexivity|simpl; congruence]. cbn [mb cbs is_open].
    intros O K. rewrite existsb_app in K.
    assert (NC : ~ closing s) by (intros [b K']; rewrite A1 in K'; destruct K' as [K'|[]]; discriminate).
    destruct (existsb is_detach (cbs s)) eqn:Ed; [destruct (NC (D1 O eq_refl))|]. simpl in K.
    destruct (handle_shape _ _ _ _ _ _ _ _ Hd) as [(_ & -> & _)|[(_ & -> & _)|(_ & _ & _ & F)]]; [discriminate| |].
    + exists a. cbn [mb acts]. rewrite A1. simpl. rewrite Nat.eqb_refl. now left.
    + rewrite existsb_false_plain in K by exact F. discriminate.
  - destruct (get_pc amsg (acts (mb s)) a) as [[| |m c| |]|] eqn:G; try discriminate.
    destruct (run_one _ _ _ IM G) as (A1 & _).
    assert (NC : ~ closing s) by (intros [b K']; rewrite A1 in K'; destruct K' as [K'|[]]; discriminate).
    destruct (m_payload m) as [| | | | | | |n|] eqn:Em; try discriminate; cbn [MailboxModel.step] in H.
    + rewrite G in H. inversion H; subst; clear H.
      constructor; [|simpl; rewrite D2, Ds; reflexivity|simpl; congruence]. cbn [mb cbs is_open with_acts].
      intros O K. rewrite existsb_app in K. simpl in K. rewrite orb_false_r in K. destruct (NC (D1 O K)).
    + rewrite acts_enqueue, G in H. inversion H; subst; clear H.
      constructor; [|simpl; rewrite D2, Ds; reflexivity|simpl; congruence]. cbn [mb cbs is_open with_acts].
      rewrite open_enqueue. intros O K. destruct (NC (D1 O K)).
  - cbn [MailboxModel.step] in H. destruct (get_pc amsg (acts (mb s)) a) as [[| | | |]|] eqn:G; try discriminate.
    destruct (run_one _ _ _ IM G) as (A1 & _).
    assert (NC : ~ closing s) by (intros [b K']; rewrite A1 in K'; destruct K' as [K'|[]]; discriminate).
    inversion H; subst; clear H.
    constructor; [|simpl; rewrite D2, Ds; reflexivity|simpl; congruence]. cbn [mb cbs].
    match goal with |- context [schedule amsg true ?y] => destruct (schedule_nt true y) as (Z1 & Z2 & Z3 & Z4 & Z5 & Z6) end.
    rewrite Z5. intros O K. destruct (NC (D1 O K)).
  - cbn [MailboxModel.step] in H. destruct (get_pc amsg (acts (mb s)) a) as [[| | | |]|] eqn:G; try discriminate.
    inversion H; subst; clear H. constructor; simpl; try discriminate; [now rewrite D2|congruence].
  - destruct (existsb is_detach (cbs s) && negb (destroyed s)) eqn:E; [|discriminate]. inversion H; subst; clear H.
    apply andb_prop in E. destruct E as [E _].
    constructor; [exact D1|exact D2|]. intros _. split; [apply (Hq eq_refl)|]. intros O. apply (D1 O E).
Qed.

Lemma run_DI xs s s' : AI tp s -> DI s -> destroys_only_when_quiet tp s xs -> run tp s xs = Some s' -> DI s'.
Proof.
  revert s. induction xs as [|x xs IH]; simpl; intros s I D Q H; [now inversion H; subst|].
  destruct Q as [Q1 Q2]. destruct (step tp s x) as [s1|] eqn:E; [|discriminate].
  eapply IH; [eapply step_AI; eassumption| |exact Q2|exact H]. eapply step_DI; eassumption.
Qed.
Lemma quiet_destroy_safe xs s : destroys_only_when_quiet tp init xs -> run tp init xs = Some s -> ub s = false.
Proof.
  intros Q H. eapply di_ub, (run_DI xs init s); [apply init_AI| |exact Q|exact H]. constructor; try discriminate; reflexivity.
Qed.

(* ---- nothing happens after a close with no sender on its way ---- *)
Definition dead (s : state) := is_open (mb s) = false /\ pending (mb s) = 0 /\ queued (mb s) = 0 /\ acts (mb s) = [].
Lemma dead_step s x s' : dead s -> step tp s x = Some s' -> dead s' /\ cbs s' = cbs s.
Proof.
  intros (O & P & Q & A) H. destruct x as [k m| | |a|a ok|a|a|a|]; cbn [ActorModel.step lift MailboxModel.step] in H;
    rewrite ?P, ?Q, ?A in H; try discriminate.
  - destruct (match k with User => _ | Sys => _ end); [|discriminate]. inversion H; subst. unfold dead, enqueue; simpl.
    rewrite O; simpl. repeat split; assumption.
  - destruct (existsb is_detach (cbs s) && negb (destroyed s)); [|discriminate]. inversion H; subst. unfold dead; simpl. repeat split; assumption.
Qed.
Lemma dead_run xs s s' : dead s -> run tp s xs = Some s' -> cbs s' = cbs s.
Proof.
  revert s. induction xs as [|x xs IH]; simpl; intros s D H; [now inversion H|].
  destruct (step tp s x) as [s1|] eqn:E; [|discriminate]. destruct (dead_step s x s1 D E) as [D1 <-]. now apply IH.
Qed.
Lemma close_quiet s a s' xs s'' : reachable tp s -> step tp s (AClose a) = Some s' -> pending (mb s) = 0 ->
  run tp s' xs = Some s'' -> cbs s'' = cbs s'.
Proof.
  intros R H P. apply dead_run. apply reachable_AI in R. cbn [ActorModel.step lift MailboxModel.step] in H.
  destruct (get_pc amsg (acts (mb s)) a) as [[| | | |]|] eqn:G; try discriminate.
  destruct (run_one _ _ _ (ai_mb _ _ R) G) as (A1 & Q1 & _). inversion H; subst. unfold dead; simpl. rewrite A1; simpl.
  rewrite Nat.eqb_refl. repeat split; assumption.
Qed.
End Steps.
