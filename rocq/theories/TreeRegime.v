(* The invariant of TreeModel in the regime of TreeModel.well_behaved. *)
From Coq Require Import List Bool Arith Lia Permutation.
From Verif Require Import TreeModel TreeProofs.
Import ListNotations.

Definition doomed (s : state) (a : nat) : Prop :=
  opn (nd s a) = false \/ In SStop (sysq (nd s a)) \/ In UPoison (usrq (nd s a)) \/ killing (nd s a) = true.

(* parts that more messages cannot spoil *)
Record Live (s : state) : Prop := {
  l_detw : forall a c, In c (kids (nd s a)) -> opn (nd s c) = false -> In (SDetach c) (sysq (nd s a));
  l_start : forall a, att (nd s a) = true -> opn (nd s a) = true -> started (nd s a) = true \/ In SStart (sysq (nd s a));
  l_killk : forall a c, killing (nd s a) = true -> opn (nd s a) = true -> In c (kids (nd s a)) -> doomed s c;
  l_guard : forall g, 1 <= g <= 4 -> opn (nd s g) = false -> opn (nd s 0) = true -> In (UTerm g) (usrq (nd s 0)) \/ flag s g = true;
  l_both : flag s 1 = true -> flag s 2 = true -> opn (nd s 0) = true -> In SStopAfter (sysq (nd s 0)) \/ stopping (nd s 0) = true;
  l_usr : flag s 3 = true -> flag s 4 = true -> doomed s 1 /\ doomed s 2;
  l_req : requested s = true -> opn (nd s 0) = true -> In (URootTerm true) (usrq (nd s 0)) \/ (doomed s 3 /\ doomed s 4)
}.
Record Safe (s : state) : Prop := {
  s_closed : forall a, opn (nd s a) = false -> kids (nd s a) = [];
  s_stop : forall a, stopping (nd s a) = true -> opn (nd s a) = true -> kids (nd s a) <> [];
  s_root : opn (nd s 0) = true -> started (nd s 0) = true;
  s_pend : forall a, 1 <= a < size s -> att (nd s a) = false ->
     (gone (nd s a) = false -> opn (nd s a) = true) /\ (forall m, ~ In m (sysq (nd s a))) /\ started (nd s a) = false
     /\ stopping (nd s a) = false /\ killing (nd s a) = false /\ kids (nd s a) = [];
  s_kill : forall a, killing (nd s a) = true -> stopping (nd s a) = true;
  s_uterm : forall g, In (UTerm g) (usrq (nd s 0)) -> 1 <= g <= 4 /\ opn (nd s g) = false;
  s_flag : forall g, flag s g = true -> 1 <= g <= 4 /\ opn (nd s g) = false;
  s_gatt : forall g, 1 <= g <= 4 -> att (nd s g) = true /\ par (nd s g) = 0;
  s_rootk : forall c, In c (kids (nd s 0)) -> 1 <= c <= 4
}.
Definition Inv (s : state) : Prop := Core s /\ Live s /\ Safe s.

(* s' may only differ from s by longer queues *)
Lemma grows_doomed P Q s s' a : grows P Q s s' -> doomed s a -> doomed s' a.
Proof.
  intros (S & _ & _ & G1 & G2 & _) [H|[H|[H|H]]]; destruct S as [_ S]; destruct (S a) as (_ & _ & _ & _ & _ & K & _ & O & _).
  - left. now rewrite O.
  - right; left. auto.
  - right; right; left. auto.
  - right; right; right. now rewrite K.
Qed.
Lemma grows_live P Q s s' : grows P Q s s' -> Live s -> Live s'.
Proof.
  intros G [L1 L2 L3 L4 L5 L6 L7]. assert (D : forall a, doomed s a -> doomed s' a) by (intro; eapply grows_doomed, G).
  destruct G as ((Sz & S) & F & R & G1 & G2 & _).
  assert (O : forall b, opn (nd s' b) = opn (nd s b)) by (intros; apply S).
  constructor; rewrite ?F, ?R.
  - intros a c H K. destruct (S a) as (_ & _ & _ & E & _). rewrite E in H. rewrite O in K. auto.
  - intros a H K. destruct (S a) as (_ & A & _ & _ & _ & _ & St & _). rewrite A in H. rewrite O in K. rewrite St. destruct (L2 a H K); auto.
  - intros a c H K I. destruct (S a) as (_ & _ & _ & E & _ & Ki & _). rewrite E in I. rewrite O in K. rewrite Ki in H. eauto.
  - intros g H K1 K2. rewrite O in K1, K2. destruct (L4 g H K1 K2); auto.
  - intros H1 H2 K. rewrite O in K. destruct (S 0) as (_ & _ & _ & _ & -> & _). destruct (L5 H1 H2 K); auto.
  - intros H1 H2. destruct (L6 H1 H2); auto.
  - intros H K. rewrite O in K. destruct (L7 H K) as [I|[I1 I2]]; auto.
Qed.

Definition safe_sys (s : state) (a : nat) (m : smsg) : Prop := a = 0 \/ att (nd s a) = true.
Definition safe_usr (s : state) (a : nat) (u : umsg) : Prop :=
  match u with UTerm g => a = 0 -> 1 <= g <= 4 /\ opn (nd s g) = false | _ => True end.
Lemma within_safe s s' : within (safe_sys s) (safe_usr s) s s' -> flag s' = flag s -> Safe s -> Safe s'.
Proof.
  intros ((Sz & S) & G3 & G4) F [A1 A2 A3 A4 A5 A6 A7 A8 A9].
  assert (O : forall b, opn (nd s' b) = opn (nd s b)) by (intros; apply S).
  assert (K : forall b, kids (nd s' b) = kids (nd s b)) by (intros; apply S).
  assert (ST : forall b, stopping (nd s' b) = stopping (nd s b)) by (intros; apply S).
  assert (KI : forall b, killing (nd s' b) = killing (nd s b)) by (intros; apply S).
  assert (SA : forall b, started (nd s' b) = started (nd s b)) by (intros; apply S).
  assert (AT : forall b, att (nd s' b) = att (nd s b)) by (intros; apply S).
  assert (PA : forall b, par (nd s' b) = par (nd s b)) by (intros; apply S).
  assert (GO : forall b, gone (nd s' b) = gone (nd s b)) by (intros; apply S).
  constructor; rewrite ?F.
  - intros a. rewrite O, K. auto.
  - intros a. rewrite O, K, ST. auto.
  - rewrite O, SA. auto.
  - intros a H. rewrite Sz in H. rewrite AT, GO, O, SA, ST, KI, K. intros H'. destruct (A4 a H H') as (B1 & B2 & B3 & B4).
    repeat split; auto; try apply B4. intros m I. destruct (G3 a m I) as [I'|[[I'|I'] _]]; [eapply B2, I'|lia|congruence].
  - intros a. rewrite KI, ST. auto.
  - intros g H. rewrite O. apply G4 in H. destruct H as [H|[H _]]; [auto|]. apply H. reflexivity.
  - intros g. rewrite O. auto.
  - intros g. rewrite AT, PA. auto.
  - intros c. rewrite K. auto.
Qed.

Definition inv_sys (s : state) a m := core_sys s a m /\ safe_sys s a m.
Definition inv_usr (s : state) a u := core_usr s a u /\ safe_usr s a u.
Lemma grows_weaken (P P' : nat -> smsg -> Prop) (Q Q' : nat -> umsg -> Prop) s s' :
  (forall a m, P a m -> P' a m) -> (forall a u, Q a u -> Q' a u) -> grows P Q s s' -> grows P' Q' s s'.
Proof.
  intros HP HQ (S & F & R & G1 & G2 & G3 & G4). repeat split; auto; try apply S.
  - intros b m H. destruct (G3 b m H) as [?|[? ?]]; auto.
  - intros b m H. destruct (G4 b m H) as [?|[? ?]]; auto.
Qed.
Lemma grows_inv s s' : Inv s -> grows (inv_sys s) (inv_usr s) s s' -> Inv s'.
Proof.
  intros (C & L & S) G. split; [|split].
  - eapply grows_core; [exact C|]. eapply grows_weaken; [| |exact G]; intros ? ? H; apply H.
  - eapply grows_live; eassumption.
  - eapply within_safe; [apply grows_within|apply G|exact S]. eapply grows_weaken; [| |exact G]; intros ? ? H; apply H.
Qed.
Lemma push_sys_inv s a m : Inv s -> inv_sys s a m -> Inv (push_sys s a m).
Proof. intros I H. eapply grows_inv; [exact I|]. now apply push_sys_grows. Qed.
Lemma push_usr_inv s a m : Inv s -> inv_usr s a m -> Inv (push_usr s a m).
Proof. intros I H. eapply grows_inv; [exact I|]. now apply push_usr_grows. Qed.

(* ---- removing the handled message ---- *)
Lemma tl_cons {B} (x m : B) l : In x (m :: l) -> x = m \/ In x l.
Proof. intros [H|H]; auto. Qed.

Definition sys_done (s : state) (a : nat) (m : smsg) : Prop :=
  match m with
  | SDetach c => ~ In c (kids (nd s a))
  | SStart => started (nd s a) = true \/ opn (nd s a) = false
  | SStopAfter => a = 0 -> stopping (nd s 0) = true \/ opn (nd s 0) = false
  | SStop => opn (nd s a) = false \/ killing (nd s a) = true
  | SAttach c => True
  end.
Lemma pop_sys_inv s a m q : Inv s -> sysq (nd s a) = m :: q -> sys_done s a m -> Inv (pop_sys s a).
Proof.
  intros (C & [L1 L2 L3 L4 L5 L6 L7] & S) Q D. split; [now apply pop_sys_core|].
  assert (W := pop_sys_within s a (safe_sys s) (safe_usr s)).
  split; [|eapply within_safe; [exact W|reflexivity|exact S]].
  destruct W as ((_ & W) & _).
  assert (E : forall b x, In x (sysq (nd s b)) -> In x (sysq (nd (pop_sys s a) b)) \/ (b = a /\ x = m)).
  { intros b x H. unfold pop_sys, set_nd, upd; simpl. destruct (Nat.eqb_spec b a); [subst; simpl|auto]. rewrite Q in *. destruct H as [H|H]; auto. }
  assert (U : forall b, usrq (nd (pop_sys s a) b) = usrq (nd s b)).
  { intros b. unfold pop_sys, set_nd, upd; simpl. destruct (Nat.eqb_spec b a); subst; reflexivity. }
  assert (F : flag (pop_sys s a) = flag s /\ requested (pop_sys s a) = requested s) by (split; reflexivity). destruct F as [F R].
  set (s' := pop_sys s a) in *. clearbody s'.
  assert (O : forall b, opn (nd s' b) = opn (nd s b)) by (intros; apply W).
  assert (K : forall b, kids (nd s' b) = kids (nd s b)) by (intros; apply W).
  assert (ST : forall b, stopping (nd s' b) = stopping (nd s b)) by (intros; apply W).
  assert (KI : forall b, killing (nd s' b) = killing (nd s b)) by (intros; apply W).
  assert (SA : forall b, started (nd s' b) = started (nd s b)) by (intros; apply W).
  assert (AT : forall b, att (nd s' b) = att (nd s b)) by (intros; apply W).
  assert (DD : forall b, doomed s b -> doomed s' b).
  { intros b [H|[H|[H|H]]]; unfold doomed; rewrite O, U, KI; auto. destruct (E _ _ H) as [H'|[-> <-]]; auto. simpl in D. tauto. }
  constructor; rewrite ?F, ?R.
  - intros b c. rewrite K, O. intros H1 H2. destruct (E _ _ (L1 b c H1 H2)) as [H|[-> <-]]; auto. simpl in D. contradiction.
  - intros b. rewrite AT, O, SA. intros H1 H2. destruct (L2 b H1 H2) as [H|H]; auto. destruct (E _ _ H) as [H'|[-> <-]]; auto. simpl in D. destruct D; [auto|congruence].
  - intros b c. rewrite KI, O, K. eauto.
  - intros g. rewrite !O, U. auto.
  - rewrite O, ST. intros H1 H2 H3. destruct (L5 H1 H2 H3) as [H|H]; auto. destruct (E _ _ H) as [H'|[<- <-]]; auto. simpl in D. destruct D; auto. congruence.
  - intros H1 H2. destruct (L6 H1 H2); auto.
  - rewrite O, U. intros H1 H2. destruct (L7 H1 H2) as [?|[? ?]]; auto.
Qed.

Definition usr_done (s : state) (a : nat) (u : umsg) : Prop :=
  match u with
  | UPoison => opn (nd s a) = false \/ In SStop (sysq (nd s a))
  | UTerm g => a = 0 -> flag s g = true
  | URootTerm true => a = 0 -> doomed s 3 /\ doomed s 4
  | _ => True
  end.
Lemma pop_usr_inv s a m q : Inv s -> usrq (nd s a) = m :: q -> usr_done s a m -> Inv (pop_usr s a).
Proof.
  intros (C & [L1 L2 L3 L4 L5 L6 L7] & S) Q D. split; [now apply pop_usr_core|].
  assert (W := pop_usr_within s a (safe_sys s) (safe_usr s)).
  split; [|eapply within_safe; [exact W|reflexivity|exact S]].
  destruct W as ((_ & W) & _).
  assert (E : forall b x, In x (usrq (nd s b)) -> In x (usrq (nd (pop_usr s a) b)) \/ (b = a /\ x = m)).
  { intros b x H. unfold pop_usr, set_nd, upd; simpl. destruct (Nat.eqb_spec b a); [subst; simpl|auto]. rewrite Q in *. destruct H as [H|H]; auto. }
  assert (U : forall b, sysq (nd (pop_usr s a) b) = sysq (nd s b)).
  { intros b. unfold pop_usr, set_nd, upd; simpl. destruct (Nat.eqb_spec b a); subst; reflexivity. }
  assert (F : flag (pop_usr s a) = flag s /\ requested (pop_usr s a) = requested s) by (split; reflexivity). destruct F as [F R].
  set (s' := pop_usr s a) in *. clearbody s'.
  assert (O : forall b, opn (nd s' b) = opn (nd s b)) by (intros; apply W).
  assert (K : forall b, kids (nd s' b) = kids (nd s b)) by (intros; apply W).
  assert (ST : forall b, stopping (nd s' b) = stopping (nd s b)) by (intros; apply W).
  assert (KI : forall b, killing (nd s' b) = killing (nd s b)) by (intros; apply W).
  assert (SA : forall b, started (nd s' b) = started (nd s b)) by (intros; apply W).
  assert (AT : forall b, att (nd s' b) = att (nd s b)) by (intros; apply W).
  assert (DD : forall b, doomed s b -> doomed s' b).
  { intros b [H|[H|[H|H]]]; unfold doomed; rewrite O, U, KI; auto. destruct (E _ _ H) as [H'|[-> <-]]; auto. simpl in D. tauto. }
  constructor; rewrite ?F, ?R.
  - intros b c. rewrite K, O, U. auto.
  - intros b. rewrite AT, O, SA, U. auto.
  - intros b c. rewrite KI, O, K. eauto.
  - intros g. rewrite !O. intros H1 H2 H3. destruct (L4 g H1 H2 H3) as [H|H]; auto. destruct (E _ _ H) as [H'|[<- <-]]; auto.
  - rewrite O, ST, U. auto.
  - intros H1 H2. destruct (L6 H1 H2); auto.
  - rewrite O. intros H1 H2. destruct (L7 H1 H2) as [H|[? ?]]; auto. destruct (E _ _ H) as [H'|[<- <-]]; auto. right. destruct D; auto.
Qed.

(* ---- the handlers ---- *)
Lemma has_sys s a m : Inv s -> opn (nd s a) = true -> In m (sysq (nd s a)) -> a = 0 \/ att (nd s a) = true.
Proof.
  intros (C & L & Sf) O H. destruct a as [|a]; [auto|]. right. destruct (att (nd s (S a))) eqn:A; [reflexivity|].
  assert (Lt := open_in_range s _ C O). destruct (s_pend s Sf (S a)) as (_ & K & _); [lia|exact A|]. now apply K in H.
Qed.
Lemma is_started s a : Inv s -> opn (nd s a) = true -> started (nd s a) = true -> a = 0 \/ att (nd s a) = true.
Proof.
  intros (C & L & Sf) O H. destruct a as [|a]; [auto|]. right. destruct (att (nd s (S a))) eqn:A; [reflexivity|].
  assert (Lt := open_in_range s _ C O). destruct (s_pend s Sf (S a)) as (_ & _ & K & _); [lia|exact A|congruence].
Qed.

Lemma start_node_inv s a : Inv s -> opn (nd s a) = true -> a = 0 \/ att (nd s a) = true -> Inv (start_node s a true).
Proof.
  intros (C & [L1 L2 L3 L4 L5 L6 L7] & [A1 A2 A3 A4 A5 A6 A7 A8 A9]) Op At.
  assert (Lt := open_in_range s _ C Op). split; [now apply start_node_core|].
  assert (W : forall b, let v := nd s b in let v' := nd (start_node s a true) b in
     par v' = par v /\ att v' = att v /\ gone v' = gone v /\ kids v' = kids v /\ stopping v' = stopping v /\ killing v' = killing v /\
     opn v' = opn v /\ sysq v' = sysq v /\ usrq v' = usrq v /\ started v' = (if b =? a then true else started v)).
  { intros b. unfold start_node, set_nd, upd; simpl. destruct (Nat.eqb_spec b a); subst; simpl; repeat split; reflexivity. }
  assert (F : flag (start_node s a true) = flag s) by reflexivity.
  assert (R : requested (start_node s a true) = requested s) by reflexivity.
  assert (Sz : size (start_node s a true) = size s) by reflexivity.
  set (s' := start_node s a true) in *. clearbody s'. simpl in W.
  assert (O : forall b, opn (nd s' b) = opn (nd s b)) by (intros; apply W).
  assert (K : forall b, kids (nd s' b) = kids (nd s b)) by (intros; apply W).
  assert (ST : forall b, stopping (nd s' b) = stopping (nd s b)) by (intros; apply W).
  assert (KI : forall b, killing (nd s' b) = killing (nd s b)) by (intros; apply W).
  assert (AT : forall b, att (nd s' b) = att (nd s b)) by (intros; apply W).
  assert (PA : forall b, par (nd s' b) = par (nd s b)) by (intros; apply W).
  assert (GO : forall b, gone (nd s' b) = gone (nd s b)) by (intros; apply W).
  assert (QS : forall b, sysq (nd s' b) = sysq (nd s b)) by (intros; apply W).
  assert (QU : forall b, usrq (nd s' b) = usrq (nd s b)) by (intros; apply W).
  assert (SA : forall b, started (nd s' b) = (if b =? a then true else started (nd s b))) by (intros; apply W).
  assert (DD : forall b, doomed s b -> doomed s' b) by (intros b; unfold doomed; now rewrite O, QS, QU, KI).
  split; constructor; rewrite ?F, ?R, ?Sz.
  - intros b c. rewrite K, O, QS. auto.
  - intros b. rewrite AT, O, QS, SA. destruct (b =? a); auto.
  - intros b c. rewrite KI, O, K. eauto.
  - intros g. rewrite !O, QU. auto.
  - rewrite QS, ST, O. auto.
  - intros H1 H2. destruct (L6 H1 H2); auto.
  - rewrite O, QU. intros H1 H2. destruct (L7 H1 H2) as [?|[? ?]]; auto.
  - intros b. rewrite O, K. auto.
  - intros b. rewrite O, K, ST. auto.
  - rewrite O, SA. destruct (0 =? a); auto.
  - intros b H1. rewrite AT, GO, O, QS, SA, ST, KI, K. intros H2. destruct (A4 b H1 H2) as (B1 & B2 & B3 & B4).
    destruct (Nat.eqb_spec b a); [|repeat split; auto; apply B4]. subst. destruct At; [lia|congruence].
  - intros b. rewrite KI, ST. auto.
  - intros g. rewrite QU, O. auto.
  - intros g. rewrite O. auto.
  - intros g. rewrite AT, PA. auto.
  - intros c. rewrite K. auto.
Qed.

Lemma set_kids_inv s a c : Inv s -> opn (nd s a) = true -> opn (nd s c) = false ->
  stopping (nd s a) && is_nil (remove_first c (kids (nd s a))) = false ->
  Inv (set_kids s a (remove_first c (kids (nd s a)))).
Proof.
  intros (C & [L1 L2 L3 L4 L5 L6 L7] & [A1 A2 A3 A4 A5 A6 A7 A8 A9]) Op Oc NN.
  assert (Lt := open_in_range s _ C Op). split; [now apply set_kids_core|].
  set (ks := remove_first c (kids (nd s a))) in *.
  assert (Sub : forall d, In d ks -> In d (kids (nd s a))) by (intros d; apply remove_first_in).
  assert (W : forall b, let v := nd s b in let v' := nd (set_kids s a ks) b in
     par v' = par v /\ att v' = att v /\ gone v' = gone v /\ kids v' = (if b =? a then ks else kids v) /\ stopping v' = stopping v /\ killing v' = killing v /\
     opn v' = opn v /\ sysq v' = sysq v /\ usrq v' = usrq v /\ started v' = started v).
  { intros b. unfold set_kids, set_nd, upd; simpl. destruct (Nat.eqb_spec b a); subst; simpl; repeat split; reflexivity. }
  assert (F : flag (set_kids s a ks) = flag s) by reflexivity.
  assert (R : requested (set_kids s a ks) = requested s) by reflexivity.
  assert (Sz : size (set_kids s a ks) = size s) by reflexivity.
  set (s' := set_kids s a ks) in *. clearbody s'. simpl in W. clearbody ks.
  assert (O : forall b, opn (nd s' b) = opn (nd s b)) by (intros; apply W).
  assert (K : forall b, kids (nd s' b) = (if b =? a then ks else kids (nd s b))) by (intros; apply W).
  assert (ST : forall b, stopping (nd s' b) = stopping (nd s b)) by (intros; apply W).
  assert (KI : forall b, killing (nd s' b) = killing (nd s b)) by (intros; apply W).
  assert (AT : forall b, att (nd s' b) = att (nd s b)) by (intros; apply W).
  assert (PA : forall b, par (nd s' b) = par (nd s b)) by (intros; apply W).
  assert (GO : forall b, gone (nd s' b) = gone (nd s b)) by (intros; apply W).
  assert (QS : forall b, sysq (nd s' b) = sysq (nd s b)) by (intros; apply W).
  assert (QU : forall b, usrq (nd s' b) = usrq (nd s b)) by (intros; apply W).
  assert (SA : forall b, started (nd s' b) = started (nd s b)) by (intros; apply W).
  assert (DD : forall b, doomed s b -> doomed s' b) by (intros b; unfold doomed; now rewrite O, QS, QU, KI).
  assert (KK : forall b d, In d (kids (nd s' b)) -> In d (kids (nd s b))).
  { intros b d. rewrite K. destruct (Nat.eqb_spec b a); subst; auto. }
  split; constructor; rewrite ?F, ?R, ?Sz.
  - intros b d H. rewrite O, QS. auto.
  - intros b. rewrite AT, O, QS, SA. auto.
  - intros b d. rewrite KI, O. eauto.
  - intros g. rewrite !O, QU. auto.
  - rewrite QS, ST, O. auto.
  - intros H1 H2. destruct (L6 H1 H2); auto.
  - rewrite O, QU. intros H1 H2. destruct (L7 H1 H2) as [?|[? ?]]; auto.
  - intros b. rewrite O, K. intros H. destruct (Nat.eqb_spec b a); [subst; congruence|auto].
  - intros b. rewrite O, K, ST. intros H1 H2. destruct (Nat.eqb_spec b a); [|auto]. subst. rewrite H1 in NN. simpl in NN. intros ->. discriminate.
  - rewrite O, SA. auto.
  - intros b H1. rewrite AT, GO, O, QS, SA, ST, KI, K. intros H2. destruct (A4 b H1 H2) as (B1 & B2 & B3 & B4 & B5 & B6).
    repeat split; auto. destruct (Nat.eqb_spec b a); [|auto]. subst. rewrite B6 in Sub. destruct ks as [|d ks]; [reflexivity|]. destruct (Sub d). now left.
  - intros b. rewrite KI, ST. auto.
  - intros g. rewrite QU, O. auto.
  - intros g. rewrite O. auto.
  - intros g. rewrite AT, PA. auto.
  - intros d H. apply KK in H. auto.
Qed.

(* stop with children: mark, and poison every child (kill), or just mark *)
Lemma stopping_inv s a (k : bool) s' : Inv s -> opn (nd s a) = true -> a = 0 \/ att (nd s a) = true -> kids (nd s a) <> [] ->
  s' = (if k then fold_left (fun s c => push_usr s c UPoison) (kids (nd s a)) (set_stopping s a true) else set_stopping s a false) ->
  Inv s' /\ stopping (nd s' a) = true /\ (k = true -> killing (nd s' a) = true) /\ sysq (nd s' a) = sysq (nd s a).
Proof.
  intros (C & [L1 L2 L3 L4 L5 L6 L7] & [A1 A2 A3 A4 A5 A6 A7 A8 A9]) Op At NK E.
  assert (Lt := open_in_range s _ C Op).
  assert (G : grows (fun _ _ => False) (fun _ u => u = UPoison) (set_stopping s a k) s').
  { subst s'. destruct k; [|apply grows_refl]. now apply poison_grows. }
  assert (PI : k = true -> forall c, In c (kids (nd s a)) -> opn (nd s c) = true -> In UPoison (usrq (nd s' c))).
  { intros -> c H Oc. subst s'. apply poison_in; [exact H|]. unfold set_stopping, set_nd, upd; simpl. destruct (Nat.eqb_spec c a); subst; auto. }
  assert (QE : sysq (nd s' a) = sysq (nd s a)).
  { subst s'. assert (X : forall l t, sysq (nd (fold_left (fun s c => push_usr s c UPoison) l t) a) = sysq (nd t a)).
    { induction l as [|c l IH]; intros t; simpl; [reflexivity|]. rewrite IH. unfold push_usr. destruct (opn (nd t c)); [|reflexivity]. simpl. unfold upd. destruct (Nat.eqb_spec a c); subst; reflexivity. }
    destruct k; rewrite ?X; unfold set_stopping, set_nd; simpl; now rewrite upd_eq. }
  assert (CC : Core s').
  { eapply grows_core; [apply (set_stopping_core s a k C Lt)|]. eapply grows_weaken; [| |exact G]; simpl; [tauto|intros ? ? ->; exact I]. }
  clear E.
  assert (W : forall b, let v := nd s b in let v' := nd (set_stopping s a k) b in
     par v' = par v /\ att v' = att v /\ gone v' = gone v /\ kids v' = kids v /\ stopping v' = (if b =? a then true else stopping v) /\ killing v' = (if b =? a then killing v || k else killing v) /\
     opn v' = opn v /\ sysq v' = sysq v /\ usrq v' = usrq v /\ started v' = started v).
  { intros b. unfold set_stopping, set_nd, upd; simpl. destruct (Nat.eqb_spec b a); subst; simpl; repeat split; reflexivity. }
  destruct G as ((Sz & SF) & F & R & G1 & G2 & G3 & G4). change (size (set_stopping s a k)) with (size s) in Sz. change (flag (set_stopping s a k)) with (flag s) in F. change (requested (set_stopping s a k)) with (requested s) in R. cbv zeta in W.
  set (s1 := set_stopping s a k) in *. clearbody s1.
  assert (O : forall b, opn (nd s' b) = opn (nd s b)) by (intros b; destruct (SF b) as (_ & _ & _ & _ & _ & _ & _ & -> & _); apply W).
  assert (K : forall b, kids (nd s' b) = kids (nd s b)) by (intros b; destruct (SF b) as (_ & _ & _ & -> & _); apply W).
  assert (ST : forall b, stopping (nd s' b) = (if b =? a then true else stopping (nd s b))) by (intros b; destruct (SF b) as (_ & _ & _ & _ & -> & _); apply W).
  assert (KI : forall b, killing (nd s' b) = (if b =? a then killing (nd s b) || k else killing (nd s b))) by (intros b; destruct (SF b) as (_ & _ & _ & _ & _ & -> & _); apply W).
  assert (AT : forall b, att (nd s' b) = att (nd s b)) by (intros b; destruct (SF b) as (_ & -> & _); apply W).
  assert (PA : forall b, par (nd s' b) = par (nd s b)) by (intros b; destruct (SF b) as (-> & _); apply W).
  assert (GO : forall b, gone (nd s' b) = gone (nd s b)) by (intros b; destruct (SF b) as (_ & _ & -> & _); apply W).
  assert (SA : forall b, started (nd s' b) = started (nd s b)) by (intros b; destruct (SF b) as (_ & _ & _ & _ & _ & _ & -> & _); apply W).
  assert (QS1 : forall b m, In m (sysq (nd s b)) -> In m (sysq (nd s' b))) by (intros b m H; apply G1; destruct (W b) as (_ & _ & _ & _ & _ & _ & _ & -> & _); exact H).
  assert (QU1 : forall b m, In m (usrq (nd s b)) -> In m (usrq (nd s' b))) by (intros b m H; apply G2; destruct (W b) as (_ & _ & _ & _ & _ & _ & _ & _ & -> & _); exact H).
  assert (QS2 : forall b m, In m (sysq (nd s' b)) -> In m (sysq (nd s b))) by (intros b m H; apply G3 in H; destruct (W b) as (_ & _ & _ & _ & _ & _ & _ & <- & _); tauto).
  assert (QU2 : forall b m, In m (usrq (nd s' b)) -> In m (usrq (nd s b)) \/ m = UPoison) by (intros b m H; apply G4 in H; destruct (W b) as (_ & _ & _ & _ & _ & _ & _ & _ & <- & _); tauto).
  assert (DD : forall b, doomed s b -> doomed s' b).
  { intros b [H|[H|[H|H]]]; unfold doomed; rewrite O, KI; auto. do 3 right. rewrite H. destruct (b =? a); reflexivity. }
  clear W SF G1 G2 G3 G4.
  split; [split; [exact CC|]|].
  { split; constructor; rewrite ?F, ?R, ?Sz.
  - intros b d. rewrite K, O. auto.
  - intros b. rewrite AT, O, SA. intros H1 H2. destruct (L2 b H1 H2); auto.
  - intros b d. rewrite KI, O, K. destruct (Nat.eqb_spec b a); [|eauto]. subst b. intros H1 H2 H3. apply orb_true_iff in H1. destruct H1 as [H1|H1]; [eauto|].
    destruct (opn (nd s d)) eqn:Od; [|left; now rewrite O]. right; right; left. auto.
  - intros g. rewrite !O. intros H1 H2 H3. destruct (L4 g H1 H2 H3); auto.
  - rewrite ST, O. intros H1 H2 H3. destruct (0 =? a); [auto|]. destruct (L5 H1 H2 H3); auto.
  - intros H1 H2. destruct (L6 H1 H2); auto.
  - rewrite O. intros H1 H2. destruct (L7 H1 H2) as [?|[? ?]]; auto.
  - intros b. rewrite O, K. auto.
  - intros b. rewrite O, K, ST. destruct (Nat.eqb_spec b a); subst; auto.
  - rewrite O, SA. auto.
  - intros b H1. rewrite AT, GO, O, SA, ST, KI, K. intros H2. destruct (A4 b H1 H2) as (B1 & B2 & B3 & B4 & B5 & B6).
    destruct (Nat.eqb_spec b a); [subst; destruct At; [lia|congruence]|]. repeat split; auto. intros m H. apply QS2 in H. eapply B2, H.
  - intros b. rewrite KI, ST. destruct (b =? a); auto.
  - intros g H. rewrite O. apply QU2 in H. destruct H as [H|H]; [auto|discriminate].
  - intros g. rewrite O. auto.
  - intros g. rewrite AT, PA. auto.
  - intros c. rewrite K. auto. }
  rewrite ST, KI, Nat.eqb_refl. repeat split; auto. intros ->. apply orb_true_r.
Qed.

Lemma push_sys_usrq s a m b : usrq (nd (push_sys s a m) b) = usrq (nd s b).
Proof. unfold push_sys. destruct (opn (nd s a)); [|reflexivity]. simpl. unfold upd. destruct (Nat.eqb_spec b a); subst; reflexivity. Qed.
Lemma push_usr_sysq s a m b : sysq (nd (push_usr s a m) b) = sysq (nd s b).
Proof. unfold push_usr. destruct (opn (nd s a)); [|reflexivity]. simpl. unfold upd. destruct (Nat.eqb_spec b a); subst; reflexivity. Qed.

Lemma stop_node_inv s a : Inv s -> opn (nd s a) = true -> a = 0 \/ att (nd s a) = true ->
  (forall c, In c (kids (nd s a)) -> opn (nd s c) = false) ->
  Inv (stop_node s a) /\ opn (nd (stop_node s a) a) = false /\ kids (nd (stop_node s a) a) = [] /\ sysq (nd (stop_node s a) a) = sysq (nd s a).
Proof.
  intros (C & [L1 L2 L3 L4 L5 L6 L7] & [A1 A2 A3 A4 A5 A6 A7 A8 A9]) Op At KC.
  assert (Lt := open_in_range s _ C Op). assert (CC := stop_node_core s a C Lt KC).
  assert (PK : att (nd s a) = true -> par (nd s a) < a /\ (opn (nd s (par (nd s a))) = true \/ forall b, ~ In a (kids (nd s b)))).
  { intros H. destruct (c_att s C a H) as [H1 _]. split; [exact H1|]. destruct (opn (nd s (par (nd s a)))) eqn:E; [auto|]. right. intros b Hb.
    assert (X := Hb). apply (c_kids s C) in X. destruct X as (_ & _ & X). subst b. rewrite (A1 _ E) in Hb. destruct Hb. }
  assert (KP : forall b, In a (kids (nd s b)) -> att (nd s a) = true /\ par (nd s a) = b).
  { intros b Hb. apply (c_kids s C) in Hb. tauto. }
  revert CC. unfold stop_node. set (v := nd s a) in *.
  match goal with |- context[set_nd s a ?n] => set (v1 := n) end.
  set (s1 := set_nd s a v1).
  assert (W : forall b, let v := nd s b in let v' := nd s1 b in
     par v' = par v /\ att v' = att v /\ gone v' = gone v /\ kids v' = (if b =? a then [] else kids v) /\ stopping v' = stopping v /\ killing v' = killing v /\
     opn v' = (if b =? a then false else opn v) /\ sysq v' = sysq v /\ usrq v' = usrq v /\ started v' = (if b =? a then false else started v)).
  { intros b. unfold s1, v1, set_nd, upd; simpl. destruct (Nat.eqb_spec b a); subst; simpl; repeat split; reflexivity. }
  assert (F1 : flag s1 = flag s) by reflexivity.
  assert (R1 : requested s1 = requested s) by reflexivity.
  assert (Sz1 : size s1 = size s) by reflexivity.
  clearbody s1. clear v1.
  set (s2 := if is_guard a then push_usr s1 0 (UTerm a) else s1).
  set (s3 := if att v then push_sys s2 (par v) (SDetach a) else s2).
  intros CC.
  set (P := fun b m => b = par v /\ att v = true /\ m = SDetach a).
  set (Q := fun b u => u = UTerm a /\ b = 0 /\ 1 <= a <= 4).
  assert (G : grows P Q s1 s3).
  { apply grows_trans with s2.
    - unfold s2. destruct (is_guard a) eqn:E; [|apply grows_refl]. apply is_guard_spec in E. apply push_usr_grows. unfold Q. auto.
    - unfold s3. destruct (att v) eqn:E; [|apply grows_refl]. apply push_sys_grows. unfold P. auto. }
  assert (UT : 1 <= a <= 4 -> opn (nd s1 0) = true -> In (UTerm a) (usrq (nd s3 0))).
  { intros H1 H2. assert (X : In (UTerm a) (usrq (nd s2 0))).
    { unfold s2. apply is_guard_spec in H1. rewrite H1. now apply push_usr_in. }
    unfold s3. destruct (att v); [|exact X]. now rewrite push_sys_usrq. }
  assert (DT : att v = true -> opn (nd s1 (par v)) = true -> In (SDetach a) (sysq (nd s3 (par v)))).
  { intros H1 H2. unfold s3. rewrite H1. apply push_sys_in.
    unfold s2. destruct (is_guard a); [|exact H2]. destruct (push_usr_grows P (fun _ _ => True) s1 0 (UTerm a) I) as ((_ & X) & _). destruct (X (par v)) as (_ & _ & _ & _ & _ & _ & _ & -> & _). exact H2. }
  assert (QE : sysq (nd s3 a) = sysq (nd s1 a)).
  { assert (X : sysq (nd s2 a) = sysq (nd s1 a)) by (unfold s2; destruct (is_guard a); [apply push_usr_sysq|reflexivity]).
    rewrite <- X. unfold s3. destruct (att v) eqn:E; [|reflexivity]. unfold push_sys. destruct (opn (nd s2 (par v))); [|reflexivity]. simpl. rewrite upd_neq; [reflexivity|].
    destruct (PK eq_refl). lia. }
  clearbody s3. clear s2.
  destruct G as ((Sz & SF) & F & R & G1 & G2 & G3 & G4). rewrite Sz1 in Sz. rewrite F1 in F. rewrite R1 in R. cbv zeta in W.
  rename s3 into s'.
  assert (O1 : forall b, opn (nd s1 b) = (if b =? a then false else opn (nd s b))) by (intros b; apply W).
  assert (O : forall b, opn (nd s' b) = (if b =? a then false else opn (nd s b))) by (intros b; destruct (SF b) as (_ & _ & _ & _ & _ & _ & _ & -> & _); apply W).
  assert (K : forall b, kids (nd s' b) = (if b =? a then [] else kids (nd s b))) by (intros b; destruct (SF b) as (_ & _ & _ & -> & _); apply W).
  assert (ST : forall b, stopping (nd s' b) = stopping (nd s b)) by (intros b; destruct (SF b) as (_ & _ & _ & _ & -> & _); apply W).
  assert (KI : forall b, killing (nd s' b) = killing (nd s b)) by (intros b; destruct (SF b) as (_ & _ & _ & _ & _ & -> & _); apply W).
  assert (AT : forall b, att (nd s' b) = att (nd s b)) by (intros b; destruct (SF b) as (_ & -> & _); apply W).
  assert (PA : forall b, par (nd s' b) = par (nd s b)) by (intros b; destruct (SF b) as (-> & _); apply W).
  assert (GO : forall b, gone (nd s' b) = gone (nd s b)) by (intros b; destruct (SF b) as (_ & _ & -> & _); apply W).
  assert (SA : forall b, started (nd s' b) = (if b =? a then false else started (nd s b))) by (intros b; destruct (SF b) as (_ & _ & _ & _ & _ & _ & -> & _); apply W).
  assert (QS1 : forall b m, In m (sysq (nd s b)) -> In m (sysq (nd s' b))) by (intros b m H; apply G1; destruct (W b) as (_ & _ & _ & _ & _ & _ & _ & -> & _); exact H).
  assert (QU1 : forall b m, In m (usrq (nd s b)) -> In m (usrq (nd s' b))) by (intros b m H; apply G2; destruct (W b) as (_ & _ & _ & _ & _ & _ & _ & _ & -> & _); exact H).
  assert (QS2 : forall b m, In m (sysq (nd s' b)) -> In m (sysq (nd s b)) \/ (P b m /\ opn (nd s1 b) = true)) by (intros b m H; apply G3 in H; destruct (W b) as (_ & _ & _ & _ & _ & _ & _ & <- & _); tauto).
  assert (QU2 : forall b m, In m (usrq (nd s' b)) -> In m (usrq (nd s b)) \/ Q b m) by (intros b m H; apply G4 in H; destruct (W b) as (_ & _ & _ & _ & _ & _ & _ & _ & <- & _); tauto).
  assert (QE' : sysq (nd s' a) = sysq (nd s a)) by (rewrite QE; apply W).
  assert (DD : forall b, doomed s b -> doomed s' b).
  { intros b [H|[H|[H|H]]]; unfold doomed; rewrite O, KI; auto. left. destruct (b =? a); auto. }
  clear W SF G1 G2 G3 G4 QE.
  split; [split; [exact CC|]|].
  { split; constructor; rewrite ?F, ?R, ?Sz.
  - intros b d. rewrite K, O. destruct (Nat.eqb_spec b a); [intros []|]. destruct (Nat.eqb_spec d a); [|auto]. subst d. intros H _.
    destruct (KP b H) as [H1 H2]. subst b. apply DT; [exact H1|]. rewrite O1. destruct (Nat.eqb_spec (par v) a) as [e|e]; [lia|].
    destruct (PK H1) as [_ [X|X]]; [exact X|]. now apply X in H.
  - intros b. rewrite AT, O, SA. destruct (Nat.eqb_spec b a); [discriminate|]. intros H1 H2. destruct (L2 b H1 H2); auto.
  - intros b d. rewrite KI, O, K. destruct (Nat.eqb_spec b a); [discriminate|]. eauto.
  - intros g. rewrite !O. intros H1 H2 H3. destruct (Nat.eqb_spec g a).
    + subst g. left. apply UT; [exact H1|]. rewrite O1. exact H3.
    + destruct (Nat.eqb_spec 0 a); [discriminate|]. destruct (L4 g H1 H2 H3); auto.
  - rewrite ST, O. destruct (Nat.eqb_spec 0 a); [discriminate|]. intros H1 H2 H3. destruct (L5 H1 H2 H3); auto.
  - intros H1 H2. destruct (L6 H1 H2); auto.
  - rewrite O. destruct (Nat.eqb_spec 0 a); [discriminate|]. intros H1 H2. destruct (L7 H1 H2) as [?|[? ?]]; auto.
  - intros b. rewrite O, K. destruct (b =? a); auto.
  - intros b. rewrite O, K, ST. destruct (Nat.eqb_spec b a); [discriminate|auto].
  - rewrite O, SA. destruct (0 =? a); auto.
  - intros b H1. rewrite AT, GO, O, SA, ST, KI, K. intros H2. destruct (A4 b H1 H2) as (B1 & B2 & B3 & B4 & B5 & B6).
    destruct (Nat.eqb_spec b a); [subst; destruct At; [lia|unfold v in *; congruence]|]. repeat split; auto. intros m H. apply QS2 in H. destruct H as [H|[(E1 & E2 & E3) E4]]; [eapply B2, H|].
    subst b. assert (A8' := c_att s C a E2). destruct A8' as [_ [X|X]]; [|unfold v in *; congruence]. fold v in X. rewrite B6 in X. destruct X.
  - intros b. rewrite KI, ST. auto.
  - intros g H. rewrite O. apply QU2 in H. destruct H as [H|(E1 & E2 & E3)].
    + apply A6 in H. destruct H. split; [auto|]. destruct (g =? a); auto.
    + injection E1 as ->. rewrite Nat.eqb_refl. auto.
  - intros g H. rewrite O. apply A7 in H. destruct H. split; [auto|]. destruct (g =? a); auto.
  - intros g. rewrite AT, PA. auto.
  - intros c. rewrite K. destruct (0 =? a); [intros []|auto]. }
  rewrite O, K, Nat.eqb_refl. auto.
Qed.

Lemma destroy_inv s c : Inv s -> c < size s -> att (nd s c) = false -> 1 <= c -> Inv (destroy s c).
Proof.
  intros (C & [L1 L2 L3 L4 L5 L6 L7] & [A1 A2 A3 A4 A5 A6 A7 A8 A9]) Lt NA Pos.
  split; [now apply destroy_core|].
  assert (NG : ~ 1 <= c <= 4) by (intros H; apply A8 in H; destruct H; congruence).
  assert (NK : forall b, ~ In c (kids (nd s b))) by (intros b H; apply (c_kids s C) in H; destruct H as (_ & H & _); congruence).
  destruct (A4 c) as (B1 & B2 & B3 & B4 & B5 & B6); [lia|exact NA|].
  assert (W : forall b, let v := nd s b in let v' := nd (destroy s c) b in
     par v' = par v /\ att v' = att v /\ gone v' = (if b =? c then true else gone v) /\ kids v' = kids v /\ stopping v' = stopping v /\ killing v' = killing v /\
     opn v' = (if b =? c then false else opn v) /\ sysq v' = sysq v /\ usrq v' = usrq v /\ started v' = started v).
  { intros b. unfold destroy, set_nd, upd; simpl. destruct (Nat.eqb_spec b c); subst; simpl; repeat split; reflexivity. }
  assert (F : flag (destroy s c) = flag s) by reflexivity.
  assert (R : requested (destroy s c) = requested s) by reflexivity.
  assert (Sz : size (destroy s c) = size s) by reflexivity.
  set (s' := destroy s c) in *. clearbody s'. cbv zeta in W.
  assert (O : forall b, opn (nd s' b) = (if b =? c then false else opn (nd s b))) by (intros; apply W).
  assert (K : forall b, kids (nd s' b) = kids (nd s b)) by (intros; apply W).
  assert (ST : forall b, stopping (nd s' b) = stopping (nd s b)) by (intros; apply W).
  assert (KI : forall b, killing (nd s' b) = killing (nd s b)) by (intros; apply W).
  assert (AT : forall b, att (nd s' b) = att (nd s b)) by (intros; apply W).
  assert (PA : forall b, par (nd s' b) = par (nd s b)) by (intros; apply W).
  assert (GO : forall b, gone (nd s' b) = (if b =? c then true else gone (nd s b))) by (intros; apply W).
  assert (QS : forall b, sysq (nd s' b) = sysq (nd s b)) by (intros; apply W).
  assert (QU : forall b, usrq (nd s' b) = usrq (nd s b)) by (intros; apply W).
  assert (SA : forall b, started (nd s' b) = started (nd s b)) by (intros; apply W).
  assert (DD : forall b, doomed s b -> doomed s' b) by (intros b; unfold doomed; rewrite O, QS, QU, KI; destruct (b =? c); tauto).
  assert (Z : (0 =? c) = false) by (destruct c; [lia|reflexivity]).
  split; constructor; rewrite ?F, ?R, ?Sz.
  - intros b d. rewrite K, O, QS. destruct (Nat.eqb_spec d c); [subst; intros H; now apply NK in H|auto].
  - intros b. rewrite AT, O, QS, SA. destruct (b =? c); [discriminate|auto].
  - intros b d. rewrite KI, O, K. destruct (b =? c); [discriminate|eauto].
  - intros g. rewrite !O, QU, Z. destruct (Nat.eqb_spec g c); [subst; lia|auto].
  - rewrite QS, ST, O, Z. auto.
  - intros H1 H2. destruct (L6 H1 H2); auto.
  - rewrite O, QU, Z. intros H1 H2. destruct (L7 H1 H2) as [?|[? ?]]; auto.
  - intros b. rewrite O, K. destruct (Nat.eqb_spec b c); subst; auto.
  - intros b. rewrite O, K, ST. destruct (b =? c); [discriminate|auto].
  - rewrite O, SA, Z. auto.
  - intros b H1. rewrite AT, GO, O, QS, SA, ST, KI, K. intros H2. destruct (A4 b H1 H2) as (D1 & D2 & D3 & D4 & D5 & D6).
    destruct (Nat.eqb_spec b c); repeat split; auto; discriminate.
  - intros b. rewrite KI, ST. auto.
  - intros g. rewrite QU, O. intros H. apply A6 in H. destruct (g =? c); tauto.
  - intros g. rewrite O. intros H. apply A7 in H. destruct (g =? c); tauto.
  - intros g. rewrite AT, PA. auto.
  - intros d. rewrite K. auto.
Qed.

Lemma attach_inv s a c : Inv s -> opn (nd s a) = true -> 1 <= a -> a < c < size s -> stopping (nd s a) = false -> att (nd s a) = true -> Inv (attach s a c).
Proof.
  intros II Op La Lc NS Aa. assert (II' := II).
  destruct II' as (C & [L1 L2 L3 L4 L5 L6 L7] & [A1 A2 A3 A4 A5 A6 A7 A8 A9]).
  assert (CC : Core (attach s a c)) by (apply attach_core; auto; lia).
  revert CC. unfold attach. destruct (att (nd s c) || gone (nd s c)) eqn:E; [intros _; exact II|]. clear II.
  apply orb_false_iff in E. destruct E as [NA NG].
  assert (NK : forall b, ~ In c (kids (nd s b))) by (intros b H; apply (c_kids s C) in H; destruct H as (_ & H & _); congruence).
  destruct (A4 c) as (B1 & B2 & B3 & B4 & B5 & B6); [lia|exact NA|].
  assert (Oc : opn (nd s c) = true) by auto.
  assert (CG : 4 < c). { destruct (Nat.le_gt_cases c 4); [|assumption]. destruct (A8 c); [lia|congruence]. }
  match goal with |- Core (push_sys ?x _ _) -> _ => set (s2 := x) end. intros CC.
  assert (W : forall b, let v := nd s b in let v' := nd s2 b in
     par v' = (if b =? c then a else par v) /\ att v' = (if b =? c then true else att v) /\ gone v' = gone v /\ kids v' = (if b =? a then kids (nd s a) ++ [c] else kids v) /\ stopping v' = stopping v /\ killing v' = killing v /\
     opn v' = opn v /\ sysq v' = sysq v /\ usrq v' = usrq v /\ started v' = started v).
  { intros b. unfold s2, set_kids, set_nd; simpl. unfold upd. destruct (Nat.eqb_spec b c), (Nat.eqb_spec b a), (Nat.eqb_spec c a); subst; simpl; try lia; repeat split; reflexivity. }
  assert (G : grows (fun b m => b = c /\ m = SStart) (fun _ _ => False) s2 (push_sys s2 c SStart)) by (apply push_sys_grows; auto).
  assert (PI : In SStart (sysq (nd (push_sys s2 c SStart) c))).
  { apply push_sys_in. destruct (W c) as (_ & _ & _ & _ & _ & _ & -> & _). exact Oc. }
  assert (F1 : flag s2 = flag s) by reflexivity.
  assert (R1 : requested s2 = requested s) by reflexivity.
  assert (Sz1 : size s2 = size s) by reflexivity.
  set (s' := push_sys s2 c SStart) in *. clearbody s'. clearbody s2.
  destruct G as ((Sz & SF) & F & R & G1 & G2 & G3 & G4). rewrite Sz1 in Sz. rewrite F1 in F. rewrite R1 in R. cbv zeta in W.
  assert (O : forall b, opn (nd s' b) = opn (nd s b)) by (intros b; destruct (SF b) as (_ & _ & _ & _ & _ & _ & _ & -> & _); apply W).
  assert (K : forall b, kids (nd s' b) = (if b =? a then kids (nd s a) ++ [c] else kids (nd s b))) by (intros b; destruct (SF b) as (_ & _ & _ & -> & _); apply W).
  assert (ST : forall b, stopping (nd s' b) = stopping (nd s b)) by (intros b; destruct (SF b) as (_ & _ & _ & _ & -> & _); apply W).
  assert (KI : forall b, killing (nd s' b) = killing (nd s b)) by (intros b; destruct (SF b) as (_ & _ & _ & _ & _ & -> & _); apply W).
  assert (AT : forall b, att (nd s' b) = (if b =? c then true else att (nd s b))) by (intros b; destruct (SF b) as (_ & -> & _); apply W).
  assert (PA : forall b, par (nd s' b) = (if b =? c then a else par (nd s b))) by (intros b; destruct (SF b) as (-> & _); apply W).
  assert (GO : forall b, gone (nd s' b) = gone (nd s b)) by (intros b; destruct (SF b) as (_ & _ & -> & _); apply W).
  assert (SA : forall b, started (nd s' b) = started (nd s b)) by (intros b; destruct (SF b) as (_ & _ & _ & _ & _ & _ & -> & _); apply W).
  assert (QS1 : forall b m, In m (sysq (nd s b)) -> In m (sysq (nd s' b))) by (intros b m H; apply G1; destruct (W b) as (_ & _ & _ & _ & _ & _ & _ & -> & _); exact H).
  assert (QU1 : forall b m, In m (usrq (nd s b)) -> In m (usrq (nd s' b))) by (intros b m H; apply G2; destruct (W b) as (_ & _ & _ & _ & _ & _ & _ & _ & -> & _); exact H).
  assert (QS2 : forall b m, In m (sysq (nd s' b)) -> In m (sysq (nd s b)) \/ b = c) by (intros b m H; apply G3 in H; destruct (W b) as (_ & _ & _ & _ & _ & _ & _ & <- & _); tauto).
  assert (QU2 : forall b m, In m (usrq (nd s' b)) -> In m (usrq (nd s b))) by (intros b m H; apply G4 in H; destruct (W b) as (_ & _ & _ & _ & _ & _ & _ & _ & <- & _); tauto).
  assert (DD : forall b, doomed s b -> doomed s' b).
  { intros b [H|[H|[H|H]]]; unfold doomed; rewrite O, KI; auto. }
  clear W SF G1 G2 G3 G4.
  assert (KK : forall b d, In d (kids (nd s' b)) -> In d (kids (nd s b)) \/ (b = a /\ d = c)).
  { intros b d. rewrite K. destruct (Nat.eqb_spec b a); [|auto]. subst. intros H. apply in_app_or in H. destruct H as [H|[H|[]]]; auto. }
  assert (Z : (0 =? a) = false) by (destruct a; [lia|reflexivity]).
  split; [exact CC|].
  split; constructor; rewrite ?F, ?R, ?Sz.
  - intros b d H. rewrite O. intros H2. apply KK in H. destruct H as [H|[-> ->]]; [auto|congruence].
  - intros b. rewrite AT, O, SA. destruct (Nat.eqb_spec b c); [subst; auto|]. intros H1 H2. destruct (L2 b H1 H2); auto.
  - intros b d. rewrite KI, O. intros H1 H2 H3. apply KK in H3. destruct H3 as [H3|[-> ->]]; [eauto|]. apply A5 in H1. congruence.
  - intros g. rewrite !O. intros H1 H2 H3. destruct (L4 g H1 H2 H3); auto.
  - rewrite ST, O. intros H1 H2 H3. destruct (L5 H1 H2 H3); auto.
  - intros H1 H2. destruct (L6 H1 H2); auto.
  - rewrite O. intros H1 H2. destruct (L7 H1 H2) as [?|[? ?]]; auto.
  - intros b. rewrite O, K. destruct (Nat.eqb_spec b a); [subst; congruence|auto].
  - intros b. rewrite O, K, ST. destruct (Nat.eqb_spec b a); [subst; congruence|auto].
  - rewrite O, SA. auto.
  - intros b H1. rewrite AT, GO, O, SA, ST, KI, K. destruct (Nat.eqb_spec b c); [discriminate|]. intros H2. destruct (A4 b H1 H2) as (D1 & D2 & D3 & D4 & D5 & D6).
    repeat split; auto.
    + intros m H. apply QS2 in H. destruct H; [eapply D2; eassumption|contradiction].
    + destruct (Nat.eqb_spec b a); [|exact D6]. subst b. congruence.
  - intros b. rewrite KI, ST. auto.
  - intros g H. rewrite O. apply QU2 in H. auto.
  - intros g. rewrite O. auto.
  - intros g H. rewrite AT, PA. destruct (Nat.eqb_spec g c); [lia|auto].
  - intros d. rewrite K, Z. auto.
Qed.

Lemma handle_sys_inv s a m q : Inv s -> opn (nd s a) = true -> sysq (nd s a) = m :: q ->
  Inv (handle_sys s a m true) /\ sysq (nd (handle_sys s a m true) a) = sysq (nd s a) /\ sys_done (handle_sys s a m true) a m.
Proof.
  intros II Op Q. assert (I : In m (sysq (nd s a))) by (rewrite Q; now left).
  assert (At := has_sys s a m II Op I). assert (C := proj1 II). assert (Lt := open_in_range s a C Op).
  destruct m as [| | |c|c]; unfold handle_sys.
  - split; [now apply start_node_inv|]. unfold start_node, sys_done, set_nd; simpl. rewrite !upd_eq. simpl. auto.
  - destruct (is_nil (kids (nd s a))) eqn:N.
    + apply is_nil_spec in N. destruct (stop_node_inv s a II Op At) as (I1 & I2 & I3 & I4); [rewrite N; intros c []|].
      split; [exact I1|split; [exact I4|]]. left. exact I2.
    + assert (NK : kids (nd s a) <> []) by (intros X; rewrite X in N; discriminate).
      destruct (stopping_inv s a true _ II Op At NK eq_refl) as (I1 & I2 & I3 & I4). split; [exact I1|split; [exact I4|]]. right. auto.
  - destruct (is_nil (kids (nd s a))) eqn:N.
    + apply is_nil_spec in N. destruct (stop_node_inv s a II Op At) as (I1 & I2 & I3 & I4); [rewrite N; intros c []|].
      split; [exact I1|split; [exact I4|]]. intros ->. right. exact I2.
    + assert (NK : kids (nd s a) <> []) by (intros X; rewrite X in N; discriminate).
      destruct (stopping_inv s a false _ II Op At NK eq_refl) as (I1 & I2 & I3 & I4). split; [exact I1|split; [exact I4|]]. intros ->. left. auto.
  - apply (c_attq s C) in I. destruct I as [La Lc]. destruct (stopping (nd s a)) eqn:St.
    + destruct (att (nd s c)) eqn:Ac; [split; [exact II|split; [reflexivity|exact Logic.I]]|]. split; [apply destroy_inv; auto; lia|]. split; [|exact Logic.I].
      unfold destroy, set_nd; simpl. rewrite upd_neq by lia. reflexivity.
    + split; [apply attach_inv; auto; destruct At; [lia|auto]|]. split; [|exact Logic.I].
      unfold attach. destruct (att (nd s c) || gone (nd s c)); [reflexivity|].
      assert (X : forall t, sysq (nd (push_sys t c SStart) a) = sysq (nd t a)).
      { intros t. unfold push_sys. destruct (opn (nd t c)); [|reflexivity]. simpl. rewrite upd_neq by lia. reflexivity. }
      rewrite X. unfold set_kids, set_nd; simpl. rewrite upd_neq by lia. rewrite upd_eq. reflexivity.
  - apply (c_det s C) in I. destruct I as [_ Oc].
    destruct (remove_first_nodup c (kids (nd s a)) (c_nodup s C a)) as [_ NI].
    destruct (stopping (nd s a) && is_nil (remove_first c (kids (nd s a)))) eqn:N.
    + apply andb_true_iff in N. destruct N as [_ N]. apply is_nil_spec in N.
      destruct (stop_node_inv s a II Op At) as (I1 & I2 & I3 & I4).
      { intros d H. destruct (in_remove_first c _ d H) as [K| ->]; [rewrite N in K; destruct K|exact Oc]. }
      split; [exact I1|split; [exact I4|]]. unfold sys_done. rewrite I3. intros [].
    + split; [now apply set_kids_inv|split].
      * unfold set_kids, set_nd; simpl. rewrite upd_eq. reflexivity.
      * unfold sys_done, set_kids, set_nd; simpl. rewrite upd_eq. exact NI.
Qed.

Lemma push_sys_opn s a m b : opn (nd (push_sys s a m) b) = opn (nd s b).
Proof. destruct (push_sys_grows (fun _ _ => True) (fun _ _ => True) s a m I) as ((_ & X) & _). apply X. Qed.
Lemma push_sys_att s a m b : att (nd (push_sys s a m) b) = att (nd s b).
Proof. destruct (push_sys_grows (fun _ _ => True) (fun _ _ => True) s a m I) as ((_ & X) & _). apply X. Qed.
Lemma push_sys_keep s a m b x : In x (sysq (nd s b)) -> In x (sysq (nd (push_sys s a m) b)).
Proof. destruct (push_sys_grows (fun _ _ => True) (fun _ _ => True) s a m I) as (_ & _ & _ & X & _). apply X. Qed.
Lemma push_stop_doomed s a : doomed (push_sys s a SStop) a.
Proof.
  destruct (opn (nd s a)) eqn:O; [right; left; now apply push_sys_in|left; now rewrite push_sys_opn].
Qed.
Lemma push_sys_doomed s a m b : doomed s b -> doomed (push_sys s a m) b.
Proof. eapply grows_doomed. apply (push_sys_grows (fun _ _ => True) (fun _ _ => True)). exact I. Qed.
Lemma push_sys_flag s a m : flag (push_sys s a m) = flag s.
Proof. unfold push_sys. destruct (opn (nd s a)); reflexivity. Qed.

(* the root is told that guardian g has stopped: root.cpp:91-118 *)
Lemma uterm_inv s g : Inv s -> opn (nd s 0) = true -> In (UTerm g) (usrq (nd s 0)) ->
  Inv (handle_usr s 0 (UTerm g)) /\ flag (handle_usr s 0 (UTerm g)) g = true.
Proof.
  intros (C & [L1 L2 L3 L4 L5 L6 L7] & [A1 A2 A3 A4 A5 A6 A7 A8 A9]) Op HI.
  cbn [handle_usr]. rewrite Nat.eqb_refl. cbn [negb].
  set (s1 := State (size s) (nd s) (upd (flag s) g true) (requested s)).
  set (s' := if flag s1 1 && flag s1 2 then _ else _).
  assert (Fm : forall h, flag s h = true -> flag s1 h = true).
  { intros h H. simpl. unfold upd. destruct (h =? g); auto. }
  assert (Ff : forall h, flag s1 h = true -> h = g \/ flag s h = true).
  { intros h. simpl. unfold upd. destruct (Nat.eqb_spec h g); auto. }
  assert (Fc : forall h, flag s1 h = true -> 1 <= h <= 4 /\ opn (nd s h) = false).
  { intros h H. destruct (Ff h H) as [->|H']; auto. }
  assert (G : grows (inv_sys s1) (inv_usr s1) s1 s').
  { assert (G1 : forall t, grows (inv_sys s1) (inv_usr s1) t (push_sys t 1 SStop)).
    { intros t. apply push_sys_grows. split; [exact I|]. right. apply A8. lia. }
    assert (G2 : forall t, grows (inv_sys s1) (inv_usr s1) t (push_sys t 2 SStop)).
    { intros t. apply push_sys_grows. split; [exact I|]. right. apply A8. lia. }
    unfold s'. destruct (flag s1 1 && flag s1 2); [apply push_sys_grows; split; [exact I|now left]|].
    destruct (flag s1 3 && flag s1 4); [|apply grows_refl].
    destruct (flag s1 1), (flag s1 2); auto using grows_refl. eapply grows_trans; auto. }
  assert (X1 : flag s1 1 = true -> flag s1 2 = true -> In SStopAfter (sysq (nd s' 0))).
  { intros H1 H2. unfold s'. rewrite H1, H2. cbn [andb]. apply push_sys_in. exact Op. }
  assert (X2 : flag s1 3 = true -> flag s1 4 = true -> doomed s' 1 /\ doomed s' 2).
  { intros H3 H4. destruct (flag s1 1 && flag s1 2) eqn:E12.
    - apply andb_true_iff in E12. destruct E12 as [E1 E2]. split; (eapply grows_doomed; [exact G|]); left; apply Fc; assumption.
    - unfold s'. rewrite H3, H4. cbn [andb].
      assert (D1 : doomed (if flag s1 1 then s1 else push_sys s1 1 SStop) 1).
      { destruct (flag s1 1) eqn:E1; [left; now apply Fc|apply push_stop_doomed]. }
      destruct (flag s1 2) eqn:E2.
      + split; [exact D1|]. destruct (flag s1 1); [left; now apply Fc|]. apply push_sys_doomed. left. now apply Fc.
      + split; [now apply push_sys_doomed|apply push_stop_doomed]. }
  assert (D0 : forall b, doomed s b -> doomed s' b) by (intros b H; eapply grows_doomed; [exact G|exact H]).
  assert (C1 : Core s1) by (apply set_flag_core; exact C).
  assert (S1 : Safe s1) by (constructor; simpl; auto).
  assert (CC : Core s') by (eapply grows_core; [exact C1|]; eapply grows_weaken; [| |exact G]; intros ? ? H; apply H).
  assert (SS : Safe s').
  { eapply within_safe; [apply grows_within|apply G|exact S1]. eapply grows_weaken; [| |exact G]; intros ? ? H; apply H. }
  assert (GF := G). destruct GF as ((_ & SF) & F & R & G1 & G2 & _). clearbody s'.
  assert (O : forall b, opn (nd s' b) = opn (nd s b)) by (intros b; apply SF).
  split; [split; [exact CC|split; [|exact SS]]|].
  - constructor; rewrite ?F, ?R.
    + intros b d. destruct (SF b) as (_ & _ & _ & -> & _). rewrite O. intros H1 H2. apply G1. simpl. auto.
    + intros b. destruct (SF b) as (_ & -> & _ & _ & _ & _ & -> & _). rewrite O. intros H1 H2. destruct (L2 b H1 H2); [left; auto|right]. apply G1. auto.
    + intros b d. destruct (SF b) as (_ & _ & _ & -> & _ & -> & _). rewrite O. intros H1 H2 H3. apply D0. eapply L3; eassumption.
    + intros h. rewrite !O. intros H1 H2 H3. destruct (L4 h H1 H2 H3); [left; apply G2; auto|right; auto].
    + intros H1 H2 _. left. auto.
    + auto.
    + rewrite O. intros H1 H2. destruct (L7 H1 H2) as [H|[H H']]; [left; apply G2; auto|right; auto].
  - rewrite F. simpl. apply upd_eq.
Qed.

Lemma handle_usr_inv s a u q : Inv s -> opn (nd s a) = true -> started (nd s a) = true -> usrq (nd s a) = u :: q ->
  Inv (handle_usr s a u) /\ usrq (nd (handle_usr s a u) a) = usrq (nd s a) /\ usr_done (handle_usr s a u) a u.
Proof.
  intros II Op Sta Q. assert (HI : In u (usrq (nd s a))) by (rewrite Q; now left).
  assert (At := is_started s a II Op Sta). assert (C := proj1 II). assert (Sf := proj2 (proj2 II)).
  assert (DN : forall u, a <> 0 -> match u with UPoison => False | _ => True end -> handle_usr s a u = s /\ usr_done s a u).
  { intros w Na Nw. apply Nat.eqb_neq in Na. destruct w; simpl; rewrite ?Na; simpl; try contradiction; split; auto; try (intros ->; discriminate).
    destruct stop_user; auto. intros ->. discriminate. }
  destruct (Nat.eq_dec a 0) as [->|Na].
  - clear DN. destruct u as [|g c|b|g|].
    + simpl. split; [apply push_sys_inv; [exact II|split; [exact I|now left]]|]. rewrite push_sys_usrq. split; [reflexivity|].
      right. now apply push_sys_in.
    + cbn [handle_usr]. rewrite Nat.eqb_refl. cbn [negb]. apply (c_addq s C) in HI. destruct HI as [Hg Hc]. destruct (opn (nd s g)).
      * rewrite push_sys_usrq. split; [|split; [reflexivity|exact I]]. apply push_sys_inv; [exact II|]. split; simpl; [lia|]. right. now apply (s_gatt s Sf).
      * destruct (att (nd s c)) eqn:Ac; [split; [exact II|split; [reflexivity|exact I]]|]. split; [apply destroy_inv; auto; lia|]. split; [|exact I]. unfold destroy, set_nd; simpl. rewrite upd_neq by lia. reflexivity.
    + cbn [handle_usr]. rewrite Nat.eqb_refl. cbn [negb]. rewrite !push_sys_usrq. split; [|split; [reflexivity|]].
      * assert (HP : forall m, match m with SStop | SStopAfter => True | _ => False end -> Inv (push_sys (push_sys s 3 m) 4 m)).
        { intros m Hm. apply push_sys_inv; [apply push_sys_inv; [exact II|]|]; split; try (destruct m; simpl; auto; contradiction); right.
          - apply (s_gatt s Sf); lia.
          - rewrite push_sys_att. apply (s_gatt s Sf); lia. }
        destruct b; apply HP; exact I.
      * destruct b; [|exact I]. intros _. split; [apply push_sys_doomed|]; apply push_stop_doomed.
    + destruct (uterm_inv s g II Op HI) as [H1 H2]. split; [exact H1|]. split; [|intros _; exact H2].
      cbn [handle_usr]. rewrite Nat.eqb_refl. cbn [negb]. cbv zeta.
      destruct (_ && _); [now rewrite push_sys_usrq|]. destruct (_ && _); [|reflexivity].
      destruct (flag _ 1), (flag _ 2); rewrite ?push_sys_usrq; reflexivity.
    + split; [exact II|split; [reflexivity|exact I]].
  - destruct u as [|g c|b|g|]; try (match goal with |- Inv (handle_usr s a ?w) /\ _ => destruct (DN w Na I) as [E1 E2] end; rewrite E1; split; [exact II|]; split; [reflexivity|exact E2]).
    simpl. split; [apply push_sys_inv; [exact II|split; [exact I|exact At]]|]. rewrite push_sys_usrq. split; [reflexivity|]. right. now apply push_sys_in.
Qed.

Lemma new_actor_inv s : Inv s -> Inv (new_actor s).
Proof.
  intros (C & [L1 L2 L3 L4 L5 L6 L7] & [A1 A2 A3 A4 A5 A6 A7 A8 A9]). split; [now apply new_actor_core|].
  assert (Sz := c_size s C).
  assert (AB : nd s (size s) = absent) by (apply C; lia).
  assert (W : forall b, nd (new_actor s) b = if b =? size s then fresh else nd s b) by reflexivity.
  assert (DD : forall b, b <> size s -> doomed s b -> doomed (new_actor s) b).
  { intros b N. unfold doomed. rewrite W. apply Nat.eqb_neq in N. now rewrite N. }
  assert (DN : forall b, 1 <= b <= 4 -> b <> size s) by lia.
  assert (N0 : (0 =? size s) = false) by (apply Nat.eqb_neq; lia).
  assert (F : flag (new_actor s) = flag s) by reflexivity.
  assert (R : requested (new_actor s) = requested s) by reflexivity.
  assert (S' : size (new_actor s) = S (size s)) by reflexivity.
  set (s' := new_actor s) in *. clearbody s'.
  split; constructor; rewrite ?F, ?R, ?S'; rewrite ?(W 0), ?N0; auto.
  - intros b d. rewrite !W. destruct (Nat.eqb_spec b (size s)); [intros []|]. intros H. assert (X := c_kids s C b d H). destruct (Nat.eqb_spec d (size s)); [lia|auto].
  - intros b. rewrite W. destruct (Nat.eqb_spec b (size s)); [discriminate|auto].
  - intros b d. rewrite !W. destruct (Nat.eqb_spec b (size s)); [discriminate|]. intros H1 H2 H. assert (X := c_kids s C b d H). apply DD; [lia|eauto].
  - intros g H. rewrite W. destruct (Nat.eqb_spec g (size s)); [discriminate|auto].
  - intros H1 H2. destruct (L6 H1 H2). split; apply DD; auto; lia.
  - intros H1 H2. destruct (L7 H1 H2) as [?|[? ?]]; [auto|]. right. split; apply DD; auto; lia.
  - intros b. rewrite W. destruct (Nat.eqb_spec b (size s)); [discriminate|auto].
  - intros b. rewrite W. destruct (Nat.eqb_spec b (size s)); [discriminate|auto].
  - intros b H. rewrite W. destruct (Nat.eqb_spec b (size s)).
    + intros _. simpl. repeat split; auto.
    + apply A4. lia.
  - intros b. rewrite W. destruct (Nat.eqb_spec b (size s)); [discriminate|auto].
  - intros g H. apply A6 in H. rewrite W. destruct (Nat.eqb_spec g (size s)); [lia|auto].
  - intros g H. apply A7 in H. rewrite W. destruct (Nat.eqb_spec g (size s)); [lia|auto].
  - intros g H. rewrite W. destruct (Nat.eqb_spec g (size s)); [lia|auto].
Qed.

Lemma step_inv s x s' : Inv s -> well_behaved s x -> step s x = Some s' -> Inv s'.
Proof.
  intros II WB H. assert (C := proj1 II). assert (Sf := proj2 (proj2 II)). destruct x as [a ok|g|p|a|a k|b]; cbn [step] in H; cbv zeta in H; simpl in WB.
  - subst ok. destruct (opn (nd s a)) eqn:O; [|discriminate]. destruct (sysq (nd s a)) as [|m q] eqn:Q.
    + destruct (started (nd s a)) eqn:Sta; [|discriminate]. destruct (usrq (nd s a)) as [|u q] eqn:U; [discriminate|].
      injection H as <-. destruct (handle_usr_inv s a u q II O Sta U) as (I1 & I2 & I3). eapply pop_usr_inv; [exact I1|rewrite I2; exact U|exact I3].
    + injection H as <-. destruct (handle_sys_inv s a m q II O Q) as (I1 & I2 & I3). eapply pop_sys_inv; [exact I1|rewrite I2; exact Q|exact I3].
  - destruct (is_guard g) eqn:G; [|discriminate]. apply is_guard_spec in G. assert (N := new_actor_inv s II).
    assert (L := c_size s C). assert (S1 : size (new_actor s) = S (size s)) by reflexivity.
    destruct (opn (nd (new_actor s) 0)); injection H as <-.
    + apply push_usr_inv; [exact N|]. split; simpl; [lia|exact I].
    + apply destroy_inv; [exact N|lia| |lia]. unfold new_actor; simpl. now rewrite upd_eq.
  - destruct ((5 <=? p) && opn (nd s p) && started (nd s p)) eqn:G; [|discriminate]. rewrite !andb_true_iff, Nat.leb_le in G.
    destruct G as [[G1 G2] G3]. assert (L := open_in_range s p C G2). injection H as <-.
    apply push_sys_inv; [now apply new_actor_inv|]. split; [simpl; lia|]. unfold safe_sys, new_actor; simpl. rewrite upd_neq by lia. now apply is_started.
  - injection H as <-. apply push_sys_inv; [exact II|]. split; [exact I|exact WB].
  - injection H as <-. apply push_usr_inv; [exact II|]. destruct k; split; exact I.
  - injection H as <-. set (s1 := push_usr s 0 (URootTerm b)).
    assert (I1 : Inv s1) by (apply push_usr_inv; [exact II|split; exact I]).
    assert (IN : b = true -> opn (nd s 0) = true -> In (URootTerm true) (usrq (nd s1 0))) by (intros -> O; now apply push_usr_in).
    assert (O : opn (nd s1 0) = opn (nd s 0)).
    { destruct (push_usr_grows (fun _ _ => True) (fun _ _ => True) s 0 (URootTerm b) I) as ((_ & X) & _). apply X. }
    clearbody s1. destruct I1 as (C1 & [L1 L2 L3 L4 L5 L6 L7] & [A1 A2 A3 A4 A5 A6 A7 A8 A9]).
    split; [now apply set_flag_core|]. split; constructor; simpl; auto.
    intros H1 H2. apply orb_true_iff in H1. destruct H1 as [H1|H1]; [apply L7; auto|]. left. apply IN; [exact H1|congruence].
Qed.

Lemma init_inv : Inv init.
Proof.
  split; [apply init_core|]. split; constructor.
  - intros a c H. destruct a as [|[|[|[|[|a]]]]]; noin H; subst; discriminate.
  - intros a H _. destruct a as [|[|[|[|[|a]]]]]; try discriminate; right; now left.
  - intros a c H. destruct a as [|[|[|[|[|a]]]]]; discriminate.
  - intros g H. destruct g as [|[|[|[|[|a]]]]]; try discriminate; lia.
  - discriminate.
  - discriminate.
  - discriminate.
  - intros a H. destruct a as [|[|[|[|[|a]]]]]; try discriminate; reflexivity.
  - intros a H. destruct a as [|[|[|[|[|a]]]]]; discriminate.
  - reflexivity.
  - intros a H H'. destruct a as [|[|[|[|[|a]]]]]; try discriminate; simpl in H; lia.
  - intros a H. destruct a as [|[|[|[|[|a]]]]]; discriminate.
  - intros g H. destruct H.
  - discriminate.
  - intros g H. destruct g as [|[|[|[|[|a]]]]]; try lia; auto.
  - intros c H. noin H; lia.
Qed.
Lemma run_inv xs : forall s s', Inv s -> well_behaved_run s xs -> run s xs = Some s' -> Inv s'.
Proof.
  induction xs as [|x xs IH]; intros s s' C W H; simpl in *; [injection H as <-; exact C|].
  destruct W as [W1 W2]. destruct (step s x) as [s1|] eqn:E; [|discriminate]. eapply IH; [|exact W2|exact H]. eapply step_inv; eassumption.
Qed.
Lemma well_reachable_inv s : well_reachable s -> Inv s.
Proof. intros [xs [W H]]. eapply run_inv; [apply init_inv|exact W|exact H]. Qed.
