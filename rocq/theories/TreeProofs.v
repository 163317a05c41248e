(* Proofs about TreeModel. *)
From Coq Require Import List Bool Arith Lia Permutation.
From Verif Require Import TreeModel.
Import ListNotations.

Lemma upd_eq {B} (f : nat -> B) a v : upd f a v a = v.
Proof. unfold upd. now rewrite Nat.eqb_refl. Qed.
Lemma upd_neq {B} (f : nat -> B) a v b : b <> a -> upd f a v b = f b.
Proof. unfold upd. intros H. apply Nat.eqb_neq in H. now rewrite H. Qed.

Lemma is_guard_spec g : is_guard g = true <-> 1 <= g <= 4.
Proof. unfold is_guard. rewrite andb_true_iff, !Nat.leb_le. tauto. Qed.

(* the fields of s' that are those of s *)
Definition same_core (s s' : state) :=
  size s' = size s /\ forall b, par (nd s' b) = par (nd s b) /\ att (nd s' b) = att (nd s b) /\ gone (nd s' b) = gone (nd s b) /\
    kids (nd s' b) = kids (nd s b) /\ stopping (nd s' b) = stopping (nd s b) /\ killing (nd s' b) = killing (nd s b) /\
    started (nd s' b) = started (nd s b) /\ opn (nd s' b) = opn (nd s b) /\ stopped (nd s' b) = stopped (nd s b).
Lemma same_core_refl s : same_core s s.
Proof. split; [reflexivity|]. intros b. repeat split. Qed.
Lemma same_core_trans s1 s2 s3 : same_core s1 s2 -> same_core s2 s3 -> same_core s1 s3.
Proof.
  intros [A B] [C D]. split; [congruence|]. intros b. specialize (B b). specialize (D b).
  repeat match goal with H : _ /\ _ |- _ => destruct H end. repeat split; congruence.
Qed.

(* pushes: queues only grow, by messages P (system) and Q (user) *)
Definition grows (P : nat -> smsg -> Prop) (Q : nat -> umsg -> Prop) (s s' : state) :=
  same_core s s' /\ flag s' = flag s /\ requested s' = requested s /\
  (forall b m, In m (sysq (nd s b)) -> In m (sysq (nd s' b))) /\
  (forall b m, In m (usrq (nd s b)) -> In m (usrq (nd s' b))) /\
  (forall b m, In m (sysq (nd s' b)) -> In m (sysq (nd s b)) \/ (P b m /\ opn (nd s b) = true)) /\
  (forall b m, In m (usrq (nd s' b)) -> In m (usrq (nd s b)) \/ (Q b m /\ opn (nd s b) = true)).
Lemma grows_trans P Q s1 s2 s3 : grows P Q s1 s2 -> grows P Q s2 s3 -> grows P Q s1 s3.
Proof.
  intros (A & A1 & A2 & A3 & A4 & A5 & A6) (B & B1 & B2 & B3 & B4 & B5 & B6).
  split; [eapply same_core_trans; eassumption|]. split; [congruence|]. split; [congruence|].
  split; [auto|]. split; [auto|].
  assert (O : forall b, opn (nd s2 b) = opn (nd s1 b)) by (intros; apply A).
  split; intros b m H.
  - apply B5 in H. destruct H as [H|[H1 H2]]; [apply A5, H|]. rewrite O in H2. auto.
  - apply B6 in H. destruct H as [H|[H1 H2]]; [apply A6, H|]. rewrite O in H2. auto.
Qed.
Lemma grows_refl P Q s : grows P Q s s.
Proof. split; [apply same_core_refl|]. repeat split; auto. Qed.
Lemma push_sys_grows (P : nat -> smsg -> Prop) Q s a m : P a m -> grows P Q s (push_sys s a m).
Proof.
  intros HP. unfold push_sys. destruct (opn (nd s a)) eqn:O; [|apply grows_refl].
  unfold grows, same_core; simpl. repeat split; intros; unfold upd in *; destruct (Nat.eqb_spec b a); subst; simpl in *; auto.
  - apply in_or_app; auto.
  - apply in_app_or in H. destruct H as [H|[H|[]]]; subst; auto.
Qed.
Lemma push_usr_grows P (Q : nat -> umsg -> Prop) s a m : Q a m -> grows P Q s (push_usr s a m).
Proof.
  intros HP. unfold push_usr. destruct (opn (nd s a)) eqn:O; [|apply grows_refl].
  unfold grows, same_core; simpl. repeat split; intros; unfold upd in *; destruct (Nat.eqb_spec b a); subst; simpl in *; auto.
  - apply in_or_app; auto.
  - apply in_app_or in H. destruct H as [H|[H|[]]]; subst; auto.
Qed.
Lemma push_sys_in s a m : opn (nd s a) = true -> In m (sysq (nd (push_sys s a m) a)).
Proof. intros O. unfold push_sys. rewrite O. simpl. rewrite upd_eq. simpl. apply in_or_app. right. now left. Qed.
Lemma push_usr_in s a m : opn (nd s a) = true -> In m (usrq (nd (push_usr s a m) a)).
Proof. intros O. unfold push_usr. rewrite O. simpl. rewrite upd_eq. simpl. apply in_or_app. right. now left. Qed.
Lemma poison_grows (P : nat -> smsg -> Prop) (Q : nat -> umsg -> Prop) l : forall s, (forall c, Q c UPoison) ->
  grows P Q s (fold_left (fun s c => push_usr s c UPoison) l s).
Proof.
  induction l as [|c l IH]; intros s HQ; simpl; [apply grows_refl|].
  eapply grows_trans; [apply push_usr_grows, HQ|apply IH, HQ].
Qed.
Lemma poison_in l : forall s c, In c l -> opn (nd s c) = true ->
  In UPoison (usrq (nd (fold_left (fun s c => push_usr s c UPoison) l s) c)).
Proof.
  induction l as [|d l IH]; intros s c H O; simpl in *; [destruct H|]. destruct H as [->|H].
  - destruct (poison_grows (fun _ _ => True) (fun _ _ => True) l (push_usr s c UPoison) (fun _ => I)) as (_ & _ & _ & _ & G & _).
    apply G. now apply push_usr_in.
  - apply IH; [exact H|]. destruct (push_usr_grows (fun _ _ => True) (fun _ _ => True) s d UPoison I) as ((_ & K) & _).
    destruct (K c) as (_ & _ & _ & _ & _ & _ & _ & -> & _). exact O.
Qed.

(* ---- what holds in every execution ---- *)
Record Core (s : state) : Prop := {
  c_size : 5 <= size s;
  c_abs : forall a, size s <= a -> nd s a = absent;
  c_kids : forall a c, In c (kids (nd s a)) -> a < c < size s /\ att (nd s c) = true /\ par (nd s c) = a;
  c_nodup : forall a, NoDup (kids (nd s a));
  c_att : forall c, att (nd s c) = true -> par (nd s c) < c /\ (In c (kids (nd s (par (nd s c)))) \/ opn (nd s c) = false);
  c_det : forall a c, In (SDetach c) (sysq (nd s a)) -> c < size s /\ opn (nd s c) = false;
  c_stopped : forall a, stopped (nd s a) = true -> opn (nd s a) = false /\ kids (nd s a) = [];
  c_attq : forall a c, In (SAttach c) (sysq (nd s a)) -> 1 <= a /\ a < c < size s;
  c_addq : forall a g c, In (UAdd g c) (usrq (nd s a)) -> 1 <= g <= 4 /\ 5 <= c < size s
}.

Definition core_sys (s : state) (a : nat) (m : smsg) : Prop :=
  match m with SDetach c => c < size s /\ opn (nd s c) = false | SAttach c => 1 <= a /\ a < c < size s | _ => True end.
Definition core_usr (s : state) (a : nat) (u : umsg) : Prop :=
  match u with UAdd g c => 1 <= g <= 4 /\ 5 <= c < size s | _ => True end.

Lemma same_core_fields s s' : same_core s s' -> forall b, 
  att (nd s' b) = att (nd s b) /\ kids (nd s' b) = kids (nd s b) /\ opn (nd s' b) = opn (nd s b) /\ par (nd s' b) = par (nd s b).
Proof. intros [_ H] b. specialize (H b). tauto. Qed.

Lemma absent_ext s s' a : same_core s s' -> nd s a = absent ->
  sysq (nd s' a) = [] -> usrq (nd s' a) = [] -> nd s' a = absent.
Proof.
  intros [_ H] E A B. specialize (H a). destruct (nd s' a) as []; simpl in *. rewrite E in H; simpl in H.
  repeat match goal with K : _ /\ _ |- _ => destruct K end. subst. reflexivity.
Qed.

(* only this half of grows is needed for Core *)
Definition within (P : nat -> smsg -> Prop) (Q : nat -> umsg -> Prop) (s s' : state) :=
  same_core s s' /\
  (forall b m, In m (sysq (nd s' b)) -> In m (sysq (nd s b)) \/ (P b m /\ opn (nd s b) = true)) /\
  (forall b m, In m (usrq (nd s' b)) -> In m (usrq (nd s b)) \/ (Q b m /\ opn (nd s b) = true)).
Lemma grows_within P Q s s' : grows P Q s s' -> within P Q s s'.
Proof. intros (S & F & R & G1 & G2 & G3 & G4). repeat split; auto; apply S. Qed.

Lemma within_core s s' : Core s -> within (core_sys s) (core_usr s) s s' -> Core s'.
Proof.
  intros [C1 C2 C3 C4 C5 C6 C7 C8 C9] (S & G3 & G4). assert (S' := S). destruct S' as [Sz SF].
  assert (SC := same_core_fields s s' S).
  constructor.
  - now rewrite Sz.
  - intros a H. rewrite Sz in H. assert (E := C2 a H). apply (absent_ext s s' a S E).
    + destruct (sysq (nd s' a)) as [|m t] eqn:Q; [reflexivity|]. destruct (G3 a m) as [K|[_ K]]; [rewrite Q; now left| |]; rewrite E in K; [destruct K|discriminate].
    + destruct (usrq (nd s' a)) as [|m t] eqn:Q; [reflexivity|]. destruct (G4 a m) as [K|[_ K]]; [rewrite Q; now left| |]; rewrite E in K; [destruct K|discriminate].
  - intros a c H. destruct (SC a) as (_ & K & _). rewrite K in H. destruct (SC c) as (-> & _ & _ & ->). rewrite Sz. now apply C3.
  - intros a. destruct (SC a) as (_ & -> & _). apply C4.
  - intros c H. destruct (SC c) as (A1 & A2 & A3 & A4). rewrite A1 in H. rewrite A3, A4. destruct (SC (par (nd s c))) as (_ & -> & _). now apply C5.
  - intros a c H. rewrite Sz. destruct (SC c) as (_ & _ & -> & _). apply G3 in H. destruct H as [H|[H _]]; [eapply C6, H|exact H].
  - intros a H. destruct (SF a) as (_ & _ & _ & K & _ & _ & _ & O & St). rewrite O, K. rewrite St in H. now apply C7.
  - intros a c H. rewrite Sz. apply G3 in H. destruct H as [H|[H _]]; [now apply C8|exact H].
  - intros a g c H. rewrite Sz. apply G4 in H. destruct H as [H|[H _]]; [now apply C9 in H|exact H].
Qed.

Lemma grows_core s s' : Core s -> grows (core_sys s) (core_usr s) s s' -> Core s'.
Proof. intros C G. eapply within_core; [exact C|]. now apply grows_within. Qed.

Lemma tl_in {B} (l : list B) m : In m (tl l) -> In m l.
Proof. destruct l; [intros []|now right]. Qed.
Lemma pop_sys_within s a P Q : within P Q s (pop_sys s a).
Proof.
  unfold pop_sys, within, same_core; simpl.
  repeat split; intros; unfold upd in *; destruct (Nat.eqb_spec b a); subst; simpl in *; auto using tl_in.
Qed.
Lemma pop_usr_within s a P Q : within P Q s (pop_usr s a).
Proof.
  unfold pop_usr, within, same_core; simpl.
  repeat split; intros; unfold upd in *; destruct (Nat.eqb_spec b a); subst; simpl in *; auto using tl_in.
Qed.
Lemma pop_sys_core s a : Core s -> Core (pop_sys s a).
Proof. intros C. eapply within_core; [exact C|apply pop_sys_within]. Qed.
Lemma pop_usr_core s a : Core s -> Core (pop_usr s a).
Proof. intros C. eapply within_core; [exact C|apply pop_usr_within]. Qed.

Lemma set_nd_core s a v' : Core s -> a < size s ->
  par v' = par (nd s a) -> att v' = att (nd s a) -> sysq v' = sysq (nd s a) -> usrq v' = usrq (nd s a) ->
  (opn v' = true -> opn (nd s a) = true) ->
  (forall c, In c (kids v') -> In c (kids (nd s a))) -> NoDup (kids v') ->
  (forall c, In c (kids (nd s a)) -> In c (kids v') \/ opn (nd s c) = false) ->
  (stopped v' = true -> opn v' = false /\ kids v' = []) ->
  Core (set_nd s a v').
Proof.
  intros [C1 C2 C3 C4 C5 C6 C7 C8 C9] L E1 E2 E3 E4 O K1 K2 K3 St.
  assert (OO : forall c, opn (nd s c) = false -> opn (upd (nd s) a v' c) = false).
  { intros c H. unfold upd. destruct (Nat.eqb_spec c a); [subst|exact H]. destruct (opn v'); [|reflexivity]. rewrite O in H; congruence. }
  assert (AA : forall c, att (upd (nd s) a v' c) = att (nd s c) /\ par (upd (nd s) a v' c) = par (nd s c)
     /\ sysq (upd (nd s) a v' c) = sysq (nd s c) /\ usrq (upd (nd s) a v' c) = usrq (nd s c)).
  { intros c. unfold upd. destruct (Nat.eqb_spec c a); subst; auto. }
  constructor; simpl; auto.
  - intros b H. rewrite upd_neq by lia. auto.
  - intros b c H. destruct (AA c) as (-> & -> & _). apply C3. unfold upd in H. destruct (Nat.eqb_spec b a); subst; auto.
  - intros b. unfold upd. destruct (Nat.eqb_spec b a); auto.
  - intros c H. destruct (AA c) as (A1 & A2 & _). rewrite A1 in H. rewrite A2. destruct (C5 c H) as [P [I|I]]; split; auto.
    unfold upd at 1. destruct (Nat.eqb_spec (par (nd s c)) a) as [e|e]; [|auto]. rewrite e in I. destruct (K3 c I); auto.
  - intros b c H. destruct (AA b) as (_ & _ & -> & _) in H. apply C6 in H. destruct H. auto.
  - intros b H. unfold upd in *. destruct (Nat.eqb_spec b a); auto.
  - intros b c H. destruct (AA b) as (_ & _ & -> & _) in H. now apply C8.
  - intros b g c H. destruct (AA b) as (_ & _ & _ & ->) in H. eapply C9, H.
Qed.

Lemma set_stopping_core s a k : Core s -> a < size s -> Core (set_stopping s a k).
Proof. intros C L. unfold set_stopping. apply set_nd_core; simpl; auto. apply C. intros H. now apply C. Qed.
Lemma start_node_core s a ok : Core s -> a < size s -> Core (start_node s a ok).
Proof.
  intros C L. unfold start_node. apply set_nd_core; simpl; auto.
  - destruct ok; [auto|discriminate].
  - apply C.
  - intros H. apply C in H. destruct H as [H ->]. rewrite H. destruct ok; auto.
Qed.
Lemma destroy_core s a : Core s -> a < size s -> Core (destroy s a).
Proof.
  intros C L. unfold destroy. apply set_nd_core; simpl; auto; try discriminate.
  - apply C.
  - intros H. apply C in H. tauto.
Qed.
Lemma remove_first_in x l c : In c (remove_first x l) -> In c l.
Proof. induction l as [|y l IH]; simpl; [auto|]. destruct (y =? x); [auto|]. intros [->|H]; auto. Qed.
Lemma in_remove_first x l c : In c l -> In c (remove_first x l) \/ c = x.
Proof.
  induction l as [|y l IH]; simpl; [tauto|]. destruct (Nat.eqb_spec y x); intros [->|H]; simpl; auto. destruct (IH H); auto.
Qed.
Lemma remove_first_nodup x l : NoDup l -> NoDup (remove_first x l) /\ ~ In x (remove_first x l).
Proof.
  induction 1 as [|y l N H IH]; simpl; [split; [constructor|tauto]|]. destruct (Nat.eqb_spec y x); subst; [auto|]. destruct IH as [I1 I2]. split.
  - constructor; [|exact I1]. intros K. apply N. eapply remove_first_in, K.
  - simpl. tauto.
Qed.
Lemma is_nil_spec {B} (l : list B) : is_nil l = true <-> l = [].
Proof. destruct l; simpl; split; congruence. Qed.

Lemma set_kids_core s a c : Core s -> a < size s -> opn (nd s c) = false -> Core (set_kids s a (remove_first c (kids (nd s a)))).
Proof.
  intros C L O. unfold set_kids. apply set_nd_core; simpl; auto.
  - intros d. apply remove_first_in.
  - apply remove_first_nodup, C.
  - intros d H. destruct (in_remove_first c _ d H); subst; auto.
  - intros H. apply C in H. destruct H as [H ->]. auto.
Qed.

Lemma stop_node_core s a : Core s -> a < size s -> (forall c, In c (kids (nd s a)) -> opn (nd s c) = false) -> Core (stop_node s a).
Proof.
  intros C L K. unfold stop_node. set (v := nd s a) in *.
  match goal with |- context[set_nd s a ?n] => set (v' := n) end.
  assert (C1 : Core (set_nd s a v')).
  { apply set_nd_core; simpl; auto; try discriminate; try tauto. constructor. }
  set (s1 := set_nd s a v') in *.
  set (s2 := if is_guard a then push_usr s1 0 (UTerm a) else s1).
  assert (O2 : opn (nd s2 a) = false /\ Core s2).
  { unfold s2. destruct (is_guard a).
    - assert (G : grows (core_sys s1) (core_usr s1) s1 (push_usr s1 0 (UTerm a))) by (apply push_usr_grows; exact I). split.
      + destruct G as ((_ & G) & _). destruct (G a) as (_ & _ & _ & _ & _ & _ & _ & -> & _). unfold s1. simpl. now rewrite upd_eq.
      + eapply grows_core; eassumption.
    - split; [|exact C1]. unfold s1. simpl. now rewrite upd_eq. }
  destruct O2 as [O2 C2]. destruct (att v); [|exact C2].
  eapply grows_core; [exact C2|]. apply push_sys_grows. split; [|exact O2].
  replace (size s2) with (size s); [exact L|]. unfold s2. destruct (is_guard a); [|reflexivity]. unfold push_usr. destruct (opn (nd s1 0)); reflexivity.
Qed.

Lemma NoDup_app_comm_nat (l1 l2 : list nat) : NoDup (l2 ++ l1) -> NoDup (l1 ++ l2).
Proof.
  intros H. eapply Permutation_NoDup; [apply Permutation_app_comm|exact H].
Qed.
Lemma attach_core s a c : Core s -> a < size s -> 1 <= a -> a < c < size s -> opn (nd s a) = true -> Core (attach s a c).
Proof.
  intros C L La Lc Oa. unfold attach. destruct (att (nd s c) || gone (nd s c)) eqn:A; [exact C|].
  apply orb_false_iff in A. destruct A as [A G].
  match goal with |- Core (push_sys ?x _ _) => set (s2 := x) end.
  assert (C2 : Core s2).
  { assert (C0 := C). destruct C as [C1 C2 C3 C4 C5 C6 C7 C8 C9].
    assert (NK : forall b, ~ In c (kids (nd s b))) by (intros b H; apply C3 in H; destruct H as (_ & H & _); congruence).
    assert (F : forall b, opn (nd s2 b) = opn (nd s b) /\ stopped (nd s2 b) = stopped (nd s b) /\ sysq (nd s2 b) = sysq (nd s b) /\ usrq (nd s2 b) = usrq (nd s b)
       /\ kids (nd s2 b) = (if b =? a then kids (nd s a) ++ [c] else kids (nd s b))
       /\ att (nd s2 b) = (if b =? c then true else att (nd s b)) /\ par (nd s2 b) = (if b =? c then a else par (nd s b))).
    { intros b. unfold s2, set_kids, set_nd; simpl. unfold upd. destruct (Nat.eqb_spec b c), (Nat.eqb_spec b a), (Nat.eqb_spec c a); subst; simpl; try lia; repeat split; reflexivity. }
    constructor.
    - exact C1.
    - intros b H. change (size s <= b) in H. unfold s2, set_kids, set_nd; simpl. rewrite !upd_neq by lia. auto.
    - intros b d H. change (size s2) with (size s). destruct (F d) as (_ & _ & _ & _ & _ & -> & ->). destruct (F b) as (_ & _ & _ & _ & K & _). rewrite K in H.
      destruct (Nat.eqb_spec b a).
      + subst b. apply in_app_or in H. destruct H as [H|[<-|[]]].
        * assert (d <> c) by (intros ->; now apply NK in H). destruct (Nat.eqb_spec d c); [lia|]. now apply C3.
        * rewrite Nat.eqb_refl. auto.
      + assert (d <> c) by (intros ->; now apply NK in H). destruct (Nat.eqb_spec d c); [lia|]. now apply C3.
    - intros b. destruct (F b) as (_ & _ & _ & _ & -> & _). destruct (Nat.eqb_spec b a); [|auto].
      apply NoDup_app_comm_nat.
      constructor; [|apply C4]. apply NK.
    - intros d H. destruct (F d) as (O & _ & _ & _ & _ & At & Pa). rewrite At in H. rewrite Pa, O.
      destruct (Nat.eqb_spec d c).
      + subst d. destruct (F a) as (_ & _ & _ & _ & K & _). rewrite K, Nat.eqb_refl. split; [lia|]. left. apply in_or_app. right. now left.
      + destruct (C5 d H) as [P [I|I]]; split; auto. left. destruct (F (par (nd s d))) as (_ & _ & _ & _ & -> & _).
        destruct (Nat.eqb_spec (par (nd s d)) a) as [e|e]; [|exact I]. rewrite e in I. apply in_or_app. now left.
    - intros b d H. destruct (F d) as (-> & _). destruct (F b) as (_ & _ & Q & _). rewrite Q in H. apply C6 in H. exact H.
    - intros b H. destruct (F b) as (-> & St & _ & _ & -> & _). rewrite St in H. apply C7 in H. destruct H as [H1 H2].
      destruct (Nat.eqb_spec b a); [subst; congruence|auto].
    - intros b d H. destruct (F b) as (_ & _ & Q & _). rewrite Q in H. now apply C8.
    - intros b g d H. destruct (F b) as (_ & _ & _ & Q & _). rewrite Q in H. now apply C9 in H. }
  eapply grows_core; [exact C2|]. apply push_sys_grows. exact I.
Qed.

Lemma open_in_range s a : Core s -> opn (nd s a) = true -> a < size s.
Proof.
  intros C O. destruct (Nat.lt_ge_cases a (size s)) as [H|H]; [exact H|]. rewrite (c_abs s C a H) in O. discriminate.
Qed.

Lemma handle_sys_core s a m q ok : Core s -> opn (nd s a) = true -> sysq (nd s a) = m :: q -> Core (handle_sys s a m ok).
Proof.
  intros C O Q. assert (L := open_in_range s a C O). assert (I : In m (sysq (nd s a))) by (rewrite Q; now left).
  destruct m as [| | |c|c]; simpl.
  - now apply start_node_core.
  - destruct (is_nil (kids (nd s a))) eqn:N.
    + apply is_nil_spec in N. apply stop_node_core; auto. rewrite N. intros c [].
    + eapply grows_core; [|apply poison_grows; intros; exact Logic.I]. now apply set_stopping_core.
  - destruct (is_nil (kids (nd s a))) eqn:N; [|now apply set_stopping_core].
    apply is_nil_spec in N. apply stop_node_core; auto. rewrite N. intros c [].
  - apply (c_attq s C) in I. destruct (stopping (nd s a)).
    + destruct (att (nd s c)); [exact C|]. apply destroy_core; [exact C|lia].
    + apply attach_core; auto; lia.
  - apply (c_det s C) in I. destruct I as [_ I]. destruct (stopping (nd s a) && is_nil (remove_first c (kids (nd s a)))) eqn:N.
    + apply andb_true_iff in N. destruct N as [_ N]. apply is_nil_spec in N. apply stop_node_core; auto.
      intros d H. destruct (in_remove_first c _ d H) as [K| ->]; [rewrite N in K; destruct K|exact I].
    + now apply set_kids_core.
Qed.

Lemma set_flag_core s f r : Core s -> Core (State (size s) (nd s) f r).
Proof. intros [C1 C2 C3 C4 C5 C6 C7 C8 C9]. constructor; assumption. Qed.

Lemma push_sys_core s a m : Core s -> core_sys s a m -> Core (push_sys s a m).
Proof. intros C H. eapply grows_core; [exact C|]. now apply push_sys_grows. Qed.
Lemma push_usr_core s a m : Core s -> core_usr s a m -> Core (push_usr s a m).
Proof. intros C H. eapply grows_core; [exact C|]. now apply push_usr_grows. Qed.

Lemma handle_usr_core s a u q : Core s -> opn (nd s a) = true -> usrq (nd s a) = u :: q -> Core (handle_usr s a u).
Proof.
  intros C O Q. assert (L := open_in_range s a C O). assert (I : In u (usrq (nd s a))) by (rewrite Q; now left).
  destruct u as [|g c|b|g|]; simpl; [|destruct (negb (a =? 0)); [exact C|]..|exact C].
  - apply push_sys_core; [exact C|exact Logic.I].
  - apply (c_addq s C) in I. destruct (opn (nd s g)).
    + apply push_sys_core; [exact C|simpl; lia].
    + destruct (att (nd s c)); [exact C|]. apply destroy_core; [exact C|lia].
  - apply push_sys_core; [|destruct b; exact Logic.I]. apply push_sys_core; [exact C|destruct b; exact Logic.I].
  - match goal with |- context[State ?x ?y ?z ?t] => set (s1 := State x y z t) end.
    assert (C1 : Core s1) by now apply set_flag_core.
    destruct (upd (flag s) g true 1 && upd (flag s) g true 2); [apply push_sys_core; [exact C1|exact Logic.I]|].
    destruct (upd (flag s) g true 3 && upd (flag s) g true 4); [|exact C1].
    destruct (upd (flag s) g true 1), (upd (flag s) g true 2); auto; repeat apply push_sys_core; auto; exact Logic.I.
Qed.

Lemma new_actor_core s : Core s -> Core (new_actor s).
Proof.
  intros [C1 C2 C3 C4 C5 C6 C7 C8 C9]. unfold new_actor.
  assert (K : forall b, size s = b -> nd s b = absent) by (intros; apply C2; lia).
  constructor; simpl.
  - lia.
  - intros b H. rewrite upd_neq by lia. apply C2. lia.
  - intros b c H. unfold upd in H. destruct (Nat.eqb_spec b (size s)); [destruct H|]. apply C3 in H. rewrite upd_neq by lia. intuition lia.
  - intros b. unfold upd. destruct (Nat.eqb_spec b (size s)); [constructor|auto].
  - intros c H. unfold upd in H. destruct (Nat.eqb_spec c (size s)) as [e|e]; [discriminate|]. rewrite !(upd_neq _ _ _ _ e).
    destruct (C5 c H) as [P [I|I]]; split; auto. left. destruct (C3 _ _ I) as [? _]. rewrite upd_neq by lia. exact I.
  - intros b c H. unfold upd in H. destruct (Nat.eqb_spec b (size s)); [destruct H|]. apply C6 in H. rewrite upd_neq by lia. intuition lia.
  - intros b H. unfold upd in *. destruct (Nat.eqb_spec b (size s)); [discriminate|auto].
  - intros b c H. unfold upd in H. destruct (Nat.eqb_spec b (size s)); [destruct H|]. apply C8 in H. lia.
  - intros b g c H. unfold upd in H. destruct (Nat.eqb_spec b (size s)); [destruct H|]. apply C9 in H. lia.
Qed.

Lemma step_core s x s' : Core s -> step s x = Some s' -> Core s'.
Proof.
  intros C H. destruct x as [a ok|g|p|a|a k|b]; cbn [step] in H; cbv zeta in H.
  - destruct (opn (nd s a)) eqn:O; [|discriminate]. destruct (sysq (nd s a)) as [|m q] eqn:Q.
    + destruct (started (nd s a)); [|discriminate]. destruct (usrq (nd s a)) as [|u q] eqn:U; [discriminate|].
      injection H as <-. apply pop_usr_core. eapply handle_usr_core; eassumption.
    + injection H as <-. apply pop_sys_core. eapply handle_sys_core; eassumption.
  - destruct (is_guard g) eqn:G; [|discriminate]. apply is_guard_spec in G. assert (N := new_actor_core s C).
    assert (L := c_size s C). assert (S1 : size (new_actor s) = S (size s)) by reflexivity.
    destruct (opn (nd (new_actor s) 0)); injection H as <-.
    + apply push_usr_core; [exact N|]. simpl. lia.
    + apply destroy_core; [exact N|]. lia.
  - destruct ((5 <=? p) && opn (nd s p) && started (nd s p)) eqn:G; [|discriminate]. rewrite !andb_true_iff, Nat.leb_le in G.
    destruct G as [[G1 G2] G3]. assert (L := open_in_range s p C G2). injection H as <-.
    apply push_sys_core; [now apply new_actor_core|]. simpl. lia.
  - injection H as <-. apply push_sys_core; [exact C|exact I].
  - injection H as <-. apply push_usr_core; [exact C|]. destruct k; exact I.
  - injection H as <-. apply set_flag_core. apply push_usr_core; [exact C|exact I].
Qed.

Ltac noin H := simpl in H; repeat (destruct H as [H|H]; try discriminate H); try contradiction H.
Lemma init_core : Core init.
Proof.
  constructor.
  - simpl. lia.
  - intros a H. destruct a as [|[|[|[|[|a]]]]]; simpl in H; try lia. reflexivity.
  - intros a c H. destruct a as [|[|[|[|[|a]]]]]; noin H; subst; simpl; repeat split; lia.
  - intros a. destruct a as [|[|[|[|[|a]]]]]; simpl; repeat constructor; simpl; lia.
  - intros c H. destruct c as [|[|[|[|[|c]]]]]; simpl in *; try discriminate; (split; [lia|auto 6]).
  - intros a c H. destruct a as [|[|[|[|[|a]]]]]; noin H.
  - intros a H. destruct a as [|[|[|[|[|a]]]]]; discriminate.
  - intros a c H. destruct a as [|[|[|[|[|a]]]]]; noin H.
  - intros a g c H. destruct a as [|[|[|[|[|a]]]]]; noin H.
Qed.

Lemma run_core xs : forall s s', Core s -> run s xs = Some s' -> Core s'.
Proof.
  induction xs as [|x xs IH]; intros s s' C H; simpl in H; [injection H as <-; exact C|].
  destruct (step s x) as [s1|] eqn:E; [|discriminate]. eapply IH; [|exact H]. eapply step_core; eassumption.
Qed.
Lemma reachable_core s : reachable s -> Core s.
Proof. intros [xs H]. eapply run_core; [apply init_core|exact H]. Qed.

Lemma parents_stop_last s p c : reachable s -> stopped (nd s p) = true -> att (nd s c) = true -> par (nd s c) = p ->
  opn (nd s c) = false.
Proof.
  intros R St A P. apply reachable_core in R. destruct (c_att s R c A) as [_ [I|I]]; [|exact I].
  rewrite P in I. apply (c_stopped s R) in St. destruct St as [_ St]. rewrite St in I. destruct I.
Qed.
