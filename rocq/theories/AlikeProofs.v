From Coq Require Import String List Bool Arith Lia.
From Verif Require Import TreeModel TreeProofs AlikeModel.
Import ListNotations.
Local Open Scope nat_scope.

Definition named (f : nat -> string) (n : string) (m : smsg) : bool :=
  match m with SDetach c => String.eqb (f c) n | _ => false end.
Definition pend (f : nat -> string) (t : state) (a : nat) (n : string) : nat := length (filter (named f n) (sysq (nd t a))).
Definition dead (f : nat -> string) (t : state) (l : list nat) (n : string) : nat :=
  length (filter (fun k => stopped (nd t k) && String.eqb (f k) n) l).
Record Rest (f : nat -> string) (L d : nat -> string -> nat) (t : state) : Prop := {
  r_gone : forall a, gone (nd t a) = true -> opn (nd t a) = false;
  r_att : forall a c, In (SAttach c) (sysq (nd t a)) -> att (nd t a) = true;
  r_start : forall a, In SStart (sysq (nd t a)) -> att (nd t a) = true;
  r_started : forall a, started (nd t a) = true -> a = 0 \/ att (nd t a) = true;
  r_up : forall c, att (nd t c) = true -> par (nd t c) = 0 \/ att (nd t (par (nd t c))) = true;
  r_guard : forall g, 1 <= g <= 4 -> att (nd t g) = true;
  r_kid : forall k, att (nd t k) = true -> stopped (nd t k) = false ->
    stopped (nd t (par (nd t k))) = false /\
    (In k (kids (nd t (par (nd t k)))) \/ gone (nd t (par (nd t k))) = true \/ 1 <= L (par (nd t k)) (f k));
  r_count : forall a n, pend f t a n + L a n <= dead f t (kids (nd t a)) n + d a n;
  r_below : forall a c, gone (nd t a) = true -> In c (kids (nd t a)) -> gone (nd t c) = true
}.
Definition none : nat -> string -> nat := fun _ _ => 0.
Definition delta (a : nat) (n : string) : nat -> string -> nat := fun b m => if (b =? a) && String.eqb m n then 1 else 0.

(* ---- steps that change little ---- *)
Definition ok_msg (t : state) (a : nat) (m : smsg) : Prop := match m with SAttach _ | SStart => att (nd t a) = true | _ => True end.
Definition rel (f : nat -> string) (t t' : state) : Prop :=
  forall b, par (nd t' b) = par (nd t b) /\ att (nd t' b) = att (nd t b) /\ gone (nd t' b) = gone (nd t b) /\
    kids (nd t' b) = kids (nd t b) /\ stopped (nd t' b) = stopped (nd t b) /\
    (opn (nd t' b) = true -> opn (nd t b) = true) /\
    (started (nd t' b) = true -> started (nd t b) = true \/ att (nd t b) = true) /\
    (forall m, In m (sysq (nd t' b)) -> In m (sysq (nd t b)) \/ ok_msg t b m) /\
    (forall n, pend f t' b n <= pend f t b n).
Lemma dead_ext f t t' l n : (forall k, In k l -> stopped (nd t' k) = stopped (nd t k)) -> dead f t' l n = dead f t l n.
Proof.
  intro H. unfold dead. f_equal. apply filter_ext_in. intros k K. rewrite (H k K). reflexivity.
Qed.
Lemma rest_rel f L d t t' : rel f t t' -> Rest f L d t -> Rest f L d t'.
Proof.
  intros R [R1 R2 R3 R4 R5 R6 R7 R8 R9]. constructor.
  - intros a G. destruct (R a) as (_ & _ & E & _ & _ & O & _). rewrite E in G.
    destruct (opn (nd t' a)); [rewrite <- (R1 a G); symmetry; apply O; reflexivity|reflexivity].
  - intros a c I. destruct (R a) as (_ & E & _ & _ & _ & _ & _ & M & _). rewrite E. destruct (M _ I) as [J|J]; [eapply R2, J|exact J].
  - intros a I. destruct (R a) as (_ & E & _ & _ & _ & _ & _ & M & _). rewrite E. destruct (M _ I) as [J|J]; [eapply R3, J|exact J].
  - intros a I. destruct (R a) as (_ & E & _ & _ & _ & _ & S & _). rewrite E. destruct (S I); auto.
  - intros c A. destruct (R c) as (P & E & _). rewrite E in A. rewrite P. destruct (R (par (nd t c))) as (_ & -> & _). auto.
  - intros g G. destruct (R g) as (_ & -> & _). auto.
  - intros k A S. destruct (R k) as (P & E & _ & _ & E2 & _). rewrite E in A. rewrite E2 in S. rewrite P.
    destruct (R (par (nd t k))) as (_ & _ & -> & -> & -> & _). auto.
  - intros a n. destruct (R a) as (_ & _ & _ & -> & _ & _ & _ & _ & Q). rewrite (dead_ext f t t') by (intros; apply R).
    specialize (Q n). specialize (R8 a n). lia.
  - intros a c G I. destruct (R a) as (_ & _ & E & E2 & _). rewrite E in G. rewrite E2 in I. destruct (R c) as (_ & _ & -> & _). eauto.
Qed.
Lemma rel_trans f t1 t2 t3 : rel f t1 t2 -> rel f t2 t3 -> rel f t1 t3.
Proof.
  intros A B b. destruct (A b) as (A1 & A2 & A3 & A4 & A5 & A6 & A7 & A8 & A9). destruct (B b) as (B1 & B2 & B3 & B4 & B5 & B6 & B7 & B8 & B9).
  repeat split; try congruence; auto.
  - intro H. destruct (B7 H) as [K|K]; [auto|right; congruence].
  - intros m H. destruct (B8 m H) as [K|K]; [auto|right]. unfold ok_msg in *. destruct m; auto; congruence.
  - intro n. specialize (A9 n). specialize (B9 n). lia.
Qed.
Ltac relt := repeat split; auto; try (intros; lia).
Lemma rel_refl f t : rel f t t.
Proof. intro b. relt. Qed.
Lemma rel_push_sys f t a m : ok_msg t a m -> (forall c, m <> SDetach c) -> rel f t (push_sys t a m).
Proof.
  intros O N. unfold push_sys. destruct (opn (nd t a)) eqn:E; [|apply rel_refl]. intro b. unfold set_nd, pend. cbn [nd]. unfold upd.
  destruct (Nat.eqb_spec b a) as [->|Nb]; [|relt]. cbn [par att gone kids stopped opn started sysq]. relt.
  - intros m' I. apply in_app_or in I as [I|[<-|[]]]; auto.
  - intro n. rewrite filter_app, app_length. cbn [filter]. destruct m; cbn; try lia. exfalso. eapply N. reflexivity.
Qed.
Lemma rel_push_usr f t a u : rel f t (push_usr t a u).
Proof.
  unfold push_usr. destruct (opn (nd t a)) eqn:E; [|apply rel_refl]. intro b. unfold set_nd, pend. cbn [nd]. unfold upd.
  destruct (Nat.eqb_spec b a) as [->|Nb]; relt.
Qed.
Lemma rel_poison f l : forall t, rel f t (fold_left (fun s c => push_usr s c UPoison) l t).
Proof. induction l as [|c l IH]; intro t; cbn [fold_left]; [apply rel_refl|]. eapply rel_trans; [apply rel_push_usr|apply IH]. Qed.
Lemma rel_stopping f t a k : rel f t (set_stopping t a k).
Proof. intro b. unfold set_stopping, set_nd, pend. cbn [nd]. unfold upd. destruct (Nat.eqb_spec b a) as [->|]; relt. Qed.
Lemma rel_start f t a ok : att (nd t a) = true -> rel f t (start_node t a ok).
Proof.
  intros A b. unfold start_node, set_nd, pend. cbn [nd]. unfold upd. destruct (Nat.eqb_spec b a) as [->|]; relt.
  cbn [opn]. destruct ok; auto; discriminate.
Qed.
Lemma rel_pop_usr f t a : rel f t (pop_usr t a).
Proof. intro b. unfold pop_usr, set_nd, pend. cbn [nd]. unfold upd. destruct (Nat.eqb_spec b a) as [->|]; relt. Qed.
Lemma rel_pop_sys f t a : rel f t (pop_sys t a).
Proof.
  intro b. unfold pop_sys, set_nd, pend. cbn [nd]. unfold upd. destruct (Nat.eqb_spec b a) as [->|]; relt.
  - cbn [sysq]. intros m I. left. apply tl_in. exact I.
  - cbn [sysq]. intro n. destruct (sysq (nd t a)) as [|m q]; [auto|]. cbn [tl filter]. destruct (named f n m); cbn; lia.
Qed.
Lemma rel_nd f t t' : nd t' = nd t -> rel f t t'.
Proof. intros E b. unfold pend. rewrite E. relt. Qed.

(* ---- attaching, stopping, creating ---- *)
Lemma rest_destroy f L d t c : Core t -> Rest f L d t -> c <> 0 -> att (nd t c) = false -> Rest f L d (destroy t c).
Proof.
  intros C [R1 R2 R3 R4 R5 R6 R7 R8 R9] N0 A.
  assert (K : kids (nd t c) = []).
  { destruct (kids (nd t c)) as [|k l] eqn:E; [reflexivity|]. destruct (c_kids t C c k) as (_ & Ak & Pk); [rewrite E; left; reflexivity|].
    destruct (R5 k Ak); congruence. }
  unfold destroy, set_nd. constructor; cbn [nd]; unfold upd.
  - intro a. destruct (Nat.eqb_spec a c) as [->|]; auto.
  - intros a k. destruct (Nat.eqb_spec a c) as [->|]; [cbn [sysq att]; eauto|eauto].
  - intros a. destruct (Nat.eqb_spec a c) as [->|]; [cbn [sysq att]; eauto|eauto].
  - intros a. destruct (Nat.eqb_spec a c) as [->|]; [cbn [started att]; eauto|eauto].
  - intros k. destruct (Nat.eqb_spec k c) as [->|]; [cbn [att]; congruence|]. intro Ak. destruct (Nat.eqb_spec (par (nd t k)) c) as [E|]; [|auto].
    destruct (R5 k Ak) as [E2|E2]; [auto|right; cbn [att]; congruence].
  - intros g G. destruct (Nat.eqb_spec g c) as [->|]; [exact (R6 _ G)|auto].
  - intros k. destruct (Nat.eqb_spec k c) as [->|]; [cbn [att]; congruence|]. intros Ak Sk. destruct (R7 k Ak Sk) as [H1 H2].
    destruct (Nat.eqb_spec (par (nd t k)) c) as [E|]; [|auto]. cbn [stopped kids gone]. rewrite <- E. split; auto.
  - intros a n. specialize (R8 a n). unfold pend in *. cbn [nd].
    assert (D : forall l, dead f (State (size t) (fun b => if b =? c then Node (par (nd t c)) (att (nd t c)) true (kids (nd t c)) (stopping (nd t c)) (killing (nd t c)) (started (nd t c)) false (stopped (nd t c)) (sysq (nd t c)) (usrq (nd t c)) else nd t b) (flag t) (requested t)) l n = dead f t l n).
    { intro l. apply dead_ext. intros k _. cbn [nd]. destruct (Nat.eqb_spec k c) as [->|]; reflexivity. }
    unfold upd. destruct (Nat.eqb_spec a c) as [->|]; cbn [sysq kids]; unfold upd in D; rewrite D; exact R8.
  - intros a k. destruct (Nat.eqb_spec a c) as [->|]; [cbn [kids]; rewrite K; contradiction|]. intros G I. 
    destruct (Nat.eqb_spec k c) as [->|]; [reflexivity|]. eauto.
Qed.
Lemma rest_attach f L d t a c : Core t -> Rest f L d t -> a < c -> opn (nd t a) = true -> att (nd t a) = true ->
  Rest f L d (attach t a c).
Proof.
  intros C R Ac Oa Aa. unfold attach. destruct (att (nd t c) || gone (nd t c)) eqn:E; [exact R|]. apply orb_false_iff in E as [Nc Gc].
  assert (Na : (a =? c) = false) by (apply Nat.eqb_neq; lia). assert (Nca : (c =? a) = false) by (apply Nat.eqb_neq; lia).
  set (t1 := set_kids t a (kids (nd t a) ++ [c])). assert (E1 : nd t1 c = nd t c) by (unfold t1, set_kids, set_nd; cbn [nd]; unfold upd; rewrite Nca; reflexivity).
  rewrite E1. set (t2 := set_nd t1 c _).
  assert (St : stopped (nd t a) = false) by (destruct (stopped (nd t a)) eqn:S; [destruct (c_stopped t C a S); congruence|reflexivity]).
  assert (Ea : nd t2 a = Node (par (nd t a)) (att (nd t a)) (gone (nd t a)) (kids (nd t a) ++ [c]) (stopping (nd t a)) (killing (nd t a)) (started (nd t a)) (opn (nd t a)) (stopped (nd t a)) (sysq (nd t a)) (usrq (nd t a))).
  { unfold t2, t1, set_nd, set_kids, set_nd. cbn [nd]. unfold upd. rewrite Na, Nat.eqb_refl. reflexivity. }
  assert (Ec : nd t2 c = Node a true (gone (nd t c)) (kids (nd t c)) (stopping (nd t c)) (killing (nd t c)) (started (nd t c)) (opn (nd t c)) (stopped (nd t c)) (sysq (nd t c)) (usrq (nd t c))).
  { unfold t2, set_nd. cbn [nd]. apply upd_eq. }
  assert (Eb : forall b, b <> a -> b <> c -> nd t2 b = nd t b).
  { intros b B1 B2. unfold t2, t1, set_nd, set_kids, set_nd. cbn [nd]. rewrite !upd_neq by auto. reflexivity. }
  clearbody t2. clear t1 E1.
  assert (F : forall b, gone (nd t2 b) = gone (nd t b) /\ opn (nd t2 b) = opn (nd t b) /\ stopped (nd t2 b) = stopped (nd t b) /\
    sysq (nd t2 b) = sysq (nd t b) /\ started (nd t2 b) = started (nd t b) /\ (att (nd t b) = true -> att (nd t2 b) = true) /\
    (b <> c -> att (nd t2 b) = att (nd t b) /\ par (nd t2 b) = par (nd t b)) /\ (b <> a -> kids (nd t2 b) = kids (nd t b)) /\
    (forall k, In k (kids (nd t b)) -> In k (kids (nd t2 b)))).
  { intro b. destruct (Nat.eq_dec b c) as [->|Bc]; [rewrite Ec; cbn; repeat split; auto; congruence|].
    destruct (Nat.eq_dec b a) as [->|Ba]; [rewrite Ea; cbn; repeat split; auto; try congruence|rewrite Eb by auto; repeat split; auto].
    intros k I. apply in_or_app. auto. }
  assert (A2 : forall b, att (nd t2 b) = true -> b = c \/ (b <> c /\ att (nd t b) = true)).
  { intros b B. destruct (Nat.eq_dec b c); [auto|right]. split; [auto|]. destruct (F b) as (_ & _ & _ & _ & _ & _ & X & _). destruct (X n). congruence. }
  assert (R2 : Rest f L d t2).
  { destruct R as [R1 R2 R3 R4 R5 R6 R7 R8 R9]. constructor.
    - intros b G. destruct (F b) as (-> & -> & _) in G |- *. auto.
    - intros b k I. destruct (F b) as (_ & _ & _ & -> & _ & X & _) in I |- *. eauto.
    - intros b I. destruct (F b) as (_ & _ & _ & -> & _ & X & _) in I |- *. eauto.
    - intros b I. destruct (F b) as (_ & _ & _ & _ & -> & X & _) in I |- *. destruct (R4 b I); auto.
    - intros k K. destruct (A2 k K) as [-> |[Nk Ak]].
      + rewrite Ec. cbn [par]. right. apply F. exact Aa.
      + destruct (F k) as (_ & _ & _ & _ & _ & _ & X & _). destruct (X Nk) as [_ ->]. destruct (R5 k Ak); [auto|right]. apply F. auto.
    - intros g G. apply F. auto.
    - intros k K S. destruct (A2 k K) as [-> |[Nk Ak]].
      + rewrite Ec. cbn [par]. rewrite Ea. cbn [stopped kids]. split; [exact St|]. left. apply in_or_app. right. left. reflexivity.
      + destruct (F k) as (_ & _ & -> & _ & _ & _ & X & _) in S |- *. destruct (X Nk) as [_ ->]. destruct (R7 k Ak S) as [H1 H2].
        destruct (F (par (nd t k))) as (-> & _ & -> & _ & _ & _ & _ & _ & Y). split; [exact H1|]. destruct H2 as [H2|H2]; auto.
    - intros b n. unfold pend. destruct (F b) as (_ & _ & _ & -> & _). rewrite (dead_ext f t t2) by (intros; apply F).
      specialize (R8 b n). unfold pend in R8. destruct (Nat.eq_dec b a) as [->|Ba].
      + rewrite Ea. cbn [kids]. unfold dead in *. rewrite filter_app, app_length. lia.
      + destruct (F b) as (_ & _ & _ & _ & _ & _ & _ & -> & _); auto.
    - intros b k G I. destruct (F b) as (-> & _ & _ & _ & _ & _ & _ & Y & _) in G |- *. destruct (F k) as (-> & _).
      destruct (Nat.eq_dec b a) as [->|Ba]; [rewrite (R1 a G) in Oa; discriminate|]. rewrite Y in I by auto. eauto. }
  eapply rest_rel; [|exact R2]. apply rel_push_sys; [|discriminate]. cbn. rewrite Ec. reflexivity.
Qed.
Lemma dead_mono f t t' l n : (forall k, stopped (nd t k) = true -> stopped (nd t' k) = true) -> dead f t l n <= dead f t' l n.
Proof.
  intro H. unfold dead. induction l as [|k l IH]; [auto|]. cbn [filter]. specialize (H k).
  destruct (stopped (nd t k)); [rewrite (H eq_refl)|]; cbn [andb]; destruct (String.eqb (f k) n); cbn [andb length]; try lia;
    destruct (stopped (nd t' k)); cbn [andb length]; lia.
Qed.
Lemma dead_mark f t t' l a : (forall k, stopped (nd t k) = true -> stopped (nd t' k) = true) ->
  In a l -> stopped (nd t a) = false -> stopped (nd t' a) = true -> S (dead f t l (f a)) <= dead f t' l (f a).
Proof.
  intros H I S0 S1. induction l as [|k l IH]; [contradiction|]. destruct I as [-> |I].
  - assert (M := dead_mono f t t' l (f a) H). unfold dead in *. cbn [filter]. rewrite S0, S1, String.eqb_refl. cbn. lia.
  - specialize (IH I). assert (M := H k). unfold dead in *. cbn [filter].
    destruct (stopped (nd t k)); [rewrite (M eq_refl)|]; cbn [andb]; destruct (String.eqb (f k) (f a)); cbn [andb length]; try lia;
      destruct (stopped (nd t' k)); cbn [andb length]; lia.
Qed.
Lemma rest_stop f L d t a : Core t -> Rest f L d t -> opn (nd t a) = true -> kids (nd t a) = [] -> (forall n, L a n = 0) ->
  Rest f L d (stop_node t a).
Proof.
  intros C R Oa Ka La.
  assert (Ga : gone (nd t a) = false) by (destruct (gone (nd t a)) eqn:G; [rewrite (r_gone _ _ _ _ R a G) in Oa; discriminate|reflexivity]).
  assert (Sa : stopped (nd t a) = false) by (destruct (stopped (nd t a)) eqn:S; [destruct (c_stopped t C a S); congruence|reflexivity]).
  unfold stop_node. set (t1 := set_nd t a _).
  set (t2 := if is_guard a then push_usr t1 0 (UTerm a) else t1).
  assert (Ea : nd t1 a = Node (par (nd t a)) (att (nd t a)) (gone (nd t a)) [] (stopping (nd t a)) (killing (nd t a)) false false true (sysq (nd t a)) (usrq (nd t a))) by apply upd_eq.
  assert (Eb : forall b, b <> a -> nd t1 b = nd t b) by (intros b B; apply upd_neq; exact B).
  clearbody t1.
  assert (F : forall b, par (nd t1 b) = par (nd t b) /\ att (nd t1 b) = att (nd t b) /\ gone (nd t1 b) = gone (nd t b) /\
     kids (nd t1 b) = kids (nd t b) /\ sysq (nd t1 b) = sysq (nd t b) /\ (opn (nd t1 b) = true -> opn (nd t b) = true) /\
     (started (nd t1 b) = true -> started (nd t b) = true) /\ (stopped (nd t b) = true -> stopped (nd t1 b) = true) /\
     (b <> a -> stopped (nd t1 b) = stopped (nd t b))).
  { intro b. destruct (Nat.eq_dec b a) as [->|Ba]; [rewrite Ea; cbn; repeat split; auto; congruence|rewrite Eb by auto; repeat split; auto]. }
  assert (N : forall k, att (nd t k) = true -> stopped (nd t k) = false -> par (nd t k) <> a).
  { intros k Ak Sk E. destruct (r_kid _ _ _ _ R k Ak Sk) as [_ [H|[H|H]]]; rewrite E in H.
    - rewrite Ka in H. contradiction.
    - congruence.
    - rewrite La in H. lia. }
  assert (U : forall k, stopped (nd t1 k) = false -> k <> a /\ stopped (nd t k) = false).
  { intros k Sk. destruct (Nat.eq_dec k a) as [->|Ba]; [rewrite Ea in Sk; discriminate|]. split; [exact Ba|]. rewrite Eb in Sk; auto. }
  assert (R1 : Rest f L d t1).
  { destruct R as [R1 R2 R3 R4 R5 R6 R7 R8 R9]. constructor.
    - intros b G. destruct (F b) as (_ & _ & -> & _ & _ & O & _) in G |- *. destruct (opn (nd t1 b)); [rewrite <- (R1 b G); symmetry; auto|reflexivity].
    - intros b k. destruct (F b) as (_ & -> & _ & _ & -> & _). apply R2.
    - intros b. destruct (F b) as (_ & -> & _ & _ & -> & _). apply R3.
    - intros b I. destruct (F b) as (_ & -> & _ & _ & _ & _ & S & _). auto.
    - intros k K. destruct (F k) as (-> & -> & _) in K |- *. destruct (F (par (nd t k))) as (_ & -> & _). auto.
    - intros g G. destruct (F g) as (_ & -> & _). auto.
    - intros k K S. destruct (U k S) as [Nk Sk]. destruct (F k) as (-> & -> & _) in K |- *. destruct (R7 k K Sk) as [H1 H2].
      destruct (F (par (nd t k))) as (_ & _ & -> & -> & _ & _ & _ & _ & ->); [auto|]. apply N; auto.
    - intros b n. unfold pend. destruct (F b) as (_ & _ & _ & -> & -> & _). specialize (R8 b n). unfold pend in R8.
      assert (M := dead_mono f t t1 (kids (nd t b)) n (fun k => proj1 (proj2 (proj2 (proj2 (proj2 (proj2 (proj2 (proj2 (F k)))))))))). lia.
    - intros b k G I. destruct (F b) as (_ & _ & -> & -> & _) in G, I. destruct (F k) as (_ & _ & -> & _). eauto. }
  assert (P2 : rel f t1 t2) by (unfold t2; destruct (is_guard a); [apply rel_push_usr|apply rel_refl]).
  assert (R2 : Rest f L d t2) by (eapply rest_rel; [exact P2|exact R1]).
  destruct (att (nd t a)) eqn:Aa; [|exact R2].
  set (p := par (nd t a)).
  assert (D : pend f t2 p (f a) + L p (f a) + 1 <= dead f t2 (kids (nd t2 p)) (f a) + d p (f a)).
  { destruct (P2 p) as (_ & _ & _ & -> & _ & _ & _ & _ & Q). specialize (Q (f a)).
    rewrite (dead_ext f t1 t2) by (intros; apply P2). destruct (F p) as (_ & _ & _ & -> & E5 & _).
    assert (Q1 : pend f t1 p (f a) = pend f t p (f a)) by (unfold pend; rewrite E5; reflexivity).
    assert (C1 := r_count _ _ _ _ R p (f a)).
    assert (I : In a (kids (nd t p))) by (destruct (c_att t C a Aa) as [_ [H|H]]; [exact H|congruence]).
    assert (M := dead_mark f t t1 (kids (nd t p)) a (fun k => proj1 (proj2 (proj2 (proj2 (proj2 (proj2 (proj2 (proj2 (F k)))))))))  I Sa).
    rewrite Ea in M. specialize (M eq_refl). lia. }
  clearbody t2 p. unfold push_sys. destruct (opn (nd t2 p)) eqn:Op; [|exact R2].
  destruct R2 as [Q1 Q2 Q3 Q4 Q5 Q6 Q7 Q8 Q9]. unfold set_nd.
  assert (G : forall b, let v := upd (nd t2) p (Node (par (nd t2 p)) (att (nd t2 p)) (gone (nd t2 p)) (kids (nd t2 p)) (stopping (nd t2 p)) (killing (nd t2 p)) (started (nd t2 p)) true (stopped (nd t2 p)) (sysq (nd t2 p) ++ [SDetach a]) (usrq (nd t2 p))) b in
    par v = par (nd t2 b) /\ att v = att (nd t2 b) /\ gone v = gone (nd t2 b) /\ kids v = kids (nd t2 b) /\ stopped v = stopped (nd t2 b) /\
    opn v = opn (nd t2 b) /\ started v = started (nd t2 b)).
  { intro b. unfold upd. destruct (Nat.eqb_spec b p) as [->|]; cbn; repeat split; auto. }
  constructor; cbn [nd].
  - intros b. destruct (G b) as (_ & _ & -> & _ & _ & -> & _). auto.
  - intros b k I. destruct (G b) as (_ & -> & _). unfold upd in I. destruct (b =? p) eqn:Eq; [|eauto].
    apply Nat.eqb_eq in Eq. rewrite Eq in *. cbn in I. apply in_app_or in I as [I|[I|[]]]; [eauto|discriminate].
  - intros b I. destruct (G b) as (_ & -> & _). unfold upd in I. destruct (b =? p) eqn:Eq; [|eauto].
    apply Nat.eqb_eq in Eq. rewrite Eq in *. cbn in I. apply in_app_or in I as [I|[I|[]]]; [eauto|discriminate].
  - intros b. destruct (G b) as (_ & -> & _ & _ & _ & _ & ->). auto.
  - intros k. destruct (G k) as (-> & -> & _). destruct (G (par (nd t2 k))) as (_ & -> & _). auto.
  - intros g. destruct (G g) as (_ & -> & _). auto.
  - intros k. destruct (G k) as (-> & -> & _ & _ & -> & _). destruct (G (par (nd t2 k))) as (_ & _ & -> & -> & -> & _). auto.
  - intros b n. unfold pend. cbn [nd]. destruct (G b) as (_ & _ & _ & -> & _).
    rewrite (dead_ext f t2 _) by (intros k _; apply (G k)).
    specialize (Q8 b n). unfold pend in *. unfold upd. destruct (Nat.eqb_spec b p) as [->|]; [|exact Q8].
    cbn [sysq]. rewrite filter_app, app_length. cbn [filter named].
    destruct (String.eqb_spec (f a) n) as [<-|]; cbn [length]; lia.
  - intros b k. destruct (G b) as (_ & _ & -> & -> & _). destruct (G k) as (_ & _ & -> & _). eauto.
Qed.
Lemma rest_names f g L d t : Core t -> (forall c, c < size t -> g c = f c) -> Rest f L d t -> Rest g L d t.
Proof.
  intros C E [R1 R2 R3 R4 R5 R6 R7 R8 R9]. constructor; auto.
  - intros k A S. rewrite E; [auto|]. destruct (le_lt_dec (size t) k) as [H|H]; [rewrite (c_abs t C k H) in A; discriminate|exact H].
  - intros a n. specialize (R8 a n).
    assert (P : pend g t a n = pend f t a n).
    { unfold pend. f_equal. apply filter_ext_in. intros m M. destruct m; try reflexivity. cbn. rewrite E; [reflexivity|]. apply (c_det t C a c M). }
    assert (D : dead g t (kids (nd t a)) n = dead f t (kids (nd t a)) n).
    { unfold dead. f_equal. apply filter_ext_in. intros k K. rewrite E; [reflexivity|]. apply (c_kids t C a k K). }
    lia.
Qed.
Lemma rest_new f L d t : Core t -> Rest f L d t -> Rest f L d (new_actor t).
Proof.
  intros C R. assert (Z := c_abs t C (size t) (le_n _)).
  assert (X : forall b, nd (new_actor t) b = nd t b \/ (b = size t /\ nd (new_actor t) b = fresh)).
  { intro b. unfold new_actor. cbn [nd]. unfold upd. destruct (Nat.eqb_spec b (size t)); auto. }
  assert (F : forall b, att (nd (new_actor t) b) = att (nd t b) /\ kids (nd (new_actor t) b) = kids (nd t b) /\ stopped (nd (new_actor t) b) = stopped (nd t b) /\
     sysq (nd (new_actor t) b) = sysq (nd t b) /\ par (nd (new_actor t) b) = par (nd t b) /\ started (nd (new_actor t) b) = started (nd t b) /\
     (b <> size t -> nd (new_actor t) b = nd t b)).
  { intro b. destruct (X b) as [->|[-> ->]]; [repeat split; auto|]. rewrite Z. repeat split; congruence. }
  destruct R as [R1 R2 R3 R4 R5 R6 R7 R8 R9]. constructor.
  - intros a G. destruct (X a) as [E|[_ E]]; rewrite E in *; [auto|discriminate].
  - intros a c. destruct (F a) as (-> & _ & _ & -> & _). eauto.
  - intros a. destruct (F a) as (-> & _ & _ & -> & _). eauto.
  - intros a. destruct (F a) as (-> & _ & _ & _ & _ & -> & _). eauto.
  - intros c. destruct (F c) as (-> & _ & _ & _ & -> & _). destruct (F (par (nd t c))) as (-> & _). eauto.
  - intros g. destruct (F g) as (-> & _). eauto.
  - intros k A S. destruct (F k) as (E1 & _ & E3 & _ & -> & _). rewrite E1 in A. rewrite E3 in S. destruct (R7 k A S) as [H1 H2].
    assert (Lt : par (nd t k) <> size t).
    { assert (Hk : k < size t) by (destruct (le_lt_dec (size t) k) as [H|H]; [rewrite (c_abs t C k H) in A; discriminate|exact H]).
      destruct (c_att t C k A). lia. }
    destruct (F (par (nd t k))) as (_ & _ & _ & _ & _ & _ & ->); auto.
  - intros a n. unfold pend. destruct (F a) as (_ & -> & _ & -> & _). rewrite (dead_ext f t) by (intros; apply F). exact (R8 a n).
  - intros a c G I. destruct (X a) as [E|[_ E]]; rewrite E in *; [|discriminate].
    assert (c <> size t) by (destruct (c_kids t C a c I); lia). destruct (F c) as (_ & _ & _ & _ & _ & _ & ->); eauto.
Qed.

(* ---- the destruction of a cell ---- *)
Definition razed (t t' : state) : Prop :=
  size t' = size t /\ flag t' = flag t /\ requested t' = requested t /\
  forall b, nd t' b = nd t b \/
    nd t' b = Node (par (nd t b)) (att (nd t b)) true (kids (nd t b)) (stopping (nd t b)) (killing (nd t b)) (started (nd t b)) false (stopped (nd t b)) (sysq (nd t b)) (usrq (nd t b)).
Lemma razed_refl t : razed t t.
Proof. repeat split; auto. Qed.
Lemma razed_trans t1 t2 t3 : razed t1 t2 -> razed t2 t3 -> razed t1 t3.
Proof.
  intros (A1 & A2 & A3 & A4) (B1 & B2 & B3 & B4). repeat split; try congruence. intro b.
  destruct (B4 b) as [E|E]; rewrite E; destruct (A4 b) as [E2|E2]; rewrite E2; auto.
Qed.
Lemma razed_destroy t k : razed t (destroy t k).
Proof. repeat split. intro b. unfold destroy, set_nd. cbn [nd]. unfold upd. destruct (Nat.eqb_spec b k) as [->|]; auto. Qed.
Definition below (t : state) : Prop := forall a c, gone (nd t a) = true -> In c (kids (nd t a)) -> gone (nd t c) = true.
Lemma razed_fields t t' b : razed t t' ->
  par (nd t' b) = par (nd t b) /\ att (nd t' b) = att (nd t b) /\ kids (nd t' b) = kids (nd t b) /\ stopping (nd t' b) = stopping (nd t b) /\
  started (nd t' b) = started (nd t b) /\ stopped (nd t' b) = stopped (nd t b) /\ sysq (nd t' b) = sysq (nd t b) /\
  (gone (nd t b) = true -> gone (nd t' b) = true) /\ (opn (nd t' b) = true -> opn (nd t b) = true /\ nd t' b = nd t b).
Proof. intros (_ & _ & _ & H). destruct (H b) as [->| ->]; cbn; repeat split; auto; discriminate. Qed.
Lemma waiting_in t q c : In c (waiting t q) -> In (SAttach c) q.
Proof.
  unfold waiting. intro H. apply in_flat_map in H as (m & M & I). destruct m; try contradiction.
  destruct (att (nd t c0)); [contradiction|]. destruct I as [->|[]]. exact M.
Qed.
Lemma erase_ok f : forall t k, Core t -> k < size t -> size t <= k + f -> below t ->
  Core (erase f t k) /\ below (erase f t k) /\ gone (nd (erase f t k) k) = true /\ razed t (erase f t k) /\
  (forall b, b < k -> nd (erase f t k) b = nd t b).
Proof.
  induction f as [|f IH]; intros t k C Hk Hf B; [lia|]. cbn [erase].
  assert (W : forall l t0, Core t0 -> below t0 -> size t0 = size t -> (forall c, In c l -> k < c < size t) ->
    Core (fold_left (erase f) l t0) /\ below (fold_left (erase f) l t0) /\ razed t0 (fold_left (erase f) l t0) /\
    (forall c, In c l -> gone (nd (fold_left (erase f) l t0) c) = true) /\ forall b, b < k -> nd (fold_left (erase f) l t0) b = nd t0 b).
  { induction l as [|c l IHl]; intros t0 C0 B0 Z Hl; cbn [fold_left]; [split; [auto|split; [auto|split; [apply razed_refl|split; [intros c []|reflexivity]]]]|].
    destruct (Hl c (or_introl eq_refl)) as [Hc1 Hc2].
    destruct (IH t0 c C0) as (C1 & B1 & G1 & Z1 & W1); [lia|lia|exact B0|].
    destruct (IHl _ C1 B1) as (C2 & B2 & Z2 & G2 & W2); [destruct Z1; congruence|intros; apply Hl; right; auto|].
    split; [exact C2|split; [exact B2|split; [eapply razed_trans; eauto|split]]]; [|intros b Hb; rewrite W2, W1; [reflexivity|lia|exact Hb]].
    intros c' [->|I]; [|auto]. apply (razed_fields _ _ c' Z2). exact G1. }
  destruct (W (kids (nd t k) ++ waiting t (sysq (nd t k))) t C B eq_refl) as (C1 & B1 & Z1 & G1 & W1).
  { intros c I. apply in_app_or in I as [I|I]; [destruct (c_kids t C k c I); lia|]. apply waiting_in in I. destruct (c_attq t C k c I). lia. }
  set (t1 := fold_left _ _ _) in *. assert (Hs : size t1 = size t) by apply Z1.
  split; [apply destroy_core; [exact C1|lia]|]. split; [|split; [|split]].
  - intros a c. unfold destroy, set_nd. cbn [nd]. unfold upd. destruct (Nat.eqb_spec a k) as [->|].
    + cbn [kids gone]. intros _ I. destruct (Nat.eqb_spec c k) as [->|]; [reflexivity|].
      apply G1. apply in_or_app. left. destruct (razed_fields _ _ k Z1) as (_ & _ & <- & _). exact I.
    + intros G I. destruct (Nat.eqb_spec c k) as [->|]; [reflexivity|eauto].
  - unfold destroy, set_nd. cbn [nd]. rewrite upd_eq. reflexivity.
  - eapply razed_trans; [exact Z1|apply razed_destroy].
  - intros b Hb. unfold destroy, set_nd. cbn [nd]. rewrite upd_neq by lia. apply W1. exact Hb.
Qed.
Lemma rest_razed f L d t t' : razed t t' -> below t' -> Rest f L d t -> Rest f L d t'.
Proof.
  intros Z B [R1 R2 R3 R4 R5 R6 R7 R8 R9]. assert (F := fun b => razed_fields t t' b Z). constructor.
  - intros a G. destruct (opn (nd t' a)) eqn:O; [|reflexivity]. destruct (F a) as (_ & _ & _ & _ & _ & _ & _ & _ & X). destruct (X O) as [O2 E].
    rewrite E in G. rewrite (R1 a G) in O2. discriminate.
  - intros a c. destruct (F a) as (_ & -> & _ & _ & _ & _ & -> & _). eauto.
  - intros a. destruct (F a) as (_ & -> & _ & _ & _ & _ & -> & _). eauto.
  - intros a. destruct (F a) as (_ & -> & _ & _ & -> & _). eauto.
  - intros c. destruct (F c) as (-> & -> & _). destruct (F (par (nd t c))) as (_ & -> & _). eauto.
  - intros g. destruct (F g) as (_ & -> & _). eauto.
  - intros k A S. destruct (F k) as (-> & E1 & _ & _ & _ & E2 & _). rewrite E1 in A. rewrite E2 in S. destruct (R7 k A S) as [H1 H2].
    destruct (F (par (nd t k))) as (_ & _ & -> & _ & _ & -> & _ & X & _). split; [exact H1|]. destruct H2 as [H2|[H2|H2]]; auto.
  - intros a n. unfold pend. destruct (F a) as (_ & _ & -> & _ & _ & _ & -> & _). rewrite (dead_ext f t) by (intros; apply F). exact (R8 a n).
  - exact B.
Qed.
(* ---- the removal of a child ---- *)
Lemma dead_remove f t k n l : In k l ->
  dead f t (remove_first k l) n + (if stopped (nd t k) && String.eqb (f k) n then 1 else 0) = dead f t l n.
Proof.
  induction l as [|y l IH]; [contradiction|]. intro I. cbn [remove_first]. destruct (Nat.eqb_spec y k) as [->|N].
  - unfold dead. cbn [filter]. destruct (stopped (nd t k) && String.eqb (f k) n); cbn [length]; lia.
  - destruct I as [I|I]; [congruence|]. specialize (IH I). unfold dead in *. cbn [filter].
    destruct (stopped (nd t y) && String.eqb (f y) n); cbn [length]; lia.
Qed.
Lemma rest_unkid f L L' t a k : Core t -> Rest f L none t -> opn (nd t a) = true -> In k (kids (nd t a)) ->
  (stopped (nd t k) = true /\ L' = L) \/ (stopped (nd t k) = false /\ L' = bump L a (f k)) ->
  Rest f L' (delta a (f k)) (set_kids t a (remove_first k (kids (nd t a)))).
Proof.
  intros C R Oa Ik Hk.
  assert (Ga : gone (nd t a) = false) by (destruct (gone (nd t a)) eqn:G; [rewrite (r_gone _ _ _ _ R a G) in Oa; discriminate|reflexivity]).
  destruct (c_kids t C a k Ik) as (_ & Ak & Pk).
  assert (LL : forall b n, L b n <= L' b n).
  { intros b n. destruct Hk as [[_ ->]|[_ ->]]; [lia|]. unfold bump. destruct ((b =? a) && String.eqb n (f k)); lia. }
  set (ks := remove_first k (kids (nd t a))). set (t' := set_kids t a ks).
  assert (F : forall b, par (nd t' b) = par (nd t b) /\ att (nd t' b) = att (nd t b) /\ gone (nd t' b) = gone (nd t b) /\
     stopped (nd t' b) = stopped (nd t b) /\ opn (nd t' b) = opn (nd t b) /\ started (nd t' b) = started (nd t b) /\ sysq (nd t' b) = sysq (nd t b) /\
     (b <> a -> kids (nd t' b) = kids (nd t b))).
  { intro b. unfold t', set_kids, set_nd. cbn [nd]. unfold upd. destruct (Nat.eqb_spec b a) as [->|]; cbn; repeat split; auto. congruence. }
  assert (Ka : kids (nd t' a) = ks) by (unfold t', set_kids, set_nd; cbn [nd]; rewrite upd_eq; reflexivity).
  clearbody t'. destruct R as [R1 R2 R3 R4 R5 R6 R7 R8 R9]. constructor.
  - intros b. destruct (F b) as (_ & _ & -> & _ & -> & _). auto.
  - intros b c. destruct (F b) as (_ & -> & _ & _ & _ & _ & -> & _). eauto.
  - intros b. destruct (F b) as (_ & -> & _ & _ & _ & _ & -> & _). eauto.
  - intros b. destruct (F b) as (_ & -> & _ & _ & _ & -> & _). eauto.
  - intros c. destruct (F c) as (-> & -> & _). destruct (F (par (nd t c))) as (_ & -> & _). eauto.
  - intros g. destruct (F g) as (_ & -> & _). eauto.
  - intros b A S. destruct (F b) as (-> & E1 & _ & E2 & _). rewrite E1 in A. rewrite E2 in S. destruct (R7 b A S) as [H1 H2].
    destruct (F (par (nd t b))) as (_ & _ & -> & -> & _ & _ & _ & X). split; [exact H1|].
    destruct H2 as [H2|[H2|H2]]; [|auto|right; right; specialize (LL (par (nd t b)) (f b)); lia].
    destruct (Nat.eq_dec (par (nd t b)) a) as [E|N]; [|rewrite X; auto]. rewrite E in *. rewrite Ka. unfold ks.
    destruct (in_remove_first k _ b H2) as [H3| ->]; [auto|]. right. right.
    destruct Hk as [[Sk _]|[_ ->]]; [congruence|]. unfold bump. rewrite Nat.eqb_refl, String.eqb_refl. cbn. lia.
  - intros b n. unfold pend. destruct (F b) as (_ & _ & _ & _ & _ & _ & -> & X). rewrite (dead_ext f t t') by (intros; apply F).
    specialize (R8 b n). unfold pend, none in R8. unfold delta. destruct (Nat.eqb_spec b a) as [->|N]; cbn [andb].
    + rewrite Ka. unfold ks. assert (D := dead_remove f t k n (kids (nd t a)) Ik).
      destruct Hk as [[Sk ->]|[Sk ->]]; rewrite Sk in D; cbn [andb] in D.
      * rewrite (String.eqb_sym n). destruct (String.eqb (f k) n); lia.
      * unfold bump. rewrite Nat.eqb_refl. cbn [andb]. destruct (String.eqb n (f k)); lia.
    + rewrite X by auto. destruct Hk as [[_ ->]|[_ ->]]; [lia|]. unfold bump. apply Nat.eqb_neq in N. rewrite N. cbn [andb]. lia.
  - intros b c G I. destruct (F b) as (_ & _ & E1 & _ & _ & _ & _ & X). rewrite E1 in G. destruct (Nat.eq_dec b a) as [->|N]; [congruence|].
    rewrite X in I by auto. destruct (F c) as (_ & _ & -> & _). eauto.
Qed.
Lemma rest_pop f L t a c q : Rest f L (delta a (f c)) t -> sysq (nd t a) = SDetach c :: q -> Rest f L none (pop_sys t a).
Proof.
  intros R Q. assert (R' : Rest f L (delta a (f c)) (pop_sys t a)) by (eapply rest_rel; [apply rel_pop_sys|exact R]).
  assert (C1 := r_count _ _ _ _ R). assert (C2 := r_count _ _ _ _ R'). destruct R' as [R1 R2 R3 R4 R5 R6 R7 R8 R9]. constructor; auto.
  intros b n. unfold none. specialize (C1 b n). specialize (C2 b n). unfold delta in *.
  destruct (Nat.eqb_spec b a) as [->|N]; cbn [andb] in *; [|lia].
  assert (P : pend f t a n = pend f (pop_sys t a) a n + (if String.eqb n (f c) then 1 else 0)).
  { unfold pend, pop_sys, set_nd. cbn [nd]. rewrite upd_eq. cbn [sysq]. rewrite Q. cbn [filter named tl]. rewrite (String.eqb_sym (f c)).
    destruct (String.eqb n (f c)); cbn [length]; lia. }
  assert (D : dead f (pop_sys t a) (kids (nd (pop_sys t a) a)) n = dead f t (kids (nd t a)) n).
  { destruct (rel_pop_sys f t a a) as (_ & _ & _ & -> & _). apply dead_ext. intros k _. apply (rel_pop_sys f t a k). }
  destruct (String.eqb n (f c)); lia.
Qed.
Lemma first_named_some f n l : (exists k, In k l /\ f k = n) -> exists k l1 l2, first_named f n l = Some k /\ f k = n /\ l = l1 ++ k :: l2 /\ (forall j, In j l1 -> f j <> n).
Proof.
  induction l as [|y l IH]; intros (k & I & E); [contradiction|]. cbn [first_named]. destruct (String.eqb_spec (f y) n) as [Ey|Ny].
  - exists y, [], l. repeat split; auto.
  - destruct I as [->|I]; [congruence|]. destruct IH as (k' & l1 & l2 & E1 & E2 & -> & E4); [eauto|].
    exists k', (y :: l1), l2. repeat split; auto. intros j [<-|J]; auto.
Qed.
Lemma dead_some f t l n : 1 <= dead f t l n -> exists k, In k l /\ f k = n.
Proof.
  unfold dead. intro H. destruct (filter _ l) as [|k r] eqn:E; [cbn in H; lia|]. exists k.
  assert (I : In k (filter (fun k => stopped (nd t k) && String.eqb (f k) n) l)) by (rewrite E; left; reflexivity).
  apply filter_In in I as [I1 I2]. apply andb_prop in I2 as [_ I2]. apply String.eqb_eq in I2. auto.
Qed.
Lemma pend_in f t a c : In (SDetach c) (sysq (nd t a)) -> 1 <= pend f t a (f c).
Proof.
  intro H. unfold pend. assert (I : In (SDetach c) (filter (named f (f c)) (sysq (nd t a)))) by (apply filter_In; split; [exact H|cbn; apply String.eqb_refl]).
  destruct (filter _ _); [contradiction|cbn; lia].
Qed.
Lemma push_sys_ext t t' a m : (forall b, nd t b = nd t' b) -> forall b, nd (push_sys t a m) b = nd (push_sys t' a m) b.
Proof. intros E b. unfold push_sys. rewrite (E a). destruct (opn (nd t' a)); [|auto]. unfold set_nd. cbn [nd]. unfold upd. destruct (b =? a); auto. Qed.
Lemma push_usr_ext t t' a m : (forall b, nd t b = nd t' b) -> forall b, nd (push_usr t a m) b = nd (push_usr t' a m) b.
Proof. intros E b. unfold push_usr. rewrite (E a). destruct (opn (nd t' a)); [|auto]. unfold set_nd. cbn [nd]. unfold upd. destruct (b =? a); auto. Qed.
Lemma stop_unkid t a b : nd (stop_node (set_kids t a []) a) b = nd (stop_node t a) b.
Proof.
  unfold stop_node. 
  assert (E : att (nd (set_kids t a []) a) = att (nd t a) /\ par (nd (set_kids t a []) a) = par (nd t a)).
  { unfold set_kids, set_nd. cbn [nd]. rewrite upd_eq. auto. }
  destruct E as [-> ->].
  assert (X : forall b, nd (set_nd (set_kids t a []) a (Node (par (nd t a)) (att (nd t a)) (gone (nd (set_kids t a []) a)) [] (stopping (nd (set_kids t a []) a)) (killing (nd (set_kids t a []) a)) false false true (sysq (nd (set_kids t a []) a)) (usrq (nd (set_kids t a []) a)))) b =
     nd (set_nd t a (Node (par (nd t a)) (att (nd t a)) (gone (nd t a)) [] (stopping (nd t a)) (killing (nd t a)) false false true (sysq (nd t a)) (usrq (nd t a)))) b).
  { intro b'. unfold set_kids, set_nd. cbn [nd]. rewrite upd_eq. cbn. unfold upd. destruct (b' =? a); reflexivity. }
  destruct (is_guard a), (att (nd t a)); repeat first [apply push_sys_ext; intro | apply push_usr_ext; intro | apply X].
Qed.
Lemma stop_sysq t a : (att (nd t a) = true -> par (nd t a) <> a) -> sysq (nd (stop_node t a) a) = sysq (nd t a).
Proof.
  intro N. unfold stop_node.
  assert (P : forall s u, sysq (nd (push_usr s 0 u) a) = sysq (nd s a)).
  { intros s u. unfold push_usr. destruct (opn (nd s 0)); [|reflexivity]. unfold set_nd. cbn [nd]. unfold upd. destruct (Nat.eqb_spec a 0) as [->|]; reflexivity. }
  assert (Q : forall s p m, p <> a -> sysq (nd (push_sys s p m) a) = sysq (nd s a)).
  { intros s p m Np. unfold push_sys. destruct (opn (nd s p)); [|reflexivity]. unfold set_nd. cbn [nd]. rewrite upd_neq by auto. reflexivity. }
  destruct (att (nd t a)); destruct (is_guard a); rewrite ?Q, ?P by auto; unfold set_nd; cbn [nd]; rewrite upd_eq; reflexivity.
Qed.
Definition NInv (s : nstate) : Prop := Core (tree s) /\ Rest (nm s) (lost s) none (tree s).
Lemma detach_some s a c : NInv s -> In (SDetach c) (sysq (nd (tree s) a)) ->
  exists k l1 l2, first_named (nm s) (nm s c) (kids (nd (tree s) a)) = Some k /\ nm s k = nm s c /\
    kids (nd (tree s) a) = l1 ++ k :: l2 /\ (forall j, In j l1 -> nm s j <> nm s c).
Proof.
  intros [C R] I. apply first_named_some. apply dead_some with (t := tree s).
  assert (P := pend_in (nm s) (tree s) a c I). assert (K := r_count _ _ _ _ R a (nm s c)). unfold none in K. lia.
Qed.
Lemma remove_ok s a c : NInv s -> opn (nd (tree s) a) = true -> In (SDetach c) (sysq (nd (tree s) a)) ->
  let '(s1, ks) := remove_child s a c in
  exists k, In k (kids (nd (tree s) a)) /\ nm s k = nm s c /\ ks = remove_first k (kids (nd (tree s) a)) /\
    Core (tree s1) /\ Rest (nm s) (lost s1) (delta a (nm s c)) (set_kids (tree s1) a ks) /\ nm s1 = nm s /\ opn (nd (tree s1) k) = false /\
    nd (tree s1) a = nd (tree s) a /\ size (tree s1) = size (tree s).
Proof.
  intros [C R] Oa I. destruct (detach_some s a c (conj C R) I) as (k & l1 & l2 & E & Ek & El & _). unfold remove_child. rewrite E.
  assert (Ik : In k (kids (nd (tree s) a))) by (rewrite El; apply in_or_app; right; left; reflexivity).
  destruct (c_kids _ C a k Ik) as (Hk & _ & _).
  destruct (stopped (nd (tree s) k)) eqn:S.
  - exists k. split; [exact Ik|]. split; [exact Ek|]. split; [reflexivity|]. split; [exact C|]. split; [|split; [reflexivity|split; [apply (c_stopped _ C k S)|auto]]].
    rewrite <- Ek. apply rest_unkid with (L := lost s); auto.
  - destruct (erase_ok (size (tree s)) (tree s) k C) as (C1 & B1 & G1 & Z1 & W1); [lia|lia|exact (r_below _ _ _ _ R)|].
    cbn [tree nm lost]. set (t1 := erase (size (tree s)) (tree s) k) in *.
    assert (R1 : Rest (nm s) (lost s) none t1) by (eapply rest_razed; eauto).
    assert (Ea : nd t1 a = nd (tree s) a) by (apply W1; lia).
    exists k. split; [exact Ik|]. split; [exact Ek|]. split; [reflexivity|]. split; [exact C1|].
    split; [|split; [reflexivity|split; [apply (r_gone _ _ _ _ R1 k G1)|split; [exact Ea|apply Z1]]]].
    rewrite <- Ea, <- Ek. apply rest_unkid with (L := lost s); auto; try (rewrite Ea; auto).
    right. split; [|reflexivity]. destruct (razed_fields _ _ k Z1) as (_ & _ & _ & _ & _ & -> & _). exact S.
Qed.
Lemma remove_nil k l : In k l -> remove_first k l = [] -> l = [k].
Proof.
  destruct l as [|y l]; [contradiction|]. cbn [remove_first]. destruct (Nat.eqb_spec y k) as [->|N]; [intros _ ->; reflexivity|discriminate].
Qed.
Lemma size_stop t a : size (stop_node t a) = size t.
Proof.
  unfold stop_node, push_sys, push_usr. destruct (is_guard a), (att (nd t a)); cbn zeta;
  repeat match goal with |- context [if ?b then _ else _] => destruct b end; reflexivity.
Qed.
Lemma detach_ok s a c q : NInv s -> opn (nd (tree s) a) = true -> sysq (nd (tree s) a) = SDetach c :: q ->
  NInv (NState (pop_sys (tree (detach s a c)) a) (nm (detach s a c)) (lost (detach s a c))).
Proof.
  intros I Oa Q. assert (RO := remove_ok s a c I Oa). unfold detach. destruct (remove_child s a c) as [s1 ks].
  destruct RO as (k & Ik & Ek & Eks & C1 & R1 & En & Ok & Ea & Es); [rewrite Q; left; reflexivity|].
  assert (Ra : a < size (tree s1)) by (rewrite Es; destruct I; apply open_in_range; auto).
  cbn [tree nm lost]. rewrite En. split; cbn [tree nm lost].
  - apply pop_sys_core. destruct (stopping (nd (tree s1) a) && is_nil ks) eqn:St.
    + apply stop_node_core; auto. apply andb_prop in St as [_ St]. apply is_nil_spec in St. rewrite Ea.
      rewrite St in Eks. symmetry in Eks. rewrite (remove_nil _ _ Ik Eks). intros k' [<-|[]]. exact Ok.
    + rewrite Eks, <- Ea. apply set_kids_core; auto.
  - assert (Q1 : sysq (nd (set_kids (tree s1) a ks) a) = SDetach c :: q).
    { unfold set_kids, set_nd. cbn [nd]. rewrite upd_eq. cbn [sysq]. rewrite Ea. exact Q. }
    destruct (stopping (nd (tree s1) a) && is_nil ks) eqn:St; [|apply rest_pop with (c := c) (q := q); auto].
    apply andb_prop in St as [_ St]. apply is_nil_spec in St. subst ks.
    assert (C2 : Core (set_kids (tree s1) a [])).
    { rewrite <- St at 1. rewrite <- Ea. apply set_kids_core; auto. }
    rewrite St in *. set (t2 := set_kids (tree s1) a []) in *.
    assert (O2 : opn (nd t2 a) = true) by (unfold t2, set_kids, set_nd; cbn [nd]; rewrite upd_eq; cbn [opn]; rewrite Ea; exact Oa).
    assert (K2 : kids (nd t2 a) = []) by (unfold t2, set_kids, set_nd; cbn [nd]; rewrite upd_eq; reflexivity).
    assert (L2 : forall n, lost s1 a n = 0).
    { intro n. assert (X := r_count _ _ _ _ R1 a n). rewrite K2 in X. unfold delta in X. rewrite Nat.eqb_refl in X. cbn [andb dead filter length] in X.
      unfold dead in X. cbn [filter length] in X. destruct (String.eqb n (nm s c)) eqn:E2; [|lia]. apply String.eqb_eq in E2. rewrite E2 in *.
      assert (P := pend_in (nm s) t2 a c). rewrite Q1 in P. specialize (P (or_introl eq_refl)). lia. }
    assert (R3 : Rest (nm s) (lost s1) (delta a (nm s c)) (stop_node t2 a)) by (apply rest_stop; auto).
    apply rest_pop with (c := c) (q := q).
    + eapply rest_rel; [|exact R3]. assert (X : forall b, nd (stop_node (tree s1) a) b = nd (stop_node t2 a) b) by (intro; symmetry; apply stop_unkid).
      intro b. unfold pend. rewrite (X b). relt.
    + rewrite stop_sysq; [rewrite Ea; exact Q|]. intro A. destruct (c_att _ C1 a A) as [X _]. lia.
Qed.
(* ---- the steps ---- *)
Lemma handle_sys_rest f L t a m q ok : Core t -> Rest f L none t -> opn (nd t a) = true -> sysq (nd t a) = m :: q ->
  (forall c, m <> SDetach c) -> Rest f L none (handle_sys t a m ok).
Proof.
  intros C R O Q N. assert (I : In m (sysq (nd t a))) by (rewrite Q; left; reflexivity).
  assert (K : kids (nd t a) = [] -> Rest f L none (stop_node t a)).
  { intro K. apply rest_stop; auto. intro n. assert (X := r_count _ _ _ _ R a n). rewrite K in X. unfold dead, none in X. cbn [filter length] in X. lia. }
  destruct m as [| | |c|c]; cbn [handle_sys].
  - eapply rest_rel; [apply rel_start, (r_start _ _ _ _ R a I)|exact R].
  - destruct (is_nil (kids (nd t a))) eqn:E; [apply is_nil_spec in E; auto|].
    eapply rest_rel; [|exact R]. eapply rel_trans; [apply rel_stopping|apply rel_poison].
  - destruct (is_nil (kids (nd t a))) eqn:E; [apply is_nil_spec in E; auto|]. eapply rest_rel; [apply rel_stopping|exact R].
  - destruct (c_attq t C a c I) as [A1 A2]. destruct (stopping (nd t a)).
    + destruct (att (nd t c)) eqn:A; [exact R|]. apply rest_destroy; auto. lia.
    + apply rest_attach; auto; try lia. apply (r_att _ _ _ _ R a c I).
  - destruct (N c eq_refl).
Qed.
Lemma handle_usr_rest f L t a u q : Core t -> Rest f L none t -> opn (nd t a) = true -> usrq (nd t a) = u :: q ->
  Rest f L none (handle_usr t a u).
Proof.
  intros C R O Q. assert (I : In u (usrq (nd t a))) by (rewrite Q; left; reflexivity).
  assert (P : forall t0 b m, Rest f L none t0 -> ok_msg t0 b m -> (forall c, m <> SDetach c) -> Rest f L none (push_sys t0 b m)).
  { intros. eapply rest_rel; [apply rel_push_sys|]; auto. }
  destruct u as [|g c|b|g|]; cbn [handle_usr]; [|destruct (negb (a =? 0)); [exact R|]..|exact R].
  - apply P; [exact R|exact Logic.I|discriminate].
  - destruct (c_addq t C a g c I) as [Hg Hc]. destruct (opn (nd t g)).
    + apply P; [exact R| |discriminate]. cbn. apply (r_guard _ _ _ _ R g Hg).
    + destruct (att (nd t c)) eqn:A; [exact R|]. apply rest_destroy; auto. lia.
  - destruct b; repeat apply P; try discriminate; try exact Logic.I; exact R.
  - cbv zeta. match goal with |- context[State ?x ?y ?z ?t] => set (s1 := State x y z t) end.
    assert (R1 : Rest f L none s1) by (eapply rest_rel; [|exact R]; apply rel_nd; reflexivity).
    destruct (flag s1 1 && flag s1 2); [apply P; [exact R1|exact Logic.I|discriminate]|].
    destruct (flag s1 3 && flag s1 4); [|exact R1].
    destruct (flag s1 1), (flag s1 2); auto; repeat apply P; auto; try discriminate; exact Logic.I.
Qed.
Lemma rest_created f L t n : Core t -> Rest f L none t -> Core (new_actor t) /\ Rest (upd f (size t) n) L none (new_actor t).
Proof.
  intros C R. split; [apply new_actor_core, C|]. apply rest_new; [exact C|]. apply rest_names with (f := f); auto.
  intros c Hc. apply upd_neq. lia.
Qed.
Lemma step_rest f L t x n t' : Core t -> Rest f L none t -> step t x = Some t' ->
  (forall a ok c q, x = Handle a ok -> sysq (nd t a) <> SDetach c :: q) ->
  match x with CreateTop _ | CreateChild _ => Rest (upd f (size t) n) L none t' | _ => Rest f L none t' end.
Proof.
  intros C R H D. destruct x as [a ok|g|p|a|a k|b]; cbn [step] in H; cbv zeta in H.
  - destruct (opn (nd t a)) eqn:O; [|discriminate]. destruct (sysq (nd t a)) as [|m q] eqn:Q.
    + destruct (started (nd t a)); [|discriminate]. destruct (usrq (nd t a)) as [|u q] eqn:U; [discriminate|].
      injection H as <-. eapply rest_rel; [apply rel_pop_usr|]. eapply handle_usr_rest; eassumption.
    + injection H as <-. eapply rest_rel; [apply rel_pop_sys|]. eapply handle_sys_rest; eauto. intros c ->. eapply D; eauto.
  - destruct (is_guard g) eqn:G; [|discriminate]. destruct (rest_created f L t n C R) as [C1 R1].
    destruct (opn (nd (new_actor t) 0)); injection H as <-.
    + eapply rest_rel; [apply rel_push_usr|exact R1].
    + apply rest_destroy; auto; [assert (X := c_size t C); lia|]. unfold new_actor. cbn [nd]. rewrite upd_eq. reflexivity.
  - destruct ((5 <=? p) && opn (nd t p) && started (nd t p)) eqn:G; [|discriminate]. rewrite !andb_true_iff, Nat.leb_le in G.
    destruct G as [[G1 G2] G3]. assert (Lp := open_in_range t p C G2). injection H as <-. destruct (rest_created f L t n C R) as [C1 R1].
    eapply rest_rel; [apply rel_push_sys|exact R1]; [|discriminate]. cbn. unfold upd. destruct (Nat.eqb_spec p (size t)) as [E|E]; [lia|].
    destruct (r_started _ _ _ _ R p G3); [lia|auto].
  - injection H as <-. eapply rest_rel; [apply rel_push_sys|exact R]; [exact Logic.I|discriminate].
  - injection H as <-. eapply rest_rel; [apply rel_push_usr|exact R].
  - injection H as <-. eapply rest_rel; [|exact R]. eapply rel_trans; [apply rel_push_usr|apply rel_nd; reflexivity].
Qed.
Lemma nstep_cases s x s' : nstep s x = Some s' ->
  (exists a ok c q, fst x = Handle a ok /\ sysq (nd (tree s) a) = SDetach c :: q /\ opn (nd (tree s) a) = true /\
     s' = NState (pop_sys (tree (detach s a c)) a) (nm (detach s a c)) (lost (detach s a c))) \/
  (exists t', step (tree s) (fst x) = Some t' /\ (forall a ok c q, fst x = Handle a ok -> sysq (nd (tree s) a) <> SDetach c :: q) /\
     s' = NState t' (match fst x with CreateTop _ | CreateChild _ => upd (nm s) (size (tree s)) (snd x) | _ => nm s end) (lost s)).
Proof.
  destruct x as [x n]. unfold nstep. cbn [fst snd]. destruct x as [a ok|g|p|a|a k|b].
  - destruct (sysq (nd (tree s) a)) as [|[| | |c|c] q] eqn:Q.
    5: { destruct (step _ _) as [t'|] eqn:E; [|discriminate]. intro H. injection H as <-. right. exists t'. repeat split; auto. intros a' ok' c' q' X. injection X as <- _. rewrite Q. discriminate. }
    5: { destruct (opn (nd (tree s) a)) eqn:O; [|discriminate]. intro H. injection H as <-. left. exists a, ok, c, q. auto. }
    all: destruct (step _ _) as [t'|] eqn:E; [|discriminate]; intro H; injection H as <-; right; exists t'; repeat split; auto; intros a' ok' c' q' X; injection X as <- _; rewrite Q; discriminate.
  - destruct (step _ _) as [t'|] eqn:E; [|discriminate]. intro H. injection H as <-. right. exists t'. repeat split; auto. discriminate.
  - destruct (step _ _) as [t'|] eqn:E; [|discriminate]. intro H. injection H as <-. right. exists t'. repeat split; auto. discriminate.
  - destruct (step _ _) as [t'|] eqn:E; [|discriminate]. intro H. injection H as <-. right. exists t'. repeat split; auto. discriminate.
  - destruct (step _ _) as [t'|] eqn:E; [|discriminate]. intro H. injection H as <-. right. exists t'. repeat split; auto. discriminate.
  - destruct (step _ _) as [t'|] eqn:E; [|discriminate]. intro H. injection H as <-. right. exists t'. repeat split; auto. discriminate.
Qed.
Lemma nstep_ok s x s' : NInv s -> nstep s x = Some s' -> NInv s'.
Proof.
  intros I H. destruct (nstep_cases s x s' H) as [(a & ok & c & q & _ & Q & O & ->)|(t' & E & D & ->)].
  - apply detach_ok with (q := q); auto.
  - destruct I as [C R]. split; cbn [tree nm lost]; [eapply step_core; eauto|].
    assert (X := step_rest (nm s) (lost s) (tree s) (fst x) (snd x) t' C R E D). destruct (fst x); exact X.
Qed.
Lemma ninit_ok : NInv ninit.
Proof.
  split; [apply init_core|]. unfold ninit. cbn [tree nm lost].
  assert (X : forall b, 5 <= b -> nd init b = absent) by (intros b Hb; do 5 (destruct b; [lia|]); reflexivity).
  constructor.
  - intros a. do 5 (destruct a; [discriminate|]). reflexivity.
  - intros a c. do 5 (destruct a; [intro H; noin H; discriminate|]). intros [].
  - intros a. do 5 (destruct a; [intro H; noin H; reflexivity|]). intros [].
  - intros a. do 5 (destruct a; [auto|]). discriminate.
  - intros c. do 5 (destruct c; [auto|]). discriminate.
  - intros g Hg. destruct g; [lia|]. do 4 (destruct g; [reflexivity|]). lia.
  - intros k. do 5 (destruct k; [intros A S; try discriminate A; (split; [reflexivity|left; cbn; auto])|]). discriminate.
  - intros a n. do 5 (destruct a; [cbn; lia|]). cbn. lia.
  - intros a c. do 5 (destruct a; [discriminate|]). intros _ [].
Qed.
Lemma nrun_ok xs : forall s s', NInv s -> nrun s xs = Some s' -> NInv s'.
Proof.
  induction xs as [|x xs IH]; intros s s' I H; cbn [nrun] in H; [injection H as <-; exact I|].
  destruct (nstep s x) as [s1|] eqn:E; [|discriminate]. eapply IH; [eapply nstep_ok; eauto|exact H].
Qed.
(* ---- what a step keeps ---- *)
Definition keeps (t t' : state) : Prop :=
  size t <= size t' /\ forall b, b < size t ->
    (att (nd t b) = true -> att (nd t' b) = true /\ par (nd t' b) = par (nd t b)) /\
    (gone (nd t b) = true -> gone (nd t' b) = true) /\
    (opn (nd t b) = false -> opn (nd t' b) = false /\ stopped (nd t' b) = stopped (nd t b)).
Lemma keeps_refl t : keeps t t.
Proof. split; auto. Qed.
Lemma keeps_trans t1 t2 t3 : keeps t1 t2 -> keeps t2 t3 -> keeps t1 t3.
Proof.
  intros [A1 A2] [B1 B2]. split; [lia|]. intros b Hb. destruct (A2 b Hb) as (A & G & O). destruct (B2 b ltac:(lia)) as (A' & G' & O').
  split; [|split; [auto|]].
  - intro H. destruct (A H) as [X Y]. destruct (A' X) as [X' Y']. split; congruence.
  - intro H. destruct (O H) as [X Y]. destruct (O' X) as [X' Y']. split; congruence.
Qed.
Lemma keeps_rel f t t' : rel f t t' -> size t' = size t -> keeps t t'.
Proof.
  intros R E. split; [lia|]. intros b _. destruct (R b) as (P & A & G & _ & S & O & _). rewrite P, A, G, S. repeat split; auto.
  destruct (opn (nd t' b)); [rewrite O in H; auto|reflexivity].
Qed.
Lemma keeps_node t a v : (att (nd t a) = true -> att v = true /\ par v = par (nd t a)) -> (gone (nd t a) = true -> gone v = true) ->
  (opn (nd t a) = false -> opn v = false /\ stopped v = stopped (nd t a)) -> keeps t (set_nd t a v).
Proof.
  intros A G O. split; [cbn; lia|]. intros b _. unfold set_nd. cbn [nd]. unfold upd. destruct (Nat.eqb_spec b a) as [->|]; auto.
Qed.
Lemma size_push_sys t a m : size (push_sys t a m) = size t.
Proof. unfold push_sys. destruct (opn (nd t a)); reflexivity. Qed.
Lemma size_push_usr t a m : size (push_usr t a m) = size t.
Proof. unfold push_usr. destruct (opn (nd t a)); reflexivity. Qed.
Lemma keeps_push_sys t a m : keeps t (push_sys t a m).
Proof. unfold push_sys. destruct (opn (nd t a)) eqn:E; [|apply keeps_refl]. apply keeps_node; cbn; auto. congruence. Qed.
Lemma keeps_push_usr t a m : keeps t (push_usr t a m).
Proof. unfold push_usr. destruct (opn (nd t a)) eqn:E; [|apply keeps_refl]. apply keeps_node; cbn; auto. congruence. Qed.
Lemma keeps_poison l : forall t, keeps t (fold_left (fun s c => push_usr s c UPoison) l t).
Proof. induction l as [|c l IH]; intro t; cbn [fold_left]; [apply keeps_refl|]. eapply keeps_trans; [apply keeps_push_usr|apply IH]. Qed.
Lemma keeps_stop t a : opn (nd t a) = true -> keeps t (stop_node t a).
Proof.
  intro O. unfold stop_node.
  assert (X : forall t1, keeps t t1 -> keeps t (if is_guard a then push_usr t1 0 (UTerm a) else t1)).
  { intros t1 K. destruct (is_guard a); [eapply keeps_trans; [exact K|apply keeps_push_usr]|exact K]. }
  assert (Y : keeps t (set_nd t a (Node (par (nd t a)) (att (nd t a)) (gone (nd t a)) [] (stopping (nd t a)) (killing (nd t a)) false false true (sysq (nd t a)) (usrq (nd t a))))).
  { apply keeps_node; cbn; auto. congruence. }
  destruct (att (nd t a)); [eapply keeps_trans; [apply X, Y|apply keeps_push_sys]|apply X, Y].
Qed.
Lemma keeps_destroy t c : keeps t (destroy t c).
Proof. apply keeps_node; cbn; auto. Qed.
Lemma keeps_attach t a c : keeps t (attach t a c).
Proof.
  unfold attach. destruct (att (nd t c) || gone (nd t c)) eqn:E; [apply keeps_refl|]. apply orb_false_iff in E as [E1 E2].
  eapply keeps_trans; [|apply keeps_push_sys]. assert (K : keeps t (set_kids t a (kids (nd t a) ++ [c]))) by (apply keeps_node; cbn; auto).
  eapply keeps_trans; [exact K|].
  assert (X : att (nd (set_kids t a (kids (nd t a) ++ [c])) c) = att (nd t c)) by (unfold set_kids, set_nd; cbn [nd]; unfold upd; destruct (Nat.eqb_spec c a) as [->|]; reflexivity).
  apply keeps_node; [intro Y; exfalso; rewrite X in Y; congruence|cbn [gone]; auto|cbn [opn stopped]; auto].
Qed.
Lemma keeps_razed t t' : razed t t' -> keeps t t'.
Proof.
  intro Z. split; [destruct Z as [-> _]; lia|]. intros b _. destruct (razed_fields t t' b Z) as (-> & -> & _ & _ & _ & -> & _ & G & O).
  repeat split; auto. destruct (opn (nd t' b)); [destruct O; congruence|reflexivity].
Qed.
Lemma keeps_new t : keeps t (new_actor t).
Proof. split; [cbn; lia|]. intros b Hb. cbn [new_actor nd]. rewrite upd_neq by lia. auto. Qed.
Lemma keeps_flag t f r : keeps t (State (size t) (nd t) f r).
Proof. split; auto. Qed.
Lemma keeps_pop_sys t a : keeps t (pop_sys t a).
Proof. apply keeps_node; cbn; auto. Qed.
Lemma keeps_pop_usr t a : keeps t (pop_usr t a).
Proof. apply keeps_node; cbn; auto. Qed.
Lemma keeps_step t x t' : step t x = Some t' -> keeps t t'.
Proof.
  intro H. destruct x as [a ok|g|p|a|a k|b]; cbn [step] in H; cbv zeta in H.
  - destruct (opn (nd t a)) eqn:O; [|discriminate]. destruct (sysq (nd t a)) as [|m q] eqn:Q.
    + destruct (started (nd t a)); [|discriminate]. destruct (usrq (nd t a)) as [|u q] eqn:U; [discriminate|]. injection H as <-.
      eapply keeps_trans; [|apply keeps_pop_usr].
      destruct u as [|g c|b|g|]; cbn [handle_usr]; [apply keeps_push_sys|destruct (negb (a =? 0)); [apply keeps_refl|]..|apply keeps_refl].
      * destruct (opn (nd t g)); [apply keeps_push_sys|]. destruct (att (nd t c)); [apply keeps_refl|apply keeps_destroy].
      * eapply keeps_trans; apply keeps_push_sys.
      * cbv zeta. match goal with |- context[State ?x ?y ?z ?t] => set (s1 := State x y z t) end.
        assert (K1 : keeps t s1) by apply keeps_flag.
        destruct (flag s1 1 && flag s1 2); [eapply keeps_trans; [exact K1|apply keeps_push_sys]|].
        destruct (flag s1 3 && flag s1 4); [|exact K1].
        destruct (flag s1 1), (flag s1 2); repeat (eapply keeps_trans; [|apply keeps_push_sys]); exact K1.
    + injection H as <-. eapply keeps_trans; [|apply keeps_pop_sys]. destruct m as [| | |c|c]; cbn [handle_sys].
      * apply keeps_node; cbn; auto. intro. destruct ok; auto.
      * destruct (is_nil (kids (nd t a))); [apply keeps_stop, O|]. eapply keeps_trans; [|apply keeps_poison]. apply keeps_node; cbn; auto.
      * destruct (is_nil (kids (nd t a))); [apply keeps_stop, O|]. apply keeps_node; cbn; auto.
      * destruct (stopping (nd t a)); [|apply keeps_attach]. destruct (att (nd t c)); [apply keeps_refl|apply keeps_destroy].
      * destruct (stopping (nd t a) && is_nil (remove_first c (kids (nd t a)))); [apply keeps_stop, O|]. apply keeps_node; cbn; auto.
  - destruct (is_guard g); [|discriminate]. destruct (opn (nd (new_actor t) 0)); injection H as <-;
      (eapply keeps_trans; [apply keeps_new|]); [apply keeps_push_usr|apply keeps_destroy].
  - destruct ((5 <=? p) && opn (nd t p) && started (nd t p)); [|discriminate]. injection H as <-.
    eapply keeps_trans; [apply keeps_new|apply keeps_push_sys].
  - injection H as <-. apply keeps_push_sys.
  - injection H as <-. apply keeps_push_usr.
  - injection H as <-. eapply keeps_trans; [apply keeps_push_usr|]. apply keeps_flag.
Qed.
Lemma keeps_remove s a c : NInv s -> opn (nd (tree s) a) = true -> In (SDetach c) (sysq (nd (tree s) a)) ->
  keeps (tree s) (tree (fst (remove_child s a c))).
Proof.
  intros [C R] O I. destruct (detach_some s a c (conj C R) I) as (k & l1 & l2 & E & Ek & El & _). unfold remove_child. rewrite E.
  destruct (stopped (nd (tree s) k)); [apply keeps_refl|]. cbn [fst tree].
  assert (Ik : In k (kids (nd (tree s) a))) by (rewrite El; apply in_or_app; right; left; reflexivity).
  destruct (c_kids _ C a k Ik) as (Hk & _ & _). apply keeps_razed.
  apply erase_ok; [exact C|lia|lia|exact (r_below _ _ _ _ R)].
Qed.
Lemma keeps_nstep s x s' : NInv s -> nstep s x = Some s' -> keeps (tree s) (tree s').
Proof.
  intros I H. destruct (nstep_cases s x s' H) as [(a & ok & c & q & _ & Q & O & ->)|(t' & E & D & ->)]; cbn [tree]; [|eapply keeps_step; eauto].
  assert (J : In (SDetach c) (sysq (nd (tree s) a))) by (rewrite Q; left; reflexivity).
  eapply keeps_trans; [|apply keeps_pop_sys]. unfold detach. assert (K := keeps_remove s a c I O J). assert (RO := remove_ok s a c I O J).
  destruct (remove_child s a c) as [s1 ks]. cbn [fst] in K. destruct RO as (k & _ & _ & _ & _ & _ & _ & _ & Ea & _). cbn [tree].
  eapply keeps_trans; [exact K|]. destruct (stopping (nd (tree s1) a) && is_nil ks); [apply keeps_stop; rewrite Ea; exact O|].
  apply keeps_node; cbn; auto.
Qed.
Lemma keeps_nrun xs : forall s s', NInv s -> nrun s xs = Some s' -> keeps (tree s) (tree s').
Proof.
  induction xs as [|x xs IH]; intros s s' I H; cbn [nrun] in H; [injection H as <-; apply keeps_refl|].
  destruct (nstep s x) as [s1|] eqn:E; [|discriminate]. eapply keeps_trans; [eapply keeps_nstep; eauto|]. eapply IH; [eapply nstep_ok; eauto|exact H].
Qed.
Lemma att_in t b : Core t -> att (nd t b) = true -> b < size t.
Proof. intros C A. destruct (le_lt_dec (size t) b) as [H|H]; [rewrite (c_abs t C b H) in A; discriminate|exact H]. Qed.
Lemma vanished_stays s xs s' k : NInv s -> vanished (tree s) k -> nrun s xs = Some s' -> vanished (tree s') k.
Proof.
  intros I (A & G & St) H. destruct (keeps_nrun xs s s' I H) as [_ K]. destruct I as [C R]. destruct (K k (att_in _ _ C A)) as (K1 & K2 & K3).
  destruct (K1 A). destruct (K3 (r_gone _ _ _ _ R k G)). repeat split; auto. congruence.
Qed.
(* the actor and those above it *)
Inductive above (t : state) (k : nat) : nat -> Prop :=
| above_self : above t k k
| above_par : forall q, above t k q -> q <> 0 -> above t k (par (nd t q)).
Lemma up_open s k p : NInv s -> att (nd (tree s) k) = true -> stopped (nd (tree s) k) = false -> above (tree s) k p ->
  stopped (nd (tree s) p) = false /\ (p = 0 \/ att (nd (tree s) p) = true).
Proof.
  intros [C R] A St H. induction H as [|q H IH N]; [auto|]. destruct IH as [S1 [E|A1]]; [contradiction|].
  destruct (r_kid _ _ _ _ R q A1 S1) as [X _]. split; [exact X|]. apply (r_up _ _ _ _ R q A1).
Qed.
Lemma up_root s k : NInv s -> att (nd (tree s) k) = true -> above (tree s) k 0.
Proof.
  intros [C R] A.
  assert (X : forall n q, q < n -> above (tree s) k q -> q = 0 \/ att (nd (tree s) q) = true -> above (tree s) k 0).
  { induction n as [|n IH]; intros q Hq H [E|Aq]; [lia|lia|congruence|].
    destruct (Nat.eq_dec q 0) as [E|N]; [congruence|]. destruct (c_att _ C q Aq) as [P _].
    apply (IH (par (nd (tree s) q))); [lia|constructor; auto|apply (r_up _ _ _ _ R q Aq)]. }
  apply (X (S k) k); auto. constructor.
Qed.
(* ---- numbered actors: the reports of stopped children ---- *)
Definition dets (q : list smsg) : list nat := flat_map (fun m => match m with SDetach c => [c] | _ => [] end) q.
Record Det (t : state) : Prop := {
  d_nodup : forall a, NoDup (dets (sysq (nd t a)));
  d_in : forall a c, In c (dets (sysq (nd t a))) -> In c (kids (nd t a)) /\ stopped (nd t c) = true;
  d_gone : forall b, gone (nd t b) = true -> att (nd t b) = false \/ b = 0
}.
Definition drel (t t' : state) : Prop := forall b,
  kids (nd t' b) = kids (nd t b) /\ stopped (nd t' b) = stopped (nd t b) /\ (gone (nd t' b) = true -> gone (nd t b) = true \/ att (nd t b) = false) /\
  att (nd t' b) = att (nd t b) /\ (dets (sysq (nd t' b)) = dets (sysq (nd t b)) \/ exists c, dets (sysq (nd t b)) = c :: dets (sysq (nd t' b))).
Lemma det_rel t t' : drel t t' -> Det t -> Det t'.
Proof.
  intros R [D1 D2 D3]. constructor.
  - intro a. destruct (R a) as (_ & _ & _ & _ & [->|[c E]]); [auto|]. specialize (D1 a). rewrite E in D1. inversion D1. auto.
  - intros a c I. destruct (R a) as (-> & _ & _ & _ & E). destruct (R c) as (_ & -> & _). apply D2.
    destruct E as [E|[d E]]; [congruence|]. rewrite E. right. exact I.
  - intros b G. destruct (R b) as (_ & _ & X & -> & _). destruct (X G); auto.
Qed.
Ltac drelt := repeat split; auto.
Lemma drel_refl t : drel t t.
Proof. intro b. drelt. Qed.
Lemma drel_node t a v : kids v = kids (nd t a) -> stopped v = stopped (nd t a) -> (gone v = true -> gone (nd t a) = true \/ att (nd t a) = false) -> att v = att (nd t a) ->
  (dets (sysq v) = dets (sysq (nd t a)) \/ exists c, dets (sysq (nd t a)) = c :: dets (sysq v)) -> drel t (set_nd t a v).
Proof. intros K S G A D b. unfold set_nd. cbn [nd]. unfold upd. destruct (b =? a) eqn:E; [apply Nat.eqb_eq in E; rewrite E|]; drelt. Qed.
Lemma dets_app q m : (forall c, m <> SDetach c) -> dets (q ++ [m]) = dets q.
Proof. intro N. unfold dets. rewrite flat_map_app. cbn [flat_map]. destruct m; try apply app_nil_r. destruct (N c eq_refl). Qed.
Lemma det_push_sys t a m : (forall c, m <> SDetach c) -> Det t -> Det (push_sys t a m).
Proof.
  intros N. apply det_rel. unfold push_sys. destruct (opn (nd t a)); [|apply drel_refl]. apply drel_node; cbn; auto. left. apply dets_app, N.
Qed.
Lemma det_push_usr t a m : Det t -> Det (push_usr t a m).
Proof. apply det_rel. unfold push_usr. destruct (opn (nd t a)); [|apply drel_refl]. apply drel_node; cbn; auto. Qed.
Lemma det_poison l : forall t, Det t -> Det (fold_left (fun s c => push_usr s c UPoison) l t).
Proof. induction l as [|c l IH]; intros t D; cbn [fold_left]; [exact D|]. apply IH, det_push_usr, D. Qed.
Lemma det_pop_usr t a : Det t -> Det (pop_usr t a).
Proof. apply det_rel, drel_node; cbn; auto. Qed.
Lemma det_pop_sys t a : Det t -> Det (pop_sys t a).
Proof.
  apply det_rel, drel_node; cbn [kids stopped gone att sysq]; auto. destruct (sysq (nd t a)) as [|m q]; [auto|]. cbn [tl].
  destruct m; try (left; reflexivity). right. exists c. reflexivity.
Qed.
Lemma det_destroy t c : att (nd t c) = false -> Det t -> Det (destroy t c).
Proof. intro A. apply det_rel, drel_node; cbn; auto. Qed.
Lemma det_flag t f r : Det t -> Det (State (size t) (nd t) f r).
Proof. intros [D1 D2 D3]. constructor; auto. Qed.
Lemma det_ext t t' : (forall b, nd t' b = nd t b) -> Det t -> Det t'.
Proof. intros E. apply det_rel. intro b. rewrite (E b). drelt. Qed.
Lemma det_new t : Core t -> Det t -> Det (new_actor t).
Proof.
  intros C [D1 D2 D3]. unfold new_actor. constructor; cbn [nd]; unfold upd.
  - intro a. destruct (a =? size t); [constructor|auto].
  - intros a c. destruct (a =? size t) eqn:E; [contradiction|]. intro I. destruct (D2 a c I) as [K S]. destruct (c_kids t C a c K) as (X & _).
    destruct (Nat.eqb_spec c (size t)); [lia|auto].
  - intro b. destruct (b =? size t); [discriminate|auto].
Qed.
Lemma det_attach t a c : Det t -> Det (attach t a c).
Proof.
  intros D. unfold attach. destruct (att (nd t c) || gone (nd t c)) eqn:E; [exact D|]. apply orb_false_iff in E as [E1 E2].
  apply det_push_sys; [discriminate|]. destruct D as [D1 D2 D3]. constructor; unfold set_kids, set_nd; cbn [nd].
  - intro b. unfold upd. destruct (Nat.eqb_spec b c) as [->|]; cbn [sysq]; [destruct (Nat.eqb_spec c a) as [->|]; cbn [sysq]; auto|].
    destruct (Nat.eqb_spec b a) as [->|]; cbn [sysq]; auto.
  - intros b k I.
    assert (F : forall j, sysq (nd t j) = sysq (upd (upd (nd t) a (Node (par (nd t a)) (att (nd t a)) (gone (nd t a)) (kids (nd t a) ++ [c]) (stopping (nd t a)) (killing (nd t a)) (started (nd t a)) (opn (nd t a)) (stopped (nd t a)) (sysq (nd t a)) (usrq (nd t a)))) c
        (let v1 := upd (nd t) a (Node (par (nd t a)) (att (nd t a)) (gone (nd t a)) (kids (nd t a) ++ [c]) (stopping (nd t a)) (killing (nd t a)) (started (nd t a)) (opn (nd t a)) (stopped (nd t a)) (sysq (nd t a)) (usrq (nd t a))) c in
          Node a true (gone v1) (kids v1) (stopping v1) (killing v1) (started v1) (opn v1) (stopped v1) (sysq v1) (usrq v1)) j)).
    { intro j. unfold upd. destruct (Nat.eqb_spec j c) as [->|]; cbn [sysq]; [destruct (Nat.eqb_spec c a) as [->|]; cbn [sysq]; auto|].
      destruct (Nat.eqb_spec j a) as [->|]; cbn [sysq]; auto. }
    cbv zeta in F. cbn zeta in I. rewrite <- F in I. destruct (D2 b k I) as [K S]. split.
    + unfold upd. destruct (Nat.eqb_spec b c) as [->|]; cbn [kids].
      * destruct (Nat.eqb_spec c a) as [->|]; cbn [kids]; auto. apply in_or_app. auto.
      * destruct (Nat.eqb_spec b a) as [->|]; cbn [kids]; auto. apply in_or_app. auto.
    + unfold upd. destruct (Nat.eqb_spec k c) as [->|]; cbn [stopped].
      * destruct (Nat.eqb_spec c a) as [->|]; cbn [stopped]; auto.
      * destruct (Nat.eqb_spec k a) as [->|]; cbn [stopped]; auto.
  - intro b. unfold upd. destruct (Nat.eqb_spec b c) as [->|]; cbn [gone att].
    + destruct (Nat.eqb_spec c a) as [->|]; cbn [gone]; congruence.
    + destruct (Nat.eqb_spec b a) as [->|]; cbn [gone att]; auto.
Qed.
Lemma det_stop t a : Core t -> Det t -> opn (nd t a) = true -> dets (sysq (nd t a)) = [] -> Det (stop_node t a).
Proof.
  intros C D O E. unfold stop_node.
  assert (Sa : stopped (nd t a) = false) by (destruct (stopped (nd t a)) eqn:S; [destruct (c_stopped t C a S); congruence|reflexivity]).
  set (t1 := set_nd t a _).
  assert (D1 : Det t1).
  { destruct D as [D1 D2 D3]. unfold t1, set_nd. constructor; cbn [nd]; unfold upd.
    - intro b. destruct (Nat.eqb_spec b a) as [->|]; cbn [sysq]; auto.
    - intros b k. destruct (Nat.eqb_spec b a) as [->|]; cbn [sysq kids]; [rewrite E; contradiction|]. intro I. destruct (D2 b k I) as [K S].
      split; [exact K|]. destruct (Nat.eqb_spec k a) as [->|]; [reflexivity|exact S].
    - intro b. destruct (Nat.eqb_spec b a) as [->|]; cbn [gone att]; auto. }
  assert (N1 : forall b, ~ In a (dets (sysq (nd t1 b)))).
  { intros b I. assert (X : In a (dets (sysq (nd t b)))).
    { revert I. unfold t1, set_nd. cbn [nd]. unfold upd. destruct (Nat.eqb_spec b a) as [->|]; auto. }
    destruct (d_in t D b a X). congruence. }
  assert (S1 : stopped (nd t1 a) = true) by (unfold t1, set_nd; cbn [nd]; rewrite upd_eq; reflexivity).
  set (t2 := if is_guard a then push_usr t1 0 (UTerm a) else t1).
  assert (F : forall b, sysq (nd t2 b) = sysq (nd t1 b) /\ kids (nd t2 b) = kids (nd t1 b) /\ stopped (nd t2 b) = stopped (nd t1 b)).
  { intro b. unfold t2. destruct (is_guard a); [|auto]. unfold push_usr. destruct (opn (nd t1 0)); [|auto]. unfold set_nd. cbn [nd]. unfold upd.
    destruct (Nat.eqb_spec b 0) as [->|]; auto. }
  assert (D2 : Det t2) by (unfold t2; destruct (is_guard a); [apply det_push_usr|]; exact D1).
  destruct (att (nd t a)) eqn:A; [|exact D2]. destruct (c_att t C a A) as [P [K|K]]; [|congruence].
  unfold push_sys. destruct (opn (nd t2 (par (nd t a)))); [|exact D2]. set (p := par (nd t a)) in *.
  assert (Kp : In a (kids (nd t2 p))).
  { destruct (F p) as (_ & -> & _). unfold t1, set_nd. cbn [nd]. unfold upd. destruct (Nat.eqb_spec p a); [lia|exact K]. }
  destruct D2 as [Da Db Dc]. unfold set_nd. constructor; cbn [nd]; unfold upd.
  - intro b. destruct (Nat.eqb_spec b p) as [->|]; [|auto]. cbn [sysq]. unfold dets. rewrite flat_map_app. cbn [flat_map app].
    apply NoDup_app_comm_nat. cbn [app]. constructor; [|apply Da]. destruct (F p) as (-> & _). apply N1.
  - intros b k I.
    assert (X : In k (dets (sysq (nd t2 b))) \/ (b = p /\ k = a)).
    { revert I. destruct (Nat.eqb_spec b p) as [->|]; [|auto]. cbn [sysq]. unfold dets. rewrite flat_map_app. intro I. apply in_app_or in I as [I|[<-|[]]]; auto. }
    assert (Y : In k (kids (nd t2 b)) /\ stopped (nd t2 k) = true).
    { destruct X as [X|[-> ->]]; [auto|]. split; [exact Kp|]. destruct (F a) as (_ & _ & ->). exact S1. }
    destruct Y as [Y1 Y2]. split; [destruct (Nat.eqb_spec b p) as [->|]; exact Y1|destruct (Nat.eqb_spec k p) as [->|]; exact Y2].
  - intro b. destruct (Nat.eqb_spec b p) as [->|]; cbn [gone att]; auto.
Qed.
Lemma pop_push_sys t a p m b : p <> a -> nd (pop_sys (push_sys t p m) a) b = nd (push_sys (pop_sys t a) p m) b.
Proof.
  intro N. unfold push_sys, pop_sys, set_nd. cbn [nd]. rewrite (upd_neq (nd t) a _ p N). destruct (opn (nd t p)); cbn [nd]; [|reflexivity].
  unfold upd. destruct (Nat.eqb_spec b a) as [->|]; destruct (Nat.eqb_spec a p) as [E|]; try congruence; destruct (b =? p); reflexivity.
Qed.
Lemma pop_push_usr t a p m b : p <> a -> nd (pop_sys (push_usr t p m) a) b = nd (push_usr (pop_sys t a) p m) b.
Proof.
  intro N. unfold push_usr, pop_sys, set_nd. cbn [nd]. rewrite (upd_neq (nd t) a _ p N). destruct (opn (nd t p)); cbn [nd]; [|reflexivity].
  unfold upd. destruct (Nat.eqb_spec b a) as [->|]; destruct (Nat.eqb_spec a p) as [E|]; try congruence; destruct (b =? p); reflexivity.
Qed.
Lemma pop_ext t t' a : (forall b, nd t b = nd t' b) -> forall b, nd (pop_sys t a) b = nd (pop_sys t' a) b.
Proof. intros E b. unfold pop_sys, set_nd. cbn [nd]. unfold upd. rewrite (E a). destruct (b =? a); auto. Qed.
Lemma pop_stop t a : (att (nd t a) = true -> par (nd t a) <> a) -> forall b, nd (pop_sys (stop_node t a) a) b = nd (stop_node (pop_sys t a) a) b.
Proof.
  intros N b. unfold stop_node.
  assert (Ea : att (nd (pop_sys t a) a) = att (nd t a) /\ par (nd (pop_sys t a) a) = par (nd t a)).
  { unfold pop_sys, set_nd. cbn [nd]. rewrite upd_eq. auto. }
  destruct Ea as [-> ->]. set (t1 := set_nd t a _). set (t1' := set_nd (pop_sys t a) a _).
  assert (E1 : forall b, nd (pop_sys t1 a) b = nd t1' b).
  { intro b'. unfold t1, t1', pop_sys, set_nd. cbn [nd]. rewrite !upd_eq. cbn. unfold upd. destruct (b' =? a); reflexivity. }
  assert (E2 : forall b, nd (pop_sys (if is_guard a then push_usr t1 0 (UTerm a) else t1) a) b = nd (if is_guard a then push_usr t1' 0 (UTerm a) else t1') b).
  { intro b'. destruct (is_guard a) eqn:G; [|apply E1]. apply is_guard_spec in G. rewrite pop_push_usr by lia. apply push_usr_ext, E1. }
  destruct (att (nd t a)); [|apply E2]. rewrite pop_push_sys by auto. apply push_sys_ext, E2.
Qed.
Lemma remove_first_other c l d : In d l -> d <> c -> In d (remove_first c l).
Proof. intros I N. destruct (in_remove_first c l d I); [auto|contradiction]. Qed.
Lemma det_step t x t' : Core t -> Det t -> step t x = Some t' -> Det t'.
Proof.
  intros C D H. destruct x as [a ok|g|p|a|a k|b]; cbn [step] in H; cbv zeta in H.
  - destruct (opn (nd t a)) eqn:O; [|discriminate]. destruct (sysq (nd t a)) as [|m q] eqn:Q.
    + destruct (started (nd t a)); [|discriminate]. destruct (usrq (nd t a)) as [|u q] eqn:U; [discriminate|]. injection H as <-. apply det_pop_usr.
      destruct u as [|g c|b|g|]; cbn [handle_usr]; [apply det_push_sys; [discriminate|exact D]|destruct (negb (a =? 0)); [exact D|]..|exact D].
      * destruct (opn (nd t g)); [apply det_push_sys; [discriminate|exact D]|]. destruct (att (nd t c)) eqn:A; [exact D|apply det_destroy; auto].
      * destruct b; repeat apply det_push_sys; auto; discriminate.
      * cbv zeta. match goal with |- context[State ?x ?y ?z ?t] => set (s1 := State x y z t) end.
        assert (K1 : Det s1) by (apply det_flag, D).
        destruct (flag s1 1 && flag s1 2); [apply det_push_sys; [discriminate|exact K1]|].
        destruct (flag s1 3 && flag s1 4); [|exact K1].
        destruct (flag s1 1), (flag s1 2); repeat apply det_push_sys; auto; discriminate.
    + injection H as <-.
      assert (Z : kids (nd t a) = [] -> dets (sysq (nd t a)) = []).
      { intro K. destruct (dets (sysq (nd t a))) as [|d r] eqn:E; [reflexivity|]. destruct (d_in t D a d) as [X _]; [rewrite E; left; reflexivity|]. rewrite K in X. contradiction. }
      destruct m as [| | |c|c]; cbn [handle_sys]; [apply det_pop_sys..|].
      * revert D. apply det_rel, drel_node; cbn; auto.
      * destruct (is_nil (kids (nd t a))) eqn:K; [apply is_nil_spec in K; apply det_stop; auto|]. apply det_poison. revert D. apply det_rel, drel_node; cbn; auto.
      * destruct (is_nil (kids (nd t a))) eqn:K; [apply is_nil_spec in K; apply det_stop; auto|]. revert D. apply det_rel, drel_node; cbn; auto.
      * destruct (stopping (nd t a)); [|apply det_attach, D]. destruct (att (nd t c)) eqn:A; [exact D|apply det_destroy; auto].
      * assert (D0 := det_pop_sys t a D). assert (C0 := pop_sys_core t a C).
        assert (T : forall d, In d (dets (sysq (nd (pop_sys t a) a))) -> In d (remove_first c (kids (nd t a)))).
        { intros d. unfold pop_sys, set_nd. cbn [nd]. rewrite upd_eq. cbn [sysq]. rewrite Q. cbn [tl]. intro I.
          assert (X := d_nodup t D a). assert (Y := d_in t D a d). rewrite Q in X, Y. cbn [dets flat_map app] in X, Y. fold (dets q) in X, Y. inversion X; subst.
          destruct Y as [Y _]; [right; exact I|]. apply remove_first_other; [exact Y|congruence]. }
        destruct (stopping (nd t a) && is_nil (remove_first c (kids (nd t a)))) eqn:St.
        -- apply andb_prop in St as [_ St]. apply is_nil_spec in St. rewrite St in T.
           apply det_ext with (t := stop_node (pop_sys t a) a); [apply pop_stop; intro A; destruct (c_att t C a A); lia|].
           apply det_stop; auto; [unfold pop_sys, set_nd; cbn [nd]; rewrite upd_eq; exact O|].
           clear Z; destruct (dets (sysq (nd (pop_sys t a) a))) as [|d r] eqn:E; [reflexivity|destruct (T d); left; reflexivity].
        -- apply det_ext with (t := set_kids (pop_sys t a) a (remove_first c (kids (nd t a)))).
           { intro b. unfold pop_sys, set_kids, set_nd. cbn [nd]. rewrite !upd_eq. cbn. unfold upd. destruct (b =? a); reflexivity. }
           destruct D0 as [D1 D2 D3]. set (t0 := pop_sys t a) in *. unfold set_kids, set_nd. constructor; cbn [nd]; unfold upd.
           ++ intro b. destruct (Nat.eqb_spec b a) as [->|]; cbn [sysq]; auto.
           ++ intros b d I. destruct (Nat.eqb_spec b a) as [->|Nb]; cbn [sysq kids] in *.
              ** split; [apply T, I|]. destruct (D2 a d I) as [_ X]. destruct (Nat.eqb_spec d a) as [->|]; exact X.
              ** destruct (D2 b d I) as [Y X]. split; [exact Y|]. destruct (Nat.eqb_spec d a) as [->|]; exact X.
           ++ intro b. destruct (Nat.eqb_spec b a) as [->|]; cbn [gone att]; auto.
  - destruct (is_guard g); [|discriminate]. assert (D1 := det_new t C D). destruct (opn (nd (new_actor t) 0)); injection H as <-.
    + apply det_push_usr, D1.
    + apply det_destroy; [|exact D1]. unfold new_actor. cbn [nd]. rewrite upd_eq. reflexivity.
  - destruct ((5 <=? p) && opn (nd t p) && started (nd t p)); [|discriminate]. injection H as <-. apply det_push_sys; [discriminate|apply det_new; auto].
  - injection H as <-. apply det_push_sys; [discriminate|exact D].
  - injection H as <-. apply det_push_usr, D.
  - injection H as <-. apply det_flag, det_push_usr, D.
Qed.
Lemma det_init : Det init.
Proof.
  constructor.
  - intro a. do 5 (destruct a; [constructor|]). constructor.
  - intros a c. do 5 (destruct a; [intros []|]). intros [].
  - intro b. do 5 (destruct b; [discriminate|]). auto.
Qed.
(* ---- with names that differ, the tree of numbered actors ---- *)
Lemma first_named_split f c l r : (forall k, In k l -> f k <> f c) -> first_named f (f c) (l ++ c :: r) = Some c.
Proof.
  induction l as [|y l IH]; intro H; cbn [first_named app]; [rewrite String.eqb_refl; reflexivity|].
  destruct (String.eqb_spec (f y) (f c)) as [E|N]; [destruct (H y (or_introl eq_refl) E)|]. apply IH. intros k K. apply H. right. exact K.
Qed.
Lemma step_alike s x : Det (tree s) -> in_order s (fst x) -> option_map tree (nstep s x) = step (tree s) (fst x).
Proof.
  intros D. destruct x as [x n]. unfold nstep. cbn [fst snd]. destruct x as [a ok|g|p|a|a k|b]; cbn [in_order];
    try (intros _; destruct (step (tree s) _); reflexivity).
  intro I. destruct (sysq (nd (tree s) a)) as [|m q] eqn:Q; [destruct (step (tree s) _); reflexivity|].
  destruct m as [| | |c|c]; try (destruct (step (tree s) _); reflexivity).
  cbn [step]. rewrite Q. destruct (opn (nd (tree s) a)); [|reflexivity]. cbn [option_map tree]. do 2 f_equal.
  destruct (d_in _ D a c) as [K S]; [rewrite Q; left; reflexivity|].
  destruct (in_split c _ K) as (l & r & E). specialize (I c q eq_refl l r E).
  unfold detach, remove_child. rewrite E, (first_named_split _ c l r I). rewrite S. cbn [tree handle_sys]. rewrite E. reflexivity.
Qed.
Lemma run_alike xs : forall s, Core (tree s) -> Det (tree s) -> nrun_all in_order s xs -> option_map tree (nrun s xs) = run (tree s) (map fst xs).
Proof.
  induction xs as [|x xs IH]; intros s C D H; cbn [nrun map run]; [reflexivity|]. cbn [nrun_all] in H. destruct H as [H1 H2].
  assert (E := step_alike s x D H1). destruct (nstep s x) as [s1|] eqn:E1; cbn [option_map] in E; rewrite <- E; [|reflexivity].
  apply IH; [eapply step_core; eauto|eapply det_step; eauto|exact H2].
Qed.
Lemma det_run xs : forall t t', Core t -> Det t -> run t xs = Some t' -> Det t'.
Proof.
  induction xs as [|x xs IH]; intros t t' C D H; cbn [run] in H; [injection H as <-; exact D|].
  destruct (step t x) as [t1|] eqn:E; [|discriminate]. eapply IH; [eapply step_core; eauto|eapply det_step; eauto|exact H].
Qed.
(* siblings have distinct names *)
Definition Apart (s : nstate) : Prop := forall a k j, In k (kids (nd (tree s) a)) -> In j (kids (nd (tree s) a)) -> nm s k = nm s j -> k = j.
Lemma apart_in_order s x : Core (tree s) -> Apart s -> in_order s x.
Proof.
  intros C A. destruct x as [a ok| | | | |]; cbn [in_order]; auto. intros c q _ l r E k K F.
  assert (X : k = c) by (apply (A a); [rewrite E; apply in_or_app; auto|rewrite E; apply in_or_app; right; left; reflexivity|exact F]).
  assert (N := c_nodup _ C a). rewrite E in N. apply NoDup_remove_2 in N. apply N. apply in_or_app. left. congruence.
Qed.
Definition kids_within (t t' : state) : Prop := forall b c, In c (kids (nd t' b)) -> In c (kids (nd t b)).
Lemma within_sys t a m b : kids (nd (push_sys t a m) b) = kids (nd t b).
Proof. unfold push_sys. destruct (opn (nd t a)); [|reflexivity]. unfold set_nd. cbn [nd]. unfold upd. destruct (Nat.eqb_spec b a) as [->|]; reflexivity. Qed.
Lemma within_usr t a m b : kids (nd (push_usr t a m) b) = kids (nd t b).
Proof. unfold push_usr. destruct (opn (nd t a)); [|reflexivity]. unfold set_nd. cbn [nd]. unfold upd. destruct (Nat.eqb_spec b a) as [->|]; reflexivity. Qed.
Lemma within_poison l : forall t b, kids (nd (fold_left (fun s c => push_usr s c UPoison) l t) b) = kids (nd t b).
Proof. induction l as [|c l IH]; intros t b; cbn [fold_left]; [reflexivity|]. rewrite IH. apply within_usr. Qed.
Lemma within_node t a v b : kids v = kids (nd t a) -> kids (nd (set_nd t a v) b) = kids (nd t b).
Proof. intro E. unfold set_nd. cbn [nd]. unfold upd. destruct (Nat.eqb_spec b a) as [->|]; auto. Qed.
Lemma within_stop t a : kids_within t (stop_node t a).
Proof.
  intros b c. unfold stop_node. destruct (att (nd t a)), (is_guard a); rewrite ?within_sys, ?within_usr; unfold set_nd; cbn [nd]; unfold upd;
    destruct (Nat.eqb_spec b a) as [->|]; auto; intros [].
Qed.
Lemma within_attach t a c b k : In k (kids (nd (attach t a c) b)) -> In k (kids (nd t b)) \/ (b = a /\ k = c).
Proof.
  unfold attach. destruct (att (nd t c) || gone (nd t c)); [auto|]. rewrite within_sys. unfold set_kids.
  rewrite within_node by reflexivity. unfold set_nd. cbn [nd]. unfold upd. destruct (Nat.eqb_spec b a) as [->|]; [|auto].
  cbn [kids]. intro I. apply in_app_or in I as [I|[<-|[]]]; auto.
Qed.
Lemma kids_new t b c : Core t -> In c (kids (nd (new_actor t) b)) -> In c (kids (nd t b)) /\ c < size t.
Proof. intros C. unfold new_actor. cbn [nd]. unfold upd. destruct (b =? size t); [intros []|]. intro I. destruct (c_kids t C b c I). split; [auto|lia]. Qed.
Lemma kids_pop_sys t a b : kids (nd (pop_sys t a) b) = kids (nd t b).
Proof. apply within_node. reflexivity. Qed.
Lemma kids_step t x t' b k : Core t -> step t x = Some t' -> In k (kids (nd t' b)) ->
  In k (kids (nd t b)) \/ exists ok q, x = Handle b ok /\ sysq (nd t b) = SAttach k :: q.
Proof.
  intros C H I. destruct x as [a ok|g|p|a|a u|c]; cbn [step] in H; cbv zeta in H.
  - destruct (opn (nd t a)) eqn:O; [|discriminate]. destruct (sysq (nd t a)) as [|m q] eqn:Q.
    + destruct (started (nd t a)); [|discriminate]. destruct (usrq (nd t a)) as [|u q] eqn:U; [discriminate|]. injection H as <-. left. revert I.
      unfold pop_usr. rewrite within_node by reflexivity.
      destruct u as [|g c|c|g|]; cbn [handle_usr]; [rewrite within_sys; auto|destruct (negb (a =? 0)); [auto|]..|auto].
      * destruct (opn (nd t g)); [rewrite within_sys; auto|]. destruct (att (nd t c)); [auto|]. unfold destroy. rewrite within_node by reflexivity. auto.
      * rewrite !within_sys. auto.
      * cbv zeta. match goal with |- context[State ?x ?y ?z ?t] => set (s1 := State x y z t) end.
        destruct (flag s1 1 && flag s1 2); [rewrite within_sys; auto|]. destruct (flag s1 3 && flag s1 4); [|auto].
        destruct (flag s1 1), (flag s1 2); rewrite ?within_sys; auto.
    + injection H as <-. rewrite kids_pop_sys in I. destruct m as [| | |c|c]; cbn [handle_sys] in I.
      * left. unfold start_node in I. rewrite within_node in I by reflexivity. exact I.
      * left. destruct (is_nil (kids (nd t a))); [eapply within_stop; eauto|]. rewrite within_poison in I. unfold set_stopping in I. rewrite within_node in I by reflexivity. exact I.
      * left. destruct (is_nil (kids (nd t a))); [eapply within_stop; eauto|]. unfold set_stopping in I. rewrite within_node in I by reflexivity. exact I.
      * destruct (stopping (nd t a)).
        -- left. destruct (att (nd t c)); [auto|]. unfold destroy in I. rewrite within_node in I by reflexivity. exact I.
        -- destruct (within_attach t a c b k I) as [J|[-> ->]]; [auto|]. right. exists ok, q. auto.
      * left. destruct (stopping (nd t a) && is_nil (remove_first c (kids (nd t a)))); [eapply within_stop; eauto|].
        revert I. unfold set_kids, set_nd. cbn [nd]. unfold upd. destruct (Nat.eqb_spec b a) as [->|]; [|auto]. cbn [kids]. apply remove_first_in.
  - destruct (is_guard g); [|discriminate]. left. destruct (opn (nd (new_actor t) 0)); injection H as <-.
    + rewrite within_usr in I. apply kids_new; auto.
    + unfold destroy in I. rewrite within_node in I by reflexivity. apply kids_new; auto.
  - destruct ((5 <=? p) && opn (nd t p) && started (nd t p)); [|discriminate]. injection H as <-. left. rewrite within_sys in I. apply kids_new; auto.
  - injection H as <-. rewrite within_sys in I. auto.
  - injection H as <-. rewrite within_usr in I. auto.
  - injection H as <-. cbn [nd] in I. rewrite within_usr in I. auto.
Qed.
Lemma names_kept s x s' c : nstep s x = Some s' -> c < size (tree s) -> nm s' c = nm s c.
Proof.
  intros H Hc. destruct (nstep_cases s x s' H) as [(a & ok & d & q & _ & _ & _ & ->)|(t' & _ & _ & ->)]; cbn [nm].
  - unfold detach, remove_child. destruct (first_named _ _ _) as [k|]; [destruct (stopped _)|]; reflexivity.
  - destruct (fst x); auto; apply upd_neq; lia.
Qed.
Lemma apart_step s x s' : Core (tree s) -> Det (tree s) -> Apart s -> new_name s (fst x) -> nstep s x = Some s' -> Apart s'.
Proof.
  intros C D A N H b k j Ik Ij E.
  assert (T : step (tree s) (fst x) = Some (tree s')) by (rewrite <- step_alike; [rewrite H; reflexivity|exact D|apply apart_in_order; auto]).
  assert (G : forall c, In c (kids (nd (tree s') b)) -> c < size (tree s)).
  { intros c I. destruct (kids_step _ _ _ b c C T I) as [J|(ok & q & _ & J)]; [destruct (c_kids _ C b c J); lia|].
    destruct (c_attq _ C b c) as [_ X]; [rewrite J; left; reflexivity|lia]. }
  rewrite (names_kept s x s' k H (G k Ik)), (names_kept s x s' j H (G j Ij)) in E.
  destruct (kids_step _ _ _ b k C T Ik) as [Jk|(ok & q & X & Jk)], (kids_step _ _ _ b j C T Ij) as [Jj|(ok' & q' & X' & Jj)].
  - eapply A; eauto.
  - rewrite X' in N. cbn [new_name] in N. destruct (N j q' Jj k Jk E).
  - rewrite X in N. cbn [new_name] in N. destruct (N k q Jk j Jj). auto.
  - congruence.
Qed.
Lemma apart_run xs : forall s, Core (tree s) -> Det (tree s) -> Apart s -> nrun_all new_name s xs -> nrun_all in_order s xs.
Proof.
  induction xs as [|x xs IH]; intros s C D A H; cbn [nrun_all] in *; [auto|]. destruct H as [H1 H2].
  assert (O := apart_in_order s (fst x) C A). split; [exact O|]. destruct (nstep s x) as [s1|] eqn:E; [|exact Logic.I].
  assert (T := step_alike s x D O). rewrite E in T. cbn [option_map] in T. symmetry in T.
  apply IH; [eapply step_core; eauto|eapply det_step; eauto|eapply apart_step; eauto|exact H2].
Qed.
Lemma apart_init : Apart ninit.
Proof.
  intros a k j. destruct a; [|do 4 (destruct a; [intros []|]); intros []]. cbn [kids nd init tree ninit nm In].
  intros Hk Hj. repeat destruct Hk as [<-|Hk]; repeat destruct Hj as [<-|Hj]; try contradiction; try reflexivity; intro E; vm_compute in E; discriminate.
Qed.
(* ---- the step in which an actor vanishes ---- *)
Definition gr (t t' : state) : Prop := forall b, gone (nd t' b) = true -> att (nd t' b) = true -> gone (nd t b) = true /\ att (nd t b) = true.
Lemma gr_trans t1 t2 t3 : gr t1 t2 -> gr t2 t3 -> gr t1 t3.
Proof. intros A B b G H. destruct (B b G H). auto. Qed.
Lemma gr_refl t : gr t t.
Proof. intros b. auto. Qed.
Lemma gr_node t a v : (gone v = true -> att v = true -> gone (nd t a) = true /\ att (nd t a) = true) -> gr t (set_nd t a v).
Proof. intros H b. unfold set_nd. cbn [nd]. unfold upd. destruct (Nat.eqb_spec b a) as [->|]; auto. Qed.
Lemma gr_sys t a m : gr t (push_sys t a m).
Proof. unfold push_sys. destruct (opn (nd t a)); [apply gr_node; auto|apply gr_refl]. Qed.
Lemma gr_usr t a m : gr t (push_usr t a m).
Proof. unfold push_usr. destruct (opn (nd t a)); [apply gr_node; auto|apply gr_refl]. Qed.
Lemma gr_poison l : forall t, gr t (fold_left (fun s c => push_usr s c UPoison) l t).
Proof. induction l as [|c l IH]; intro t; cbn [fold_left]; [apply gr_refl|]. eapply gr_trans; [apply gr_usr|apply IH]. Qed.
Lemma gr_stop t a : gr t (stop_node t a).
Proof.
  unfold stop_node. set (t1 := set_nd t a _). assert (X : gr t t1) by (apply gr_node; auto).
  destruct (att (nd t a)), (is_guard a); repeat first [exact X | eapply gr_trans; [|apply gr_sys] | eapply gr_trans; [|apply gr_usr]].
Qed.
Lemma gr_destroy t c : att (nd t c) = false -> gr t (destroy t c).
Proof. intro A. apply gr_node. cbn. congruence. Qed.
Lemma gr_attach t a c : gr t (attach t a c).
Proof.
  unfold attach. destruct (att (nd t c) || gone (nd t c)) eqn:E; [apply gr_refl|]. apply orb_false_iff in E as [E1 E2].
  eapply gr_trans; [|apply gr_sys]. eapply gr_trans; [apply gr_node with (a := a)|apply gr_node]; [auto|]. cbn [gone].
  assert (X : gone (nd (set_kids t a (kids (nd t a) ++ [c])) c) = gone (nd t c)) by (unfold set_kids, set_nd; cbn [nd]; unfold upd; destruct (Nat.eqb_spec c a) as [->|]; reflexivity).
  intro Y. exfalso. assert (Z : gone (nd (set_kids t a (kids (nd t a) ++ [c])) c) = true) by exact Y. congruence.
Qed.
Lemma gr_step t x t' : step t x = Some t' -> gr t t'.
Proof.
  intro H. destruct x as [a ok|g|p|a|a k|b]; cbn [step] in H; cbv zeta in H.
  - destruct (opn (nd t a)) eqn:O; [|discriminate]. destruct (sysq (nd t a)) as [|m q] eqn:Q.
    + destruct (started (nd t a)); [|discriminate]. destruct (usrq (nd t a)) as [|u q] eqn:U; [discriminate|]. injection H as <-.
      eapply gr_trans; [|apply gr_node; auto].
      destruct u as [|g c|b|g|]; cbn [handle_usr]; [apply gr_sys|destruct (negb (a =? 0)); [apply gr_refl|]..|apply gr_refl].
      * destruct (opn (nd t g)); [apply gr_sys|]. destruct (att (nd t c)) eqn:A; [apply gr_refl|apply gr_destroy, A].
      * eapply gr_trans; apply gr_sys.
      * cbv zeta. match goal with |- context[State ?x ?y ?z ?t] => set (s1 := State x y z t) end.
        assert (K1 : gr t s1) by (intro; auto).
        destruct (flag s1 1 && flag s1 2); [eapply gr_trans; [exact K1|apply gr_sys]|].
        destruct (flag s1 3 && flag s1 4); [|exact K1].
        destruct (flag s1 1), (flag s1 2); repeat (eapply gr_trans; [|apply gr_sys]); exact K1.
    + injection H as <-. eapply gr_trans; [|apply gr_node; auto]. destruct m as [| | |c|c]; cbn [handle_sys].
      * apply gr_node. auto.
      * destruct (is_nil (kids (nd t a))); [apply gr_stop|]. eapply gr_trans; [|apply gr_poison]. apply gr_node; auto.
      * destruct (is_nil (kids (nd t a))); [apply gr_stop|]. apply gr_node; auto.
      * destruct (stopping (nd t a)); [|apply gr_attach]. destruct (att (nd t c)) eqn:A; [apply gr_refl|apply gr_destroy, A].
      * destruct (stopping (nd t a) && is_nil (remove_first c (kids (nd t a)))); [apply gr_stop|]. apply gr_node; auto.
  - assert (N : gr t (new_actor t)).
    { intro b. unfold new_actor. cbn [nd]. unfold upd. destruct (b =? size t); [discriminate|auto]. }
    destruct (is_guard g); [|discriminate]. destruct (opn (nd (new_actor t) 0)); injection H as <-;
      (eapply gr_trans; [exact N|]); [apply gr_usr|apply gr_destroy]. unfold new_actor. cbn [nd]. rewrite upd_eq. reflexivity.
  - assert (N : gr t (new_actor t)).
    { intro b. unfold new_actor. cbn [nd]. unfold upd. destruct (b =? size t); [discriminate|auto]. }
    destruct ((5 <=? p) && opn (nd t p) && started (nd t p)); [|discriminate]. injection H as <-. eapply gr_trans; [exact N|apply gr_sys].
  - injection H as <-. apply gr_sys.
  - injection H as <-. apply gr_usr.
  - injection H as <-. eapply gr_trans; [apply (gr_usr t 0 (URootTerm b))|]. intro; auto.
Qed.
Lemma vanish_step s x s' k : NInv s -> nstep s x = Some s' -> ~ vanished (tree s) k -> vanished (tree s') k ->
  exists a ok c q e l r, fst x = Handle a ok /\ sysq (nd (tree s) a) = SDetach c :: q /\ kids (nd (tree s) a) = l ++ e :: r /\
    nm s e = nm s c /\ (forall j, In j l -> nm s j <> nm s c) /\ stopped (nd (tree s) e) = false.
Proof.
  intros I H N (A & G & St). assert (K := keeps_nstep s x s' I H).
  assert (W : gone (nd (tree s) k) = true /\ att (nd (tree s) k) = true -> vanished (tree s) k).
  { intros [G0 A0]. destruct I as [C R]. destruct K as [_ K]. destruct (K k (att_in _ _ C A0)) as (_ & _ & K3).
    destruct (K3 (r_gone _ _ _ _ R k G0)). repeat split; auto. congruence. }
  destruct (nstep_cases s x s' H) as [(a & ok & c & q & E & Q & O & ->)|(t' & E & D & ->)]; cbn [tree] in *.
  - assert (J : In (SDetach c) (sysq (nd (tree s) a))) by (rewrite Q; left; reflexivity).
    destruct (detach_some s a c I J) as (e & l & r & F & Ee & El & Fl). exists a, ok, c, q, e, l, r.
    destruct (stopped (nd (tree s) e)) eqn:Se; [|split; [exact E|split; [exact Q|split; [exact El|split; [exact Ee|split; [exact Fl|reflexivity]]]]]].
    exfalso. apply N, W. revert G A. unfold detach, remove_child. rewrite F, Se. cbn [tree].
    assert (X : gr (tree s) (pop_sys (if stopping (nd (tree s) a) && is_nil (remove_first e (kids (nd (tree s) a))) then stop_node (tree s) a else set_kids (tree s) a (remove_first e (kids (nd (tree s) a)))) a)).
    { eapply gr_trans; [|apply gr_node; auto]. destruct (_ && _); [apply gr_stop|apply gr_node; auto]. }
    intros G A. exact (X k G A).
  - exfalso. apply N, W. apply (gr_step _ _ _ E k G A).
Qed.
Lemma elder_vanishes s a ok n c q l e r : NInv s -> opn (nd (tree s) a) = true -> sysq (nd (tree s) a) = SDetach c :: q ->
  kids (nd (tree s) a) = l ++ e :: r -> (forall j, In j l -> nm s j <> nm s c) -> nm s e = nm s c -> stopped (nd (tree s) e) = false ->
  exists s', nstep s (Handle a ok, n) = Some s' /\ vanished (tree s') e /\
    (forall j, In j (l ++ r) -> stopping (nd (tree s) a) = false -> In j (kids (nd (tree s') a))).
Proof.
  intros I O Q El Fl Ee Se. eexists. split; [unfold nstep; cbn [fst]; rewrite Q, O; reflexivity|].
  assert (J : In (SDetach c) (sysq (nd (tree s) a))) by (rewrite Q; left; reflexivity).
  assert (K := keeps_nstep s (Handle a ok, n)). unfold nstep in K. cbn [fst] in K. rewrite Q, O in K. specialize (K _ I eq_refl).
  assert (I' := I). destruct I' as [C R]. assert (Ie : In e (kids (nd (tree s) a))) by (rewrite El; apply in_or_app; right; left; reflexivity).
  destruct (c_kids _ C a e Ie) as (He & Ae & Pe).
  assert (F : first_named (nm s) (nm s c) (kids (nd (tree s) a)) = Some e).
  { rewrite El, <- Ee. apply first_named_split. intros j Hj. rewrite Ee. auto. }
  destruct (erase_ok (size (tree s)) (tree s) e C) as (C1 & B1 & G1 & Z1 & W1); [lia|lia|exact (r_below _ _ _ _ R)|].
  assert (Ea : nd (erase (size (tree s)) (tree s) e) a = nd (tree s) a) by (apply W1; lia).
  destruct K as [_ K]. destruct (K e ltac:(lia)) as (K1 & _ & _). destruct (K1 Ae) as [Ae' _]. cbn [tree] in *. revert Ae'.
  unfold detach, remove_child. rewrite F, Se. cbn [tree]. set (t1 := erase (size (tree s)) (tree s) e) in *.
  assert (Sr : remove_first e (kids (nd (tree s) a)) = l ++ r).
  { assert (Nl : ~ In e l) by (intro X; apply (Fl e X Ee)). rewrite El. clear -Nl. induction l as [|y l IH]; cbn [remove_first app].
    - rewrite Nat.eqb_refl. reflexivity.
    - destruct (Nat.eqb_spec y e) as [->|]; [destruct Nl; left; reflexivity|]. f_equal. apply IH. intro. apply Nl. right. auto. }
  rewrite Sr, Ea. intro Ae'. split.
  - set (t2 := if stopping (nd (tree s) a) && is_nil (l ++ r) then stop_node t1 a else set_kids t1 a (l ++ r)) in *.
    assert (K2 : keeps t1 (pop_sys t2 a)).
    { eapply keeps_trans; [|apply keeps_pop_sys]. unfold t2. destruct (_ && _); [apply keeps_stop; rewrite Ea; exact O|apply keeps_node; cbn; auto]. }
    destruct K2 as [_ K2]. destruct (K2 e) as (_ & Kg & Ko); [destruct Z1 as [-> _]; lia|].
    assert (Oe : opn (nd t1 e) = false).
    { assert (R1 : Rest (nm s) (lost s) none t1) by (eapply rest_razed; eauto). apply (r_gone _ _ _ _ R1 e G1). }
    destruct (Ko Oe) as [_ Se']. split; [exact Ae'|split; [auto|]]. rewrite Se'. destruct (razed_fields _ _ e Z1) as (_ & _ & _ & _ & _ & -> & _). exact Se.
  - intros j Hj Sp. rewrite Sp. cbn [andb]. rewrite kids_pop_sys. unfold set_kids, set_nd. cbn [nd]. rewrite upd_eq. exact Hj.
Qed.
