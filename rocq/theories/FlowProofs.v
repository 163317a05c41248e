(* FlowModel is matched with TreeModel: what a running handler has still to send
   counts as sent.  Queues agree up to order, and a mailbox whose close is still
   to come counts as closed. *)
From Coq Require Import List Bool Arith Lia Permutation.
From Verif Require Import TreeModel TreeProofs TreeRegime TreeTerm FlowModel.
Import ListNotations.

(* ---- pending messages ---- *)
Definition to_sys (b : nat) (e : effect) : list smsg := match e with ESys b' m => if b' =? b then [m] else [] | _ => [] end.
Definition to_usr (b : nat) (e : effect) : list umsg := match e with EUsr b' u => if b' =? b then [u] else [] | _ => [] end.
Fixpoint pend {M} (g : effect -> list M) (n : nat) (t : nat -> list effect) : list M :=
  match n with 0 => [] | S k => flat_map g (t k) ++ pend g k t end.
Definition is_close (e : effect) : bool := match e with EClose => true | _ => false end.
Definition leaving (t : nat -> list effect) (a : nat) : bool := existsb is_close (t a).

Lemma pend_out {M} (g : effect -> list M) n t a l : n <= a -> pend g n (upd t a l) = pend g n t.
Proof. induction n as [|n IH]; intros H; simpl; [reflexivity|]. rewrite upd_neq by lia. rewrite IH by lia. reflexivity. Qed.
Lemma pend_app {M} (g : effect -> list M) n t a l : a < n ->
  Permutation (pend g n (upd t a (t a ++ l))) (pend g n t ++ flat_map g l).
Proof.
  induction n as [|n IH]; intros H; [lia|]. simpl. destruct (Nat.eq_dec a n) as [->|E].
  - rewrite upd_eq, pend_out by lia. rewrite flat_map_app, <- !app_assoc. apply Permutation_app_head, Permutation_app_comm.
  - rewrite upd_neq by lia. rewrite <- app_assoc. apply Permutation_app_head, IH. lia.
Qed.
Lemma pend_cons {M} (g : effect -> list M) n t a e l : a < n -> t a = e :: l ->
  Permutation (pend g n t) (g e ++ pend g n (upd t a l)).
Proof.
  intros H E. induction n as [|n IH]; [lia|]. simpl. destruct (Nat.eq_dec a n) as [->|N].
  - rewrite upd_eq, pend_out by lia. rewrite E. simpl. rewrite <- app_assoc. apply Permutation_refl.
  - rewrite upd_neq by lia. rewrite IH by lia. rewrite !app_assoc. apply Permutation_app_tail, Permutation_app_comm.
Qed.
Lemma flat_map_perm {M} (g : effect -> list M) l l' : Permutation l l' -> Permutation (flat_map g l) (flat_map g l').
Proof.
  induction 1; simpl; auto.
  - now apply Permutation_app_head.
  - rewrite !app_assoc. apply Permutation_app_tail, Permutation_app_comm.
  - eapply Permutation_trans; eassumption.
Qed.
Lemma pend_perm {M} (g : effect -> list M) n t t' : (forall a, Permutation (t a) (t' a)) -> Permutation (pend g n t) (pend g n t').
Proof. intros H. induction n as [|n IH]; simpl; [constructor|]. apply Permutation_app; [apply flat_map_perm, H|exact IH]. Qed.
Lemma leaving_perm t t' a : Permutation (t a) (t' a) -> leaving t' a = leaving t a.
Proof.
  intros P. unfold leaving. apply eq_iff_eq_true. rewrite !existsb_exists. split; intros (e & I & E); exists e; split; auto.
  - eapply Permutation_in; [apply Permutation_sym, P|exact I].
  - eapply Permutation_in; [apply P|exact I].
Qed.
Lemma leaving_upd t a l b : leaving (upd t a l) b = if b =? a then existsb is_close l else leaving t b.
Proof. unfold leaving, upd. destruct (b =? a); reflexivity. Qed.

(* ---- the match ---- *)
Definition skel (v : node) : node := Node (par v) (att v) (gone v) (kids v) (stopping v) (killing v) (started v) true (stopped v) [] [].
Record rep (r : state) (t : nat -> list effect) (s : state) : Prop := {
  r_size : size s = size r;
  r_flag : flag s = flag r;
  r_req : requested s = requested r;
  r_nd : forall b, skel (nd s b) = skel (nd r b);
  r_opn : forall b, opn (nd s b) = opn (nd r b) && negb (leaving t b);
  r_sys : forall b, opn (nd s b) = true -> Permutation (sysq (nd s b)) (sysq (nd r b) ++ pend (to_sys b) (size r) t);
  r_usr : forall b, opn (nd s b) = true -> Permutation (usrq (nd s b)) (usrq (nd r b) ++ pend (to_usr b) (size r) t);
  r_out : forall a, size r <= a -> t a = []
}.
Lemma skel_par v w : skel v = skel w -> par v = par w. Proof. intros H. exact (f_equal par H). Qed.
Lemma skel_att v w : skel v = skel w -> att v = att w. Proof. intros H. exact (f_equal att H). Qed.
Lemma skel_gone v w : skel v = skel w -> gone v = gone w. Proof. intros H. exact (f_equal gone H). Qed.
Lemma skel_kids v w : skel v = skel w -> kids v = kids w. Proof. intros H. exact (f_equal kids H). Qed.
Lemma skel_stopping v w : skel v = skel w -> stopping v = stopping w. Proof. intros H. exact (f_equal stopping H). Qed.
Lemma skel_killing v w : skel v = skel w -> killing v = killing w. Proof. intros H. exact (f_equal killing H). Qed.
Lemma skel_started v w : skel v = skel w -> started v = started w. Proof. intros H. exact (f_equal started H). Qed.
Lemma skel_stopped v w : skel v = skel w -> stopped v = stopped w. Proof. intros H. exact (f_equal stopped H). Qed.

Lemma rep_ext r t s s' : rep r t s -> size s' = size s -> flag s' = flag s -> requested s' = requested s ->
  (forall b, nd s' b = nd s b) -> rep r t s'.
Proof. intros [A1 A2 A3 A4 A5 A6 A7 A8] E1 E2 E3 E. constructor; try congruence; intros b; rewrite ?E; auto. Qed.
Lemma rep_perm r t t' s : rep r t s -> (forall a, Permutation (t a) (t' a)) -> rep r t' s.
Proof.
  intros [A1 A2 A3 A4 A5 A6 A7 A8] P. constructor; auto.
  - intros b. rewrite A5. now rewrite (leaving_perm t t').
  - intros b H. rewrite <- (pend_perm (to_sys b) (size r) t t' P). auto.
  - intros b H. rewrite <- (pend_perm (to_usr b) (size r) t t' P). auto.
  - intros a H. specialize (P a). rewrite (A8 a H) in P. now apply Permutation_nil.
Qed.
(* the same change to a node on both sides *)
Lemma rep_local r t s a (g : node -> node) : rep r t s ->
  (forall v w, skel v = skel w -> skel (g v) = skel (g w)) -> (forall v, opn (g v) = opn v) ->
  (forall v, sysq (g v) = sysq v) -> (forall v, usrq (g v) = usrq v) ->
  rep (set_nd r a (g (nd r a))) t (set_nd s a (g (nd s a))).
Proof.
  intros [A1 A2 A3 A4 A5 A6 A7 A8] G O Qs Qu. constructor; auto; simpl; intros b; unfold upd; destruct (Nat.eqb_spec b a) as [->|]; auto;
    rewrite ?O, ?Qs, ?Qu; auto.
Qed.
Lemma rep_close_now r t s a (g : node -> node) : rep r t s ->
  (forall v w, skel v = skel w -> skel (g v) = skel (g w)) -> (forall v, opn (g v) = false) ->
  rep (set_nd r a (g (nd r a))) t (set_nd s a (g (nd s a))).
Proof.
  intros [A1 A2 A3 A4 A5 A6 A7 A8] G O. constructor; auto; simpl; intros b; unfold upd; destruct (Nat.eqb_spec b a) as [->|]; auto;
    rewrite ?O; try discriminate; auto.
Qed.
Lemma rep_push_sys r t s a b m : rep r t s -> a < size r -> rep r (upd t a (t a ++ [ESys b m])) (push_sys s b m).
Proof.
  intros [A1 A2 A3 A4 A5 A6 A7 A8] L.
  assert (Lv : forall d, leaving (upd t a (t a ++ [ESys b m])) d = leaving t d).
  { intros d. rewrite leaving_upd. destruct (Nat.eqb_spec d a) as [->|]; [|reflexivity]. unfold leaving. rewrite existsb_app. simpl. apply orb_false_r. }
  assert (PS := fun d => pend_app (to_sys d) (size r) t a [ESys b m] L). assert (PU := fun d => pend_app (to_usr d) (size r) t a [ESys b m] L).
  assert (PO : forall d, opn (nd (push_sys s b m) d) = opn (nd s d)) by (intros; apply push_sys_opn).
  constructor.
  - rewrite push_sys_size. exact A1.
  - rewrite push_sys_flag. exact A2.
  - unfold push_sys. destruct (opn (nd s b)); exact A3.
  - intros d. rewrite <- A4. unfold push_sys. destruct (opn (nd s b)); [|reflexivity]. simpl. unfold upd. destruct (Nat.eqb_spec d b) as [->|]; reflexivity.
  - intros d. rewrite PO, Lv. apply A5.
  - intros d. rewrite PO. intros H. rewrite (PS d). simpl. rewrite app_assoc, <- (A6 d H). unfold push_sys. destruct (Nat.eqb_spec b d) as [->|N].
    + rewrite H. simpl. rewrite upd_eq. simpl. apply Permutation_refl.
    + rewrite app_nil_r. destruct (opn (nd s b)); [|apply Permutation_refl]. simpl. rewrite upd_neq by auto. apply Permutation_refl.
  - intros d. rewrite PO. intros H. rewrite (PU d). simpl. rewrite app_nil_r, <- (A7 d H). rewrite push_sys_usrq. apply Permutation_refl.
  - intros d H. rewrite upd_neq by lia. auto.
Qed.
Lemma push_usr_opn s a m b : opn (nd (push_usr s a m) b) = opn (nd s b).
Proof. unfold push_usr. destruct (opn (nd s a)) eqn:O; [|reflexivity]. simpl. unfold upd. destruct (Nat.eqb_spec b a); subst; auto. Qed.
Lemma rep_push_usr r t s a b m : rep r t s -> a < size r -> rep r (upd t a (t a ++ [EUsr b m])) (push_usr s b m).
Proof.
  intros [A1 A2 A3 A4 A5 A6 A7 A8] L.
  assert (Lv : forall d, leaving (upd t a (t a ++ [EUsr b m])) d = leaving t d).
  { intros d. rewrite leaving_upd. destruct (Nat.eqb_spec d a) as [->|]; [|reflexivity]. unfold leaving. rewrite existsb_app. simpl. apply orb_false_r. }
  assert (PS := fun d => pend_app (to_sys d) (size r) t a [EUsr b m] L). assert (PU := fun d => pend_app (to_usr d) (size r) t a [EUsr b m] L).
  assert (PO : forall d, opn (nd (push_usr s b m) d) = opn (nd s d)) by (intros; apply push_usr_opn).
  constructor.
  - rewrite push_usr_size. exact A1.
  - unfold push_usr. destruct (opn (nd s b)); exact A2.
  - unfold push_usr. destruct (opn (nd s b)); exact A3.
  - intros d. rewrite <- A4. unfold push_usr. destruct (opn (nd s b)); [|reflexivity]. simpl. unfold upd. destruct (Nat.eqb_spec d b) as [->|]; reflexivity.
  - intros d. rewrite PO, Lv. apply A5.
  - intros d. rewrite PO. intros H. rewrite (PS d). simpl. rewrite app_nil_r, <- (A6 d H). rewrite push_usr_sysq. apply Permutation_refl.
  - intros d. rewrite PO. intros H. rewrite (PU d). simpl. rewrite app_assoc, <- (A7 d H). unfold push_usr. destruct (Nat.eqb_spec b d) as [->|N].
    + rewrite H. simpl. rewrite upd_eq. simpl. apply Permutation_refl.
    + rewrite app_nil_r. destruct (opn (nd s b)); [|apply Permutation_refl]. simpl. rewrite upd_neq by auto. apply Permutation_refl.
  - intros d H. rewrite upd_neq by lia. auto.
Qed.
Lemma rep_to_close r t s a : rep r t s -> a < size r -> rep r (upd t a (t a ++ [EClose])) (close s a).
Proof.
  intros [A1 A2 A3 A4 A5 A6 A7 A8] L.
  assert (PS := fun d => pend_app (to_sys d) (size r) t a [EClose] L). assert (PU := fun d => pend_app (to_usr d) (size r) t a [EClose] L).
  constructor; auto.
  - intros d. rewrite <- A4. simpl. unfold upd. destruct (Nat.eqb_spec d a) as [->|]; reflexivity.
  - intros d. rewrite leaving_upd. simpl. unfold upd. destruct (Nat.eqb_spec d a) as [->|]; [|apply A5]. rewrite existsb_app. simpl. rewrite orb_true_r, andb_false_r. reflexivity.
  - intros d. simpl. unfold upd at 1 2. destruct (Nat.eqb_spec d a) as [->|]; [discriminate|]. intros H. rewrite (PS d). simpl. rewrite app_nil_r. auto.
  - intros d. simpl. unfold upd at 1 2. destruct (Nat.eqb_spec d a) as [->|]; [discriminate|]. intros H. rewrite (PU d). simpl. rewrite app_nil_r. auto.
  - intros d H. rewrite upd_neq by lia. auto.
Qed.
Lemma rep_to_notify r t s a : rep r t s -> a < size r -> rep r (upd t a (t a ++ [ENotify])) s.
Proof.
  intros [A1 A2 A3 A4 A5 A6 A7 A8] L.
  assert (PS := fun d => pend_app (to_sys d) (size r) t a [ENotify] L). assert (PU := fun d => pend_app (to_usr d) (size r) t a [ENotify] L).
  constructor; auto.
  - intros d. rewrite leaving_upd. destruct (Nat.eqb_spec d a) as [->|]; [|apply A5]. rewrite existsb_app. simpl. rewrite orb_false_r. apply A5.
  - intros d H. rewrite (PS d). simpl. rewrite app_nil_r. auto.
  - intros d H. rewrite (PU d). simpl. rewrite app_nil_r. auto.
  - intros d H. rewrite upd_neq by lia. auto.
Qed.
Lemma rep_poison r a l : forall t s, rep r t s -> a < size r ->
  rep r (upd t a (t a ++ map (fun c => EUsr c UPoison) l)) (fold_left (fun s c => push_usr s c UPoison) l s).
Proof.
  induction l as [|c l IH]; intros t s R L; simpl.
  - eapply rep_perm; [exact R|]. intros b. unfold upd. destruct (Nat.eqb_spec b a) as [->|]; [rewrite app_nil_r|]; apply Permutation_refl.
  - assert (X := IH _ _ (rep_push_usr r t s a c UPoison R L) L). eapply rep_perm; [exact X|]. intros b. rewrite upd_eq. unfold upd.
    destruct (Nat.eqb_spec b a) as [->|]; [|apply Permutation_refl]. rewrite <- app_assoc. apply Permutation_refl.
Qed.
Lemma rep_pop_sys r t s a m q : rep r t s -> sysq (nd r a) = m :: q ->
  (opn (nd s a) = true -> exists q0, sysq (nd s a) = m :: q0) -> rep (pop_sys r a) t (pop_sys s a).
Proof.
  intros [A1 A2 A3 A4 A5 A6 A7 A8] E H. constructor; auto; simpl; intros b; unfold upd; destruct (Nat.eqb_spec b a) as [->|]; auto; simpl.
  - exact (A4 a).
  - exact (A5 a).
  - intros O. specialize (A6 a O). destruct (H O) as [q0 E0]. rewrite E, E0 in *. simpl in *. eapply Permutation_cons_inv, A6.
  - exact (A7 a).
Qed.
Lemma rep_pop_usr r t s a m q : rep r t s -> usrq (nd r a) = m :: q ->
  (opn (nd s a) = true -> exists q0, usrq (nd s a) = m :: q0) -> rep (pop_usr r a) t (pop_usr s a).
Proof.
  intros [A1 A2 A3 A4 A5 A6 A7 A8] E H. constructor; auto; simpl; intros b; unfold upd; destruct (Nat.eqb_spec b a) as [->|]; auto; simpl.
  - exact (A4 a).
  - exact (A5 a).
  - exact (A6 a).
  - intros O. specialize (A7 a O). destruct (H O) as [q0 E0]. rewrite E, E0 in *. simpl in *. eapply Permutation_cons_inv, A7.
Qed.

(* ---- doing the next effect ---- *)
Lemma rep_emit_none r t s a e l : rep r t s -> t a = e :: l -> is_close e = false ->
  (forall b, opn (nd s b) = true -> to_sys b e = [] /\ to_usr b e = []) -> rep r (upd t a l) s.
Proof.
  intros [A1 A2 A3 A4 A5 A6 A7 A8] E C N.
  assert (L : a < size r) by (destruct (Nat.lt_ge_cases a (size r)) as [H|H]; [exact H|rewrite (A8 a H) in E; discriminate]).
  constructor; auto.
  - intros b. rewrite leaving_upd, A5. destruct (Nat.eqb_spec b a) as [->|]; [|reflexivity]. unfold leaving. rewrite E. simpl. now rewrite C.
  - intros b H. rewrite (A6 b H). rewrite (pend_cons (to_sys b) (size r) t a e l L E). destruct (N b H) as [-> _]. apply Permutation_refl.
  - intros b H. rewrite (A7 b H). rewrite (pend_cons (to_usr b) (size r) t a e l L E). destruct (N b H) as [_ ->]. apply Permutation_refl.
  - intros b H. rewrite upd_neq by lia. auto.
Qed.
Lemma rep_emit_sys r t s a b m l : rep r t s -> t a = ESys b m :: l -> opn (nd r b) = true -> rep (push_sys r b m) (upd t a l) s.
Proof.
  intros [A1 A2 A3 A4 A5 A6 A7 A8] E O.
  assert (L : a < size r) by (destruct (Nat.lt_ge_cases a (size r)) as [H|H]; [exact H|rewrite (A8 a H) in E; discriminate]).
  constructor.
  - rewrite push_sys_size. exact A1.
  - rewrite push_sys_flag. exact A2.
  - unfold push_sys. rewrite O. exact A3.
  - intros d. rewrite A4. unfold push_sys. rewrite O. simpl. unfold upd. destruct (Nat.eqb_spec d b) as [->|]; reflexivity.
  - intros d. rewrite push_sys_opn, leaving_upd, A5. destruct (Nat.eqb_spec d a) as [->|]; [|reflexivity]. unfold leaving. rewrite E. reflexivity.
  - intros d H. rewrite push_sys_size, (A6 d H). rewrite (pend_cons (to_sys d) (size r) t a _ l L E). simpl. unfold push_sys. rewrite O. simpl.
    destruct (Nat.eqb_spec b d) as [->|N].
    + rewrite upd_eq. simpl. rewrite <- app_assoc. apply Permutation_refl.
    + rewrite upd_neq by auto. apply Permutation_refl.
  - intros d H. rewrite push_sys_size, push_sys_usrq, (A7 d H). rewrite (pend_cons (to_usr d) (size r) t a _ l L E). apply Permutation_refl.
  - intros d. rewrite push_sys_size. intros H. rewrite upd_neq by lia. auto.
Qed.
Lemma rep_emit_usr r t s a b m l : rep r t s -> t a = EUsr b m :: l -> rep (push_usr r b m) (upd t a l) s.
Proof.
  intros R E. destruct (opn (nd r b)) eqn:O.
  - destruct R as [A1 A2 A3 A4 A5 A6 A7 A8].
    assert (L : a < size r) by (destruct (Nat.lt_ge_cases a (size r)) as [H|H]; [exact H|rewrite (A8 a H) in E; discriminate]).
    constructor.
    + rewrite push_usr_size. exact A1.
    + unfold push_usr. rewrite O. exact A2.
    + unfold push_usr. rewrite O. exact A3.
    + intros d. rewrite A4. unfold push_usr. rewrite O. simpl. unfold upd. destruct (Nat.eqb_spec d b) as [->|]; reflexivity.
    + intros d. rewrite push_usr_opn, leaving_upd, A5. destruct (Nat.eqb_spec d a) as [->|]; [|reflexivity]. unfold leaving. rewrite E. reflexivity.
    + intros d H. rewrite push_usr_size, push_usr_sysq, (A6 d H). rewrite (pend_cons (to_sys d) (size r) t a _ l L E). apply Permutation_refl.
    + intros d H. rewrite push_usr_size, (A7 d H). rewrite (pend_cons (to_usr d) (size r) t a _ l L E). simpl. unfold push_usr. rewrite O. simpl.
      destruct (Nat.eqb_spec b d) as [->|N].
      * rewrite upd_eq. simpl. rewrite <- app_assoc. apply Permutation_refl.
      * rewrite upd_neq by auto. apply Permutation_refl.
    + intros d. rewrite push_usr_size. intros H. rewrite upd_neq by lia. auto.
  - unfold push_usr. rewrite O. eapply rep_emit_none; [exact R|exact E|reflexivity|]. intros d H. split; [reflexivity|]. simpl.
    destruct (Nat.eqb_spec b d) as [->|]; [|reflexivity]. rewrite (r_opn _ _ _ R), O in H. discriminate.
Qed.
Lemma rep_emit_close r t s a l : rep r t s -> t a = EClose :: l -> rep (close r a) (upd t a l) s.
Proof.
  intros [A1 A2 A3 A4 A5 A6 A7 A8] E.
  assert (L : a < size r) by (destruct (Nat.lt_ge_cases a (size r)) as [H|H]; [exact H|rewrite (A8 a H) in E; discriminate]).
  assert (O : opn (nd s a) = false) by (rewrite A5; unfold leaving; rewrite E; simpl; apply andb_false_r).
  constructor; auto; simpl.
  - intros d. rewrite A4. unfold upd. destruct (Nat.eqb_spec d a) as [->|]; reflexivity.
  - intros d. rewrite leaving_upd. unfold upd. destruct (Nat.eqb_spec d a) as [->|]; [exact O|apply A5].
  - intros d H. rewrite (A6 d H). rewrite (pend_cons (to_sys d) (size r) t a _ l L E). unfold upd at 2. destruct (Nat.eqb_spec d a) as [->|]; apply Permutation_refl.
  - intros d H. rewrite (A7 d H). rewrite (pend_cons (to_usr d) (size r) t a _ l L E). unfold upd at 2. destruct (Nat.eqb_spec d a) as [->|]; apply Permutation_refl.
  - intros d H. rewrite upd_neq by lia. auto.
Qed.
Lemma rep_destroy r t s c : rep r t s -> rep (destroy r c) t (destroy s c).
Proof.
  intros R. apply (rep_close_now r t s c (fun v => Node (par v) (att v) true (kids v) (stopping v) (killing v) (started v) false (stopped v) (sysq v) (usrq v)) R); [|reflexivity].
  intros v w H. unfold skel in *; simpl. injection H. intros. congruence.
Qed.

(* ---- reordering queues ---- *)
Record shuffle (s s0 : state) : Prop := {
  sh_size : size s0 = size s;
  sh_flag : flag s0 = flag s;
  sh_req : requested s0 = requested s;
  sh_nd : forall b, skel (nd s0 b) = skel (nd s b) /\ opn (nd s0 b) = opn (nd s b) /\
    Permutation (sysq (nd s b)) (sysq (nd s0 b)) /\ Permutation (usrq (nd s b)) (usrq (nd s0 b))
}.
Lemma rep_shuffle r t s s0 : rep r t s -> shuffle s s0 -> rep r t s0.
Proof.
  intros [A1 A2 A3 A4 A5 A6 A7 A8] [S1 S2 S3 S4]. constructor; try congruence; auto.
  - intros b. destruct (S4 b) as (H & _). now rewrite H.
  - intros b. destruct (S4 b) as (_ & H & _). now rewrite H.
  - intros b. destruct (S4 b) as (_ & H & P & _). rewrite H. intros O. rewrite <- P. auto.
  - intros b. destruct (S4 b) as (_ & H & _ & P). rewrite H. intros O. rewrite <- P. auto.
Qed.
Lemma shuffle_core s s0 : shuffle s s0 -> same_core s s0.
Proof.
  intros [S1 S2 S3 S4]. split; [exact S1|]. intros b. destruct (S4 b) as (H & O & _).
  unfold skel in H. injection H as H1 H2 H3 H4 H5 H6 H7 H8. repeat split; congruence.
Qed.
Lemma shuffle_grows P Q s s0 : shuffle s s0 -> grows P Q s s0.
Proof.
  intros S. assert (C := shuffle_core _ _ S). destruct S as [S1 S2 S3 S4]. split; [exact C|]. split; [exact S2|]. split; [exact S3|].
  repeat split; intros b m H; destruct (S4 b) as (_ & _ & P1 & P2).
  - eapply Permutation_in; [exact P1|exact H].
  - eapply Permutation_in; [exact P2|exact H].
  - left. eapply Permutation_in; [apply Permutation_sym, P1|exact H].
  - left. eapply Permutation_in; [apply Permutation_sym, P2|exact H].
Qed.
Lemma shuffle_Core s s0 : shuffle s s0 -> Core s -> Core s0.
Proof. intros S C. eapply grows_core; [exact C|]. now apply shuffle_grows. Qed.
Lemma shuffle_Inv s s0 : shuffle s s0 -> Inv s -> Inv s0.
Proof. intros S C. eapply grows_inv; [exact C|]. now apply shuffle_grows. Qed.
Lemma shuffle_Shut s s0 : shuffle s s0 -> Shut s -> Shut s0.
Proof.
  intros S H b. assert (C := shuffle_core _ _ S). destruct C as [_ C]. destruct (C b) as (_ & E1 & E2 & _ & _ & _ & _ & E3 & E4).
  unfold shut. rewrite E1, E2, E3, E4. apply H.
Qed.
Lemma sum_perm {B} (w : B -> nat) l l' : Permutation l l' -> sum w l = sum w l'.
Proof. induction 1; simpl; lia. Qed.
Lemma shuffle_tot N s s0 : shuffle s s0 -> tot N s0 = tot N s.
Proof.
  intros [_ _ _ S4]. unfold tot. generalize N at 2 4 as k. induction k as [|k IH]; simpl; [reflexivity|]. rewrite IH. f_equal.
  unfold phi. destruct (S4 k) as (_ & -> & P1 & P2). rewrite (sum_perm _ _ _ P1), (sum_perm _ _ _ P2). reflexivity.
Qed.
Lemma shuffle_refl s : shuffle s s.
Proof. constructor; auto. Qed.
Lemma shuffle_sys r t s a m q : rep r t s -> opn (nd s a) = true -> sysq (nd r a) = m :: q ->
  exists s0 q0, shuffle s s0 /\ sysq (nd s0 a) = m :: q0.
Proof.
  intros R O E. assert (P := r_sys _ _ _ R a O). rewrite E in P. set (v := nd s a) in *.
  exists (set_nd s a (Node (par v) (att v) (gone v) (kids v) (stopping v) (killing v) (started v) (opn v) (stopped v) (m :: q ++ pend (to_sys a) (size r) t) (usrq v))), (q ++ pend (to_sys a) (size r) t).
  split; [|simpl; now rewrite upd_eq]. constructor; auto. intros b. simpl. unfold upd. destruct (Nat.eqb_spec b a) as [->|]; [|auto]. simpl. fold v. repeat split; auto.
Qed.
Lemma shuffle_usr r t s a m q : rep r t s -> opn (nd s a) = true -> usrq (nd r a) = m :: q ->
  exists s0 q0, shuffle s s0 /\ usrq (nd s0 a) = m :: q0.
Proof.
  intros R O E. assert (P := r_usr _ _ _ R a O). rewrite E in P. set (v := nd s a) in *.
  exists (set_nd s a (Node (par v) (att v) (gone v) (kids v) (stopping v) (killing v) (started v) (opn v) (stopped v) (sysq v) (m :: q ++ pend (to_usr a) (size r) t))), (q ++ pend (to_usr a) (size r) t).
  split; [|simpl; now rewrite upd_eq]. constructor; auto. intros b. simpl. unfold upd. destruct (Nat.eqb_spec b a) as [->|]; [|auto]. simpl. fold v. repeat split; auto.
Qed.
