(* FlowModel: coming to rest, who has been told, and the cells of those who left. *)
From Coq Require Import List Bool Arith Lia Permutation.
From Verif Require Import TreeModel TreeProofs TreeRegime TreeTerm FlowModel FlowProofs FlowSim.
Import ListNotations.

(* ---- at rest ---- *)
Lemma quiet_todo f : fquiet f -> forall a, todo f a = [].
Proof. intros Q a. specialize (Q (FEmit a) eq_refl). simpl in Q. destruct (todo f a); [reflexivity|discriminate]. Qed.
Lemma quiet_quiescent f s : fquiet f -> rep (base f) (todo f) s -> quiescent s.
Proof.
  intros Q R a. assert (T := quiet_todo f Q). assert (H := Q (FHandle a true) eq_refl). simpl in H. rewrite T in H. simpl in H.
  assert (O := r_opn _ _ _ R a). unfold leaving in O. rewrite T in O. simpl in O. rewrite andb_true_r in O. simpl. destruct (opn (nd s a)) eqn:Os; [|reflexivity].
  rewrite <- O in H. assert (PS := r_sys _ _ _ R a Os). assert (PU := r_usr _ _ _ R a Os).
  rewrite pend_none, app_nil_r in PS by (intros b e He; rewrite T in He; destruct He). rewrite pend_none, app_nil_r in PU by (intros b e He; rewrite T in He; destruct He).
  destruct (sysq (nd (base f) a)) as [|m q]; [|discriminate]. apply Permutation_sym, Permutation_nil in PS. rewrite PS.
  rewrite (skel_started _ _ (r_nd _ _ _ R a)). destruct (started (nd (base f) a)); [|reflexivity].
  destruct (usrq (nd (base f) a)) as [|u q]; [|discriminate]. apply Permutation_sym, Permutation_nil in PU. rewrite PU. reflexivity.
Qed.

(* ---- boundedly many steps ---- *)
Fixpoint jobs (n : nat) (t : nat -> list effect) : nat := match n with 0 => 0 | S k => length (t k) + jobs k t end.
Lemma jobs_out n t a l : n <= a -> jobs n (upd t a l) = jobs n t.
Proof. induction n as [|n IH]; intros H; simpl; [reflexivity|]. rewrite upd_neq by lia. rewrite IH by lia. reflexivity. Qed.
Lemma jobs_upd n t a l : a < n -> jobs n (upd t a l) + length (t a) = jobs n t + length l.
Proof.
  induction n as [|n IH]; intros H; [lia|]. simpl. destruct (Nat.eq_dec a n) as [->|E].
  - rewrite upd_eq, jobs_out by lia. lia.
  - rewrite upd_neq by lia. assert (a < n) by lia. specialize (IH H0). lia.
Qed.
Definition cost (n : nat) (f : fstate) (s : state) : nat := (n + 5) * tot n s + jobs n (todo f).

Lemma fhandle_sys_length r a m ok n : length (kids (nd r a)) <= n -> length (snd (fhandle_sys r a m ok)) <= n + 4.
Proof.
  intros K. assert (F : length (farewell r a) <= 4) by (unfold farewell; destruct (is_guard a), (att (nd r a)); simpl; lia).
  destruct m; unfold fhandle_sys; cbv zeta; repeat match goal with |- context[if ?b then _ else _] => destruct b end; cbn [snd]; rewrite ?map_length; simpl length; try lia.
Qed.
Lemma fhandle_usr_length r a u : length (snd (fhandle_usr r a u)) <= 4.
Proof. destruct u; simpl; repeat match goal with |- context[if ?b then _ else _] => destruct b end; simpl; lia. Qed.
Lemma handled_length f a f' n : (length (kids (nd (base f) a)) <= n) -> fstep f (FHandle a true) = Some f' ->
  exists l, todo f' = upd (todo f) a l /\ length l <= n + 4 /\ todo f a = [] /\ opn (nd (base f) a) = true.
Proof.
  intros K H. simpl in H. destruct (todo f a) eqn:T; [|discriminate]. simpl in H. destruct (opn (nd (base f) a)) eqn:O; [|discriminate].
  destruct (sysq _) as [|m q]; [destruct (started _); [|discriminate]; destruct (usrq _) as [|u q]; [discriminate|]|]; injection H as <-.
  - eexists. split; [reflexivity|]. assert (X := fhandle_usr_length (base f) a u). split; [lia|auto].
  - eexists. split; [reflexivity|]. split; [now apply fhandle_sys_length|auto].
Qed.
Lemma push_sys_requested s a m : requested (push_sys s a m) = requested s.
Proof. unfold push_sys. destruct (opn (nd s a)); reflexivity. Qed.
Lemma push_usr_requested s a m : requested (push_usr s a m) = requested s.
Proof. unfold push_usr. destruct (opn (nd s a)); reflexivity. Qed.
Lemma handle_usr_requested s a u : requested (handle_usr s a u) = requested s.
Proof.
  destruct u; cbn [handle_usr]; cbv zeta;
  repeat match goal with |- context[if ?b then _ else _] => destruct b end; rewrite ?push_sys_requested, ?push_usr_requested; try reflexivity.
Qed.
Lemma own_behaved f x : own x = true -> fbehaved f x.
Proof. destruct x as [a [|]|a|y]; simpl; auto; discriminate. Qed.
Lemma own_step f x f' s : Behaved f s -> own x = true -> fstep f x = Some f' ->
  exists s', Behaved f' s' /\ size s' = size s /\ requested s' = requested s /\ cost (size s) f' s' < cost (size s) f s.
Proof.
  intros B Ow H. destruct (behaved_match f x f' s B (own_behaved f x Ow) H) as (s0 & s' & Sh & M & I0 & B'). exists s'. split; [exact B'|].
  assert (C0 := proj1 I0). assert (N5 := c_size s0 C0). assert (Sz := sh_size _ _ Sh). assert (Rq := sh_req _ _ Sh). assert (Tt := shuffle_tot (size s) s s0 Sh).
  destruct B as (R & Sn & II & _). assert (Szr := r_size _ _ _ R).
  (* the jobs *)
  assert (J : (exists a, x = FHandle a true /\ jobs (size s) (todo f') <= jobs (size s) (todo f) + (size s + 4)) \/
              (exists a, x = FEmit a /\ jobs (size s) (todo f') < jobs (size s) (todo f))).
  { destruct x as [a [|]|a|y]; try discriminate; [left|right]; exists a; split; auto.
    - assert (K : length (kids (nd (base f) a)) <= size s).
      { rewrite <- (skel_kids _ _ (r_nd _ _ _ R a)). rewrite <- (seq_length (size s) 0). apply NoDup_incl_length; [apply II|]. intros c Hc. apply in_seq. apply (c_kids s (proj1 II)) in Hc. lia. }
      destruct (handled_length f a f' (size s) K H) as (l & E & Ll & T & O). assert (L := open_below f a Sn O). rewrite <- Szr in L.
      assert (X := jobs_upd (size s) (todo f) a l L). rewrite T in X. simpl in X. rewrite E. lia.
    - simpl in H. destruct (todo f a) as [|e l] eqn:T; [discriminate|]. injection H as <-.
      assert (L := todo_below f a e l (r_out _ _ _ R) T). rewrite <- Szr in L. assert (X := jobs_upd (size s) (todo f) a l L). rewrite T in X. simpl in X.
      replace (todo (emit f a e l)) with (upd (todo f) a l) by (destruct e; reflexivity). lia. }
  destruct M as [a ok m q E O Q ->|a ok u q E O St Q ->|a ok u q E O Lo Q ->|y E St _|g E ->|a c E L A ->|a E ->].
  - assert (ok = true) by (subst x; destruct ok; [reflexivity|discriminate]). subst ok.
    destruct (handle_decreases s0 (Handle a true) (pop_sys (handle_sys s0 a m true) a) I0 eq_refl) as [D1 D2]; [cbn [step]; cbv zeta; rewrite O, Q; reflexivity|].
    rewrite Sz in D1, D2. rewrite Tt in D2. split; [exact D1|]. split.
    + rewrite <- Rq. apply (requested_kept [Handle a true] s0); [reflexivity|]. cbn [run step]. cbv zeta. rewrite O, Q. reflexivity.
    + destruct J as [(b & Eb & J)|(b & Eb & J)]; [|congruence]. unfold cost. nia.
  - assert (ok = true) by (subst x; destruct ok; [reflexivity|discriminate]). subst ok.
    split; [change (size (handle_usr s0 a u) = size s); rewrite handle_usr_size; exact Sz|]. split; [change (requested (handle_usr s0 a u) = requested s); rewrite handle_usr_requested; exact Rq|].
    assert (Lt := open_in_range s0 a C0 O). rewrite Sz in Lt, N5.
    assert (X := handle_usr_tot (size s) N5 s0 a u q C0 Sz O Q).
    assert (I2 : usrq (nd (handle_usr s0 a u) a) = u :: q) by (rewrite handle_usr_usrq; [exact Q|exact C0|rewrite Q; now left]).
    assert (Y := tot_pop_usr (size s) N5 (handle_usr s0 a u) a u q Lt I2).
    destruct J as [(b & Eb & J)|(b & Eb & J)]; [|congruence]. unfold cost. nia.
  - split; [exact Sz|]. split; [exact Rq|]. assert (Lt := open_in_range s0 a C0 O). rewrite Sz in Lt, N5.
    assert (Y := tot_pop_usr (size s) N5 s0 a u q Lt Q). assert (P := wusr_pos (size s) N5 a u).
    destruct J as [(b & Eb & J)|(b & Eb & J)]; [|congruence]. unfold cost. nia.
  - subst x. discriminate.
  - subst x. discriminate.
  - split; [exact Sz|]. split; [exact Rq|]. rewrite Sz in L, N5.
    assert (X : tot (size s) (destroy s0 c) <= tot (size s) s0) by (apply tot_set_le; auto; [lia|discriminate]).
    destruct J as [(b & Eb & J)|(b & Eb & J)]; [congruence|]. unfold cost. nia.
  - split; [exact Sz|]. split; [exact Rq|]. destruct J as [(b & Eb & J)|(b & Eb & J)]; [congruence|]. unfold cost. nia.
Qed.
Lemma own_run xs : forall f f' s, Behaved f s -> forallb own xs = true -> frun f xs = Some f' ->
  exists s', Behaved f' s' /\ size s' = size s /\ requested s' = requested s /\ length xs + cost (size s) f' s' <= cost (size s) f s.
Proof.
  induction xs as [|x xs IH]; intros f f' s B F H; simpl in *; [injection H as <-; exists s; split; [exact B|]; split; [reflexivity|]; split; [reflexivity|lia]|].
  apply andb_true_iff in F. destruct F as [F1 F2]. destruct (fstep f x) as [f1|] eqn:E; [|discriminate].
  destruct (own_step f x f1 s B F1 E) as (s1 & B1 & Z1 & R1 & C1). destruct (IH f1 f' s1 B1 F2 H) as (s' & B' & Z' & R' & C').
  exists s'. rewrite Z1 in *. split; [exact B'|]. split; [exact Z'|]. split; [congruence|]. lia.
Qed.

Definition movable (f : fstate) : Prop := exists x f', own x = true /\ fstep f x = Some f'.
Lemma quiet_dec f s : rep (base f) (todo f) s -> Sane f -> fquiet f \/ movable f.
Proof.
  intros R Sn.
  assert (X : forall k, (forall a, a < k -> fstep f (FHandle a true) = None /\ fstep f (FEmit a) = None) \/ movable f).
  { induction k as [|k [IH|IH]]; [left; lia| |auto].
    destruct (fstep f (FHandle k true)) as [f'|] eqn:E; [right; exists (FHandle k true), f'; auto|].
    destruct (fstep f (FEmit k)) as [f'|] eqn:E'; [right; exists (FEmit k), f'; auto|].
    left. intros a Ha. destruct (Nat.eq_dec a k) as [->|]; [auto|apply IH; lia]. }
  destruct (X (size (base f))) as [H|H]; [|auto]. left. intros x Ow.
  assert (Y : forall a, size (base f) <= a -> fstep f (FHandle a true) = None /\ fstep f (FEmit a) = None).
  { intros a L. simpl. rewrite (r_out _ _ _ R a L), (n_gone f Sn a L). auto. }
  destruct x as [a [|]|a|y]; try discriminate; (destruct (Nat.lt_ge_cases a (size (base f))) as [L|L]; [apply (H a L)|apply (Y a L)]).
Qed.
Lemma fcomes_to_rest f s : Behaved f s -> exists xs f', forallb own xs = true /\ frun f xs = Some f' /\ fquiet f'.
Proof.
  intros B. remember (cost (size s) f s) as n eqn:E. revert f s B E. induction n as [n IH] using lt_wf_ind. intros f s B ->.
  destruct (quiet_dec f s (proj1 B) (proj1 (proj2 B))) as [Q|(x & f1 & Ow & H)]; [exists [], f; auto|].
  destruct (own_step f x f1 s B Ow H) as (s1 & B1 & Z1 & _ & C1).
  destruct (IH (cost (size s1) f1 s1)) with (f := f1) (s := s1) as (xs & f' & F & Rn & Q); [rewrite Z1; exact C1|exact B1|reflexivity|].
  exists (x :: xs), f'. simpl. rewrite Ow, H. auto.
Qed.

(* ---- the way out ---- *)
Definition exiting (f : fstate) (c : nat) : Prop :=
  todo f c = [EClose; ENotify] \/ (opn (nd (base f) c) = false /\ (todo f c = [ENotify] \/ todo f c = [])).
(* the cell has been destroyed by the parent, or it is about to be *)
Definition dropped (f : fstate) (c : nat) : Prop :=
  (exists a, In (SDetach c) (sysq (nd (base f) a))) \/
  (att (nd (base f) c) = true /\ ~ In c (kids (nd (base f) (par (nd (base f) c))))).
Record Tail (f : fstate) : Prop := {
  t_close : forall a l1 l2, todo f a = l1 ++ EClose :: l2 -> l2 = [ENotify];
  t_det : forall a b c l1 l2, todo f a = l1 ++ ESys b (SDetach c) :: l2 -> c = a /\ l2 = [EClose; ENotify];
  t_lt : forall a c, In (SDetach c) (sysq (nd (base f) a)) -> c < size (base f);
  t_shut : forall a, opn (nd (base f) a) = false -> gone (nd (base f) a) = true \/ told f a = true \/ In ENotify (todo f a);
  t_drop : forall c, dropped f c -> exiting f c
}.
(* pre_start succeeding, only those who ran post_stop are reported *)
Definition Told (f : fstate) : Prop := forall a, In ENotify (todo f a) \/ told f a = true -> stopped (nd (base f) a) = true.

Lemma split_nil {B} (x : B) l1 l2 : [] = l1 ++ x :: l2 -> False.
Proof. destruct l1; discriminate. Qed.
Lemma split_cons {B} (e x : B) l l1 l2 : e :: l = l1 ++ x :: l2 -> (e = x /\ l = l2) \/ exists l1', l = l1' ++ x :: l2.
Proof. destruct l1 as [|y l1]; simpl; intros H; injection H as -> ->; [auto|right; eauto]. Qed.
Ltac splits H := repeat (first [apply split_nil in H; destruct H | apply split_cons in H; destruct H as [[H _]|[? H]]; [discriminate H|] | idtac]).

Lemma farewell_close r a l1 l2 : farewell r a = l1 ++ EClose :: l2 -> l2 = [ENotify].
Proof.
  unfold farewell. destruct (is_guard a), (att (nd r a)); simpl; intros H;
  repeat (apply split_cons in H; destruct H as [[E <-]|[? H]]; [first [discriminate E|reflexivity]|]); now apply split_nil in H.
Qed.
Lemma farewell_det r a b c l1 l2 : farewell r a = l1 ++ ESys b (SDetach c) :: l2 -> c = a /\ l2 = [EClose; ENotify].
Proof.
  unfold farewell. destruct (is_guard a), (att (nd r a)); simpl; intros H;
  repeat (apply split_cons in H; destruct H as [[E <-]|[? H]]; [first [discriminate E|injection E as _ <-; auto]|]); now apply split_nil in H.
Qed.
Lemma poison_split l x l1 l2 : map (fun c => EUsr c UPoison) l = l1 ++ x :: l2 -> exists c, x = EUsr c UPoison.
Proof.
  intros H. assert (I : In x (map (fun c => EUsr c UPoison) l)) by (rewrite H; apply in_or_app; right; now left).
  apply in_map_iff in I. destruct I as (c & <- & _). eauto.
Qed.
Lemma fhandle_sys_close r a m ok l1 l2 : snd (fhandle_sys r a m ok) = l1 ++ EClose :: l2 -> l2 = [ENotify].
Proof.
  destruct m as [| | |c|c]; unfold fhandle_sys; cbv zeta; repeat match goal with |- context[if ?b then _ else _] => destruct b end; cbn [snd]; intros H;
    try (eapply farewell_close, H); try (apply poison_split in H; destruct H; discriminate);
    repeat (apply split_cons in H; destruct H as [[E <-]|[? H]]; [first [discriminate E|reflexivity]|]); now apply split_nil in H.
Qed.
Lemma fhandle_sys_det r a m ok b c l1 l2 : snd (fhandle_sys r a m ok) = l1 ++ ESys b (SDetach c) :: l2 -> c = a /\ l2 = [EClose; ENotify].
Proof.
  destruct m as [| | |d|d]; unfold fhandle_sys; cbv zeta; repeat match goal with |- context[if ?b then _ else _] => destruct b end; cbn [snd]; intros H;
    try (eapply farewell_det, H); try (apply poison_split in H; destruct H; discriminate);
    repeat (apply split_cons in H; destruct H as [[E <-]|[? H]]; [discriminate E|]); now apply split_nil in H.
Qed.
Lemma fhandle_usr_none r a u : forall e, In e (snd (fhandle_usr r a u)) -> e <> EClose /\ e <> ENotify /\ forall b c, e <> ESys b (SDetach c).
Proof.
  intros e. destruct u; simpl; repeat match goal with |- context[if ?b then _ else _] => destruct b end; simpl; intros H;
  repeat (destruct H as [H|H]; [subst; repeat split; discriminate|]); contradiction.
Qed.

Lemma fhandle_sys_tree r a m ok b : sane_sys (size r) a m ->
  let r' := fst (fhandle_sys r a m ok) in
  (opn (nd r' b) = opn (nd r b) \/ (opn (nd r' b) = false /\ gone (nd r' b) = true)) /\
  (gone (nd r b) = true -> gone (nd r' b) = true) /\ (stopped (nd r b) = true -> stopped (nd r' b) = true) /\
  (att (nd r' b) = true -> In b (kids (nd r' (par (nd r' b)))) \/ m = SDetach b \/ (att (nd r b) = true /\ ~ In b (kids (nd r (par (nd r b)))))).
Proof.
  intros Sn r'.
  assert (Same : forall w, (forall d, kids (nd w d) = kids (nd r d)) -> att (nd w b) = att (nd r b) -> par (nd w b) = par (nd r b) ->
     att (nd w b) = true -> In b (kids (nd w (par (nd w b)))) \/ m = SDetach b \/ (att (nd r b) = true /\ ~ In b (kids (nd r (par (nd r b)))))).
  { intros w K A P H. rewrite K, P. destruct (in_dec Nat.eq_dec b (kids (nd r (par (nd r b))))); [auto|]. right. right. rewrite <- A. auto. }
  assert (Set1 : forall v, r' = set_nd r a v -> kids v = kids (nd r a) -> att v = att (nd r a) -> par v = par (nd r a) -> opn v = opn (nd r a) -> gone v = gone (nd r a) -> (stopped (nd r a) = true -> stopped v = true) ->
     (opn (nd r' b) = opn (nd r b) \/ (opn (nd r' b) = false /\ gone (nd r' b) = true)) /\
     (gone (nd r b) = true -> gone (nd r' b) = true) /\ (stopped (nd r b) = true -> stopped (nd r' b) = true) /\
     (att (nd r' b) = true -> In b (kids (nd r' (par (nd r' b)))) \/ m = SDetach b \/ (att (nd r b) = true /\ ~ In b (kids (nd r (par (nd r b))))))).
  { intros v -> K A P O G St. repeat split.
    - left. simpl. unfold upd. destruct (Nat.eqb_spec b a) as [->|]; auto.
    - simpl. unfold upd. destruct (Nat.eqb_spec b a) as [->|]; [rewrite G|]; auto.
    - simpl. unfold upd. destruct (Nat.eqb_spec b a) as [->|]; auto.
    - apply Same.
      + intros d. simpl. unfold upd. destruct (Nat.eqb_spec d a) as [->|]; auto.
      + simpl. unfold upd. destruct (Nat.eqb_spec b a) as [->|]; auto.
      + simpl. unfold upd. destruct (Nat.eqb_spec b a) as [->|]; auto. }
  assert (Ks : forall ks v, r' = set_nd r a v -> kids v = ks -> (forall d, In d (kids (nd r a)) -> In d ks \/ m = SDetach d) -> att v = att (nd r a) -> par v = par (nd r a) -> opn v = opn (nd r a) -> gone v = gone (nd r a) -> (stopped (nd r a) = true -> stopped v = true) ->
     (opn (nd r' b) = opn (nd r b) \/ (opn (nd r' b) = false /\ gone (nd r' b) = true)) /\
     (gone (nd r b) = true -> gone (nd r' b) = true) /\ (stopped (nd r b) = true -> stopped (nd r' b) = true) /\
     (att (nd r' b) = true -> In b (kids (nd r' (par (nd r' b)))) \/ m = SDetach b \/ (att (nd r b) = true /\ ~ In b (kids (nd r (par (nd r b))))))).
  { intros ks v -> K KK A P O G St. repeat split.
    - left. simpl. unfold upd. destruct (Nat.eqb_spec b a) as [->|]; auto.
    - simpl. unfold upd. destruct (Nat.eqb_spec b a) as [->|]; [rewrite G|]; auto.
    - simpl. unfold upd. destruct (Nat.eqb_spec b a) as [->|]; auto.
    - assert (Ea : att (nd (set_nd r a v) b) = att (nd r b)) by (simpl; unfold upd; destruct (Nat.eqb_spec b a) as [->|]; auto).
      assert (Ep : par (nd (set_nd r a v) b) = par (nd r b)) by (simpl; unfold upd; destruct (Nat.eqb_spec b a) as [->|]; auto).
      rewrite Ea, Ep. intros H. destruct (in_dec Nat.eq_dec b (kids (nd r (par (nd r b))))) as [I|I]; [|right; right; auto].
      simpl. unfold upd. destruct (Nat.eqb_spec (par (nd r b)) a) as [e|e]; [|auto]. rewrite e in I. rewrite K. destruct (KK b I); auto. }
  destruct m as [| | |c|c].
  - unfold r', fhandle_sys. eapply Set1; try reflexivity; auto.
  - unfold r', fhandle_sys. destruct (is_nil (kids (nd r a))) eqn:N; simpl fst.
    + apply is_nil_spec in N. unfold r', fhandle_sys in Ks. rewrite N in Ks. simpl in Ks. eapply Ks; try reflexivity; try (intros d []); auto.
    + unfold r', fhandle_sys in Set1. rewrite N in Set1. simpl in Set1. eapply Set1; try reflexivity; auto.
  - unfold r', fhandle_sys. destruct (is_nil (kids (nd r a))) eqn:N; simpl fst.
    + apply is_nil_spec in N. unfold r', fhandle_sys in Ks. rewrite N in Ks. simpl in Ks. eapply Ks; try reflexivity; try (intros d []); auto.
    + unfold r', fhandle_sys in Set1. rewrite N in Set1. simpl in Set1. eapply Set1; try reflexivity; auto.
  - clear Set1 Ks. simpl in Sn. unfold r', fhandle_sys. destruct (stopping (nd r a)); [|destruct (att (nd r c) || gone (nd r c)) eqn:AG].
    + simpl fst. destruct (att (nd r c)) eqn:Ac; [repeat split; auto; now apply Same|]. repeat split.
      * simpl. unfold upd. destruct (Nat.eqb_spec b c) as [->|]; auto.
      * simpl. unfold upd. destruct (Nat.eqb_spec b c) as [->|]; auto.
      * simpl. unfold upd. destruct (Nat.eqb_spec b c) as [->|]; auto.
      * apply Same; [intros d|..]; simpl; unfold upd; [destruct (Nat.eqb_spec d c) as [->|]|destruct (Nat.eqb_spec b c) as [->|]..]; auto.
    + simpl fst. repeat split; auto; now apply Same.
    + apply orb_false_iff in AG. destruct AG as [Ac Gc]. simpl fst. unfold link.
      assert (F : forall d, let w := nd (link r a c) d in opn w = opn (nd r d) /\ gone w = gone (nd r d) /\ stopped w = stopped (nd r d)
         /\ kids w = (if d =? a then kids (nd r a) ++ [c] else kids (nd r d)) /\ att w = (if d =? c then true else att (nd r d)) /\ par w = (if d =? c then a else par (nd r d))).
      { intros d. unfold link, set_kids, set_nd; simpl. unfold upd. destruct (Nat.eqb_spec d c), (Nat.eqb_spec d a), (Nat.eqb_spec c a); subst; simpl; try lia; repeat split; reflexivity. }
      cbv zeta in F. fold (link r a c). destruct (F b) as (E1 & E2 & E3 & _ & E5 & E6). rewrite E1, E2, E3, E5, E6. repeat split; auto. destruct (Nat.eqb_spec b c) as [->|].
      * intros _. left. destruct (F a) as (_ & _ & _ & -> & _). rewrite Nat.eqb_refl. apply in_or_app. right. now left.
      * intros H. destruct (F (par (nd r b))) as (_ & _ & _ & -> & _). destruct (in_dec Nat.eq_dec b (kids (nd r (par (nd r b))))) as [I|I]; [|auto].
        left. destruct (Nat.eqb_spec (par (nd r b)) a) as [e|e]; [|exact I]. rewrite e in I. apply in_or_app. now left.
  - assert (KK : forall d, In d (kids (nd r a)) -> In d (remove_first c (kids (nd r a))) \/ SDetach c = SDetach d) by (intros d Hd; destruct (in_remove_first c _ d Hd); subst; auto).
    unfold r', fhandle_sys. cbv zeta. destruct (stopping (nd r a) && is_nil (remove_first c (kids (nd r a)))) eqn:N; simpl fst.
    + unfold r', fhandle_sys in Ks. cbv zeta in Ks. rewrite N in Ks. cbn [fst] in Ks. apply andb_true_iff in N. destruct N as [_ N]. apply is_nil_spec in N. rewrite N in KK.
      eapply Ks; try reflexivity; auto.
    + unfold r', fhandle_sys in Ks. cbv zeta in Ks. rewrite N in Ks. cbn [fst] in Ks. eapply Ks; try reflexivity; auto.
Qed.

(* the node table changes, the handlers do not move *)
Lemma tail_base r r' t k : Tail (FState r t k) -> Sane (FState r t k) -> size r <= size r' ->
  (forall b c, In (SDetach c) (sysq (nd r' b)) -> In (SDetach c) (sysq (nd r b)) \/ (c < size r /\ exiting (FState r' t k) c)) ->
  (forall b, opn (nd r' b) = false -> opn (nd r b) = false \/ gone (nd r' b) = true) ->
  (forall b, gone (nd r b) = true -> gone (nd r' b) = true \/ opn (nd r' b) = true) ->
  (forall b, b < size r -> opn (nd r b) = false -> opn (nd r' b) = false) ->
  (forall b, att (nd r' b) = true -> att (nd r b) = true /\ par (nd r' b) = par (nd r b)) ->
  (forall b, kids (nd r' b) = kids (nd r b)) ->
  Tail (FState r' t k).
Proof.
  intros [T1 T2 T3 T4 T5] Sn Sz Q O G M A K. simpl in *. constructor; simpl; auto.
  - intros b c H. destruct (Q b c H) as [H'|[H' _]]; [apply T3 in H'; lia|lia].
  - intros b H. destruct (O b H) as [H'|H']; [|auto]. destruct (T4 b H') as [X|X]; [|auto]. destruct (G b X); [auto|congruence].
  - intros c D.
    assert (X : dropped (FState r t k) c -> c < size r -> exiting (FState r' t k) c).
    { intros D' L. destruct (T5 c D') as [X|[X Y]]; [left; exact X|right; split; [simpl in *; now apply M|exact Y]]. }
    destruct D as [[b H]|[H1 H2]]; simpl in *.
    + destruct (Q b c H) as [H'|[_ H']]; [|exact H']. apply X; [left; eauto|eapply T3, H'].
    + destruct (A c H1) as [A1 A2]. rewrite K, A2 in H2. apply X; [right; auto|].
      destruct (Nat.lt_ge_cases c (size r)) as [L|L]; [exact L|]. assert (Y := n_gone _ Sn c L). simpl in Y. rewrite Y in A1. discriminate.
Qed.
(* a step of the handler other than closing and telling *)
Lemma tail_pop r t k a e l : Tail (FState r t k) -> t a = e :: l -> e <> EClose -> e <> ENotify -> Tail (FState r (upd t a l) k).
Proof.
  intros [T1 T2 T3 T4 T5] E N1 N2. simpl in *. constructor; simpl; auto.
  - intros b l1 l2. unfold upd. destruct (Nat.eqb_spec b a) as [->|]; [|apply T1]. intros ->. apply (T1 a (e :: l1) l2). exact E.
  - intros b d c l1 l2. unfold upd. destruct (Nat.eqb_spec b a) as [->|]; [|apply T2]. intros ->. apply (T2 a d c (e :: l1) l2). exact E.
  - intros b H. destruct (T4 b H) as [X|[X|X]]; auto. right. right. unfold upd. destruct (Nat.eqb_spec b a) as [->|]; [|exact X].
    rewrite E in X. destruct X; [congruence|assumption].
  - intros c D. assert (X := T5 c D). unfold exiting in *. simpl in *. unfold upd. destruct (Nat.eqb_spec c a) as [->|]; [|exact X].
    exfalso. rewrite E in X. destruct X as [X|[_ [X|X]]]; congruence.
Qed.
Lemma tail_handle r t k a r' l : Tail (FState r t k) -> t a = [] -> opn (nd r a) = true -> size r' = size r ->
  (forall l1 l2, l = l1 ++ EClose :: l2 -> l2 = [ENotify]) ->
  (forall b c l1 l2, l = l1 ++ ESys b (SDetach c) :: l2 -> c = a /\ l2 = [EClose; ENotify]) ->
  (forall b m, In m (sysq (nd r' b)) -> In m (sysq (nd r b))) ->
  (forall b, opn (nd r' b) = opn (nd r b) \/ (opn (nd r' b) = false /\ gone (nd r' b) = true)) ->
  (forall b, gone (nd r b) = true -> gone (nd r' b) = true) ->
  (forall b, att (nd r' b) = true -> In b (kids (nd r' (par (nd r' b)))) \/ dropped (FState r t k) b) ->
  Tail (FState r' (upd t a l) k).
Proof.
  intros [T1 T2 T3 T4 T5] E Oa Sz L1 L2 Q O G A. simpl in *. constructor; simpl; auto.
  - intros b l1 l2. unfold upd. destruct (Nat.eqb_spec b a) as [->|]; [apply L1|apply T1].
  - intros b d c l1 l2. unfold upd. destruct (Nat.eqb_spec b a) as [->|]; [apply L2|apply T2].
  - intros b c H. rewrite Sz. eapply T3, Q, H.
  - intros b H. destruct (O b) as [X|[_ X]]; [|auto]. rewrite X in H. destruct (T4 b H) as [Y|[Y|Y]]; auto. right. right.
    unfold upd. destruct (Nat.eqb_spec b a) as [->|]; [congruence|exact Y].
  - intros c D. assert (X : dropped (FState r t k) c -> exiting (FState r' (upd t a l) k) c).
    { intros D'. destruct (T5 c D') as [X|[X Y]]; simpl in X; unfold exiting; simpl.
      - left. unfold upd. destruct (Nat.eqb_spec c a) as [->|]; [congruence|exact X].
      - right. unfold upd. destruct (Nat.eqb_spec c a) as [->|]; [congruence|]. destruct (O c) as [Z|[Z _]]; rewrite Z; auto. }
    destruct D as [[b H]|[H1 H2]]; simpl in *; [apply X; left; exists b; apply Q, H|]. destruct (A c H1); [contradiction|auto].
Qed.
Lemma push_sys_frame s b m c : let s' := push_sys s b m in
  size s' = size s /\ opn (nd s' c) = opn (nd s c) /\ gone (nd s' c) = gone (nd s c) /\ att (nd s' c) = att (nd s c) /\ par (nd s' c) = par (nd s c) /\ kids (nd s' c) = kids (nd s c)
  /\ stopped (nd s' c) = stopped (nd s c) /\ (forall x, In x (sysq (nd s' c)) -> In x (sysq (nd s c)) \/ x = m).
Proof.
  unfold push_sys. destruct (opn (nd s b)) eqn:O; [|repeat split; auto]. simpl. unfold upd. destruct (Nat.eqb_spec c b) as [->|]; simpl; repeat split; auto.
  intros x H. apply in_app_or in H. destruct H as [H|[H|[]]]; auto.
Qed.
Lemma push_usr_frame s b m c : let s' := push_usr s b m in
  size s' = size s /\ opn (nd s' c) = opn (nd s c) /\ gone (nd s' c) = gone (nd s c) /\ att (nd s' c) = att (nd s c) /\ par (nd s' c) = par (nd s c) /\ kids (nd s' c) = kids (nd s c)
  /\ stopped (nd s' c) = stopped (nd s c) /\ sysq (nd s' c) = sysq (nd s c).
Proof.
  unfold push_usr. destruct (opn (nd s b)) eqn:O; [|repeat split; auto]. simpl. unfold upd. destruct (Nat.eqb_spec c b) as [->|]; simpl; repeat split; auto.
Qed.
Lemma tail_push_sys r t k b m : Tail (FState r t k) -> Sane (FState r t k) ->
  (forall c, m = SDetach c -> c < size r /\ exiting (FState r t k) c) -> Tail (FState (push_sys r b m) t k).
Proof.
  intros T Sn H. assert (F := push_sys_frame r b m). cbv zeta in F. apply (tail_base r); auto.
  - destruct (F 0) as [-> _]. auto.
  - intros d c I. destruct (F d) as (_ & _ & _ & _ & _ & _ & _ & Q). destruct (Q _ I) as [X|X]; [auto|]. symmetry in X. destruct (H c X) as [L E]. right. split; [exact L|].
    unfold exiting in *. simpl in *. destruct (F c) as (_ & -> & _). exact E.
  - intros d. destruct (F d) as (_ & -> & _). auto.
  - intros d. destruct (F d) as (_ & _ & -> & _). auto.
  - intros d _. destruct (F d) as (_ & -> & _). auto.
  - intros d. destruct (F d) as (_ & _ & _ & -> & -> & _). auto.
  - intros d. apply F.
Qed.
Lemma tail_push_usr r t k b m : Tail (FState r t k) -> Sane (FState r t k) -> Tail (FState (push_usr r b m) t k).
Proof.
  intros T Sn. assert (F := push_usr_frame r b m). cbv zeta in F. apply (tail_base r); auto.
  - destruct (F 0) as [-> _]. auto.
  - intros d c I. destruct (F d) as (_ & _ & _ & _ & _ & _ & _ & Q). rewrite Q in I. auto.
  - intros d. destruct (F d) as (_ & -> & _). auto.
  - intros d. destruct (F d) as (_ & _ & -> & _). auto.
  - intros d _. destruct (F d) as (_ & -> & _). auto.
  - intros d. destruct (F d) as (_ & _ & _ & -> & -> & _). auto.
  - intros d. apply F.
Qed.
Lemma tail_destroy r t k b : Tail (FState r t k) -> Sane (FState r t k) -> Tail (FState (destroy r b) t k).
Proof.
  intros T Sn. apply (tail_base r); auto; intros d; simpl; unfold upd; destruct (Nat.eqb_spec d b) as [->|]; auto.
Qed.
Lemma tail_new r t k : Tail (FState r t k) -> Sane (FState r t k) -> Tail (FState (new_actor r) t k).
Proof.
  intros T Sn. assert (Ab := n_gone _ Sn (size r) (le_n _)). simpl in Ab.
  apply (tail_base r); auto; try (intros d; simpl; unfold upd; destruct (Nat.eqb_spec d (size r)) as [->|]; simpl; auto); try discriminate; try lia.
  - simpl. lia.
  - rewrite Ab. reflexivity.
Qed.

Lemma tail_step f x f' s : Core s -> rep (base f) (todo f) s -> Sane f -> Tail f -> fstep f x = Some f' -> Tail f'.
Proof.
  intros C R Sn T H. assert (Ou := r_out _ _ _ R). destruct f as [r t k]. simpl in R, Ou.
  destruct x as [a ok|a|y]; unfold fstep in H; simpl base in H; simpl todo in H; cbv zeta in H.
  - destruct (is_nil (t a) && opn (nd r a)) eqn:G; [|discriminate]. apply andb_true_iff in G. destruct G as [G1 G2]. apply is_nil_spec in G1.
    assert (L := open_below _ a Sn G2). simpl in L.
    destruct (sysq (nd r a)) as [|m q] eqn:Q.
    + destruct (started (nd r a)) eqn:Sta; [|discriminate]. destruct (usrq (nd r a)) as [|u q] eqn:U; [discriminate|]. injection H as <-.
      destruct (fhandle_usr_frame r a u) as (F1 & F2 & _). assert (F3 := fhandle_usr_none r a u).
      unfold begin. simpl told. simpl todo.
      assert (P : forall b, let w := nd (pop_usr (fst (fhandle_usr r a u)) a) b in opn w = opn (nd r b) /\ gone w = gone (nd r b) /\ att w = att (nd r b) /\ par w = par (nd r b) /\ kids w = kids (nd r b) /\ sysq w = sysq (nd r b)).
      { intros b. simpl. rewrite F2. unfold upd. destruct (Nat.eqb_spec b a) as [->|]; simpl; repeat split; reflexivity. }
      cbv zeta in P. eapply tail_handle; try eassumption.
      * intros l1 l2 E. destruct (F3 EClose) as [X _]; [rewrite E; apply in_or_app; right; now left|congruence].
      * intros b c l1 l2 E. destruct (F3 (ESys b (SDetach c))) as (_ & _ & X); [rewrite E; apply in_or_app; right; now left|]. destruct (X b c eq_refl).
      * intros b m. destruct (P b) as (_ & _ & _ & _ & _ & ->). auto.
      * intros b. destruct (P b) as (-> & _). auto.
      * intros b. destruct (P b) as (_ & -> & _). auto.
      * intros b. destruct (P b) as (_ & _ & -> & -> & _). destruct (P (par (nd r b))) as (_ & _ & _ & _ & -> & _). intros A.
        destruct (in_dec Nat.eq_dec b (kids (nd r (par (nd r b))))); [auto|right; right; auto].
    + injection H as <-.
      assert (Su : sane_sys (size r) a m) by (apply (n_sys _ Sn a); simpl; rewrite Q; now left).
      destruct (fhandle_sys_frame r a m ok L Su) as (F1 & F2 & _). assert (F3 := fun b => fhandle_sys_tree r a m ok b Su). cbv zeta in F3.
      unfold begin. simpl told. simpl todo.
      assert (P : forall b, let w := nd (pop_sys (fst (fhandle_sys r a m ok)) a) b in let w0 := nd (fst (fhandle_sys r a m ok)) b in opn w = opn w0 /\ gone w = gone w0 /\ att w = att w0 /\ par w = par w0 /\ kids w = kids w0 /\ (forall x, In x (sysq w) -> In x (sysq w0))).
      { intros b. simpl. unfold upd. destruct (Nat.eqb_spec b a) as [->|]; simpl; repeat split; auto. intros x. apply tl_in. }
      cbv zeta in P. eapply tail_handle; try eassumption.
      * intros l1 l2. apply fhandle_sys_close.
      * intros b c l1 l2. apply fhandle_sys_det.
      * intros b x I. destruct (P b) as (_ & _ & _ & _ & _ & X). apply X in I. now rewrite F2 in I.
      * intros b. destruct (P b) as (-> & -> & _). apply F3.
      * intros b. destruct (P b) as (_ & -> & _). apply F3.
      * intros b. destruct (P b) as (_ & _ & -> & -> & _). destruct (P (par (nd (fst (fhandle_sys r a m ok)) b))) as (_ & _ & _ & _ & -> & _). intros A.
        destruct (F3 b) as (_ & _ & _ & F4). destruct (F4 A) as [X|[X|X]]; [auto|right; left; exists a; simpl; rewrite Q, X; now left|right; right; exact X].
  - destruct (t a) as [|e l] eqn:E; [discriminate|]. injection H as <-. assert (L := todo_below (FState r t k) a e l Ou E). simpl in L.
    assert (St := sane_todo r t k a e l Sn E). unfold emit. simpl. destruct e as [b m|b u| |].
    + assert (T1 : Tail (FState r (upd t a l) k)) by (eapply tail_pop; try eassumption; discriminate).
      unfold deliver. destruct (opn (nd r b)).
      * apply tail_push_sys; auto. intros c ->. destruct (t_det _ T a b c [] l E) as [-> ->]. split; [exact L|]. left. simpl. apply upd_eq.
      * destruct m; auto. destruct (att (nd r c)); [exact T1|]. now apply tail_destroy.
    + apply tail_push_usr; [|exact St]. eapply tail_pop; try eassumption; discriminate.
    + assert (El := t_close _ T a [] l E). subst l. destruct T as [T1 T2 T3 T4 T5]. simpl in *. constructor; simpl.
      * intros b l1 l2. unfold upd. destruct (Nat.eqb_spec b a) as [->|]; [|apply T1]. intros X. apply split_cons in X. destruct X as [[X _]|[l' X]]; [discriminate|now apply split_nil in X].
      * intros b d c l1 l2. unfold upd. destruct (Nat.eqb_spec b a) as [->|]; [|apply T2]. intros X. apply split_cons in X. destruct X as [[X _]|[l' X]]; [discriminate|now apply split_nil in X].
      * intros b c. unfold upd. destruct (Nat.eqb_spec b a) as [->|]; apply T3.
      * intros b. unfold upd. destruct (Nat.eqb_spec b a) as [->|]; [|apply T4]. right. right. now left.
      * intros c D. assert (D' : dropped (FState r t k) c).
        { assert (F : forall b, sysq (upd (nd r) a (nd (close r a) a) b) = sysq (nd r b) /\ att (upd (nd r) a (nd (close r a) a) b) = att (nd r b) /\ par (upd (nd r) a (nd (close r a) a) b) = par (nd r b) /\ kids (upd (nd r) a (nd (close r a) a) b) = kids (nd r b)).
          { intros b. unfold close. simpl. rewrite upd_eq. unfold upd. destruct (Nat.eqb_spec b a) as [->|]; repeat split; reflexivity. }
          assert (Ec : nd (close r a) = upd (nd r) a (nd (close r a) a)) by (unfold close; simpl; rewrite upd_eq; reflexivity).
          destruct D as [[b X]|[X Y]]; simpl in *.
          - left. exists b. simpl. destruct (F b) as [F1 _]. rewrite <- Ec in F1. simpl in F1. rewrite <- F1. exact X.
          - right. simpl. destruct (F c) as (_ & F2 & F3 & _). destruct (F (par (nd r c))) as (_ & _ & _ & F4). rewrite <- Ec in F2, F3, F4. simpl in F2, F3, F4. rewrite F2 in X. rewrite F3, F4 in Y. auto. }
        unfold exiting. simpl. destruct (T5 c D') as [X|[X Y]]; simpl in *; unfold upd; destruct (Nat.eqb_spec c a) as [->|]; auto.
    + destruct T as [T1 T2 T3 T4 T5]. simpl in *. constructor; simpl; auto.
      * intros b l1 l2. unfold upd. destruct (Nat.eqb_spec b a) as [->|]; [|apply T1]. intros ->. apply (T1 a (ENotify :: l1) l2). exact E.
      * intros b d c l1 l2. unfold upd. destruct (Nat.eqb_spec b a) as [->|]; [|apply T2]. intros ->. apply (T2 a d c (ENotify :: l1) l2). exact E.
      * intros b O. unfold upd. destruct (Nat.eqb_spec b a) as [->|]; auto.
      * intros c D. assert (X := T5 c D). unfold exiting in *. simpl in *. unfold upd. destruct (Nat.eqb_spec c a) as [->|]; [|exact X].
        rewrite E in X. destruct X as [X|[X [Y|Y]]]; try discriminate. injection Y as ->. auto.
  - assert (Tn := tail_new r t k T Sn). assert (Nw := sane_new r t k Sn (Ou (size r) (le_n _))).
    destruct y as [a ok|g|p|a|a kk|b]; [discriminate|..]; cbn [step] in H; cbv zeta in H.
    + destruct (is_guard g) eqn:G; [|discriminate]. fold (new_actor r) in H.
      destruct (opn _); injection H as <-; [now apply tail_push_usr|now apply tail_destroy].
    + destruct (_ && _) eqn:G; [|discriminate]. injection H as <-. apply tail_push_sys; auto. discriminate.
    + injection H as <-. apply tail_push_sys; auto. discriminate.
    + injection H as <-. now apply tail_push_usr.
    + injection H as <-. assert (X := tail_push_usr r t k 0 (URootTerm b) T Sn). destruct X as [X1 X2 X3 X4 X5]. constructor; assumption.
Qed.
Lemma tail_init : Tail finit.
Proof.
  assert (X : forall {B} (x : B) l1 l2, [] <> l1 ++ x :: l2) by (intros B x [|] l2; discriminate).
  constructor; simpl.
  - intros a l1 l2 H. now apply X in H.
  - intros a b c l1 l2 H. now apply X in H.
  - intros a c H. do 5 (destruct a as [|a]; [simpl in H; intuition discriminate|]). destruct H.
  - intros a H. do 5 (destruct a as [|a]; [discriminate|]). auto.
  - intros c [[a H]|[H1 H2]]; simpl in *.
    + do 5 (destruct a as [|a]; [simpl in H; intuition discriminate|]). destruct H.
    + do 5 (destruct c as [|c]; [try discriminate; exfalso; apply H2; simpl; tauto|]). discriminate.
Qed.
Lemma freachable_tail f : freachable f -> exists s, Matched f s /\ Tail f.
Proof.
  assert (X : forall xs f f' s, Matched f s -> Tail f -> frun f xs = Some f' -> exists s', Matched f' s' /\ Tail f').
  { induction xs as [|x xs IH]; intros g g' s M T H; simpl in H; [injection H as <-; eauto|]. destruct (fstep g x) as [g1|] eqn:E; [|discriminate].
    destruct (matched_step _ _ _ _ M E) as [s1 M1]. eapply IH; try eassumption. destruct M as (R & Sn & C). eapply tail_step; eassumption. }
  intros [xs H]. destruct (freachable_matched finit) as [s M]; [exists []; reflexivity|]. eapply X; [exact M|exact tail_init|exact H].
Qed.

(* ---- who has been told ---- *)
Lemma fhandle_sys_notify r a m : In ENotify (snd (fhandle_sys r a m true)) -> stopped (nd (fst (fhandle_sys r a m true)) a) = true.
Proof.
  destruct m as [| | |c|c]; unfold fhandle_sys; cbv zeta; repeat match goal with |- context[if ?b then _ else _] => destruct b end; cbn [fst snd]; intros H;
    try (unfold post_stop; simpl; rewrite upd_eq; reflexivity); try (simpl in H; intuition discriminate).
  apply in_map_iff in H. destruct H as (c & E & _). discriminate.
Qed.
Lemma told_step f x f' s : Core s -> rep (base f) (todo f) s -> Sane f -> Told f -> fbehaved f x -> fstep f x = Some f' -> Told f'.
Proof.
  intros C R Sn T W H. assert (Ou := r_out _ _ _ R). destruct f as [r t k]. simpl in R, Ou.
  destruct x as [a ok|a|y]; unfold fstep in H; simpl base in H; simpl todo in H; cbv zeta in H.
  - simpl in W. subst ok. destruct (is_nil (t a) && opn (nd r a)) eqn:G; [|discriminate]. apply andb_true_iff in G. destruct G as [G1 G2]. apply is_nil_spec in G1.
    destruct (sysq (nd r a)) as [|m q] eqn:Q.
    + destruct (started (nd r a)) eqn:Sta; [|discriminate]. destruct (usrq (nd r a)) as [|u q] eqn:U; [discriminate|]. injection H as <-.
      destruct (fhandle_usr_frame r a u) as (F1 & F2 & _). assert (F3 := fhandle_usr_none r a u).
      intros b. unfold begin. simpl. rewrite F2. unfold Told in T. simpl in T. assert (Tb := T b). unfold upd. destruct (Nat.eqb_spec b a) as [->|]; [|exact Tb].
      intros [X|X]; [|simpl; auto]. destruct (F3 _ X) as (_ & Y & _). congruence.
    + injection H as <-. assert (Su : sane_sys (size r) a m) by (apply (n_sys _ Sn a); simpl; rewrite Q; now left).
      intros b. destruct (fhandle_sys_tree r a m true b Su) as (_ & _ & F & _). assert (Tb := T b). unfold begin. simpl in *. unfold upd at 2. unfold upd.
      destruct (Nat.eqb_spec b a) as [->|]; [|auto]. simpl. intros [X|X]; [now apply fhandle_sys_notify|auto].
  - destruct (t a) as [|e l] eqn:E; [discriminate|]. injection H as <-.
    assert (T1 : Told (FState r (upd t a l) k)).
    { intros b. assert (Tb := T b). simpl in *. unfold upd. destruct (Nat.eqb_spec b a) as [->|]; [|exact Tb]. intros [X|X]; [|auto]. apply Tb. left. rewrite E. now right. }
    unfold emit. simpl. destruct e as [b m|b u| |].
    + unfold deliver. destruct (opn (nd r b)).
      * intros c. assert (Tc := T1 c). destruct (push_sys_frame r b m c) as (_ & _ & _ & _ & _ & _ & F & _). simpl in *. rewrite F. exact Tc.
      * destruct m; auto. destruct (att (nd r c)); [exact T1|]. intros d. assert (Td := T1 d). simpl in *. unfold upd at 2. destruct (Nat.eqb_spec d c) as [->|]; exact Td.
    + intros c. assert (Tc := T1 c). destruct (push_usr_frame r b u c) as (_ & _ & _ & _ & _ & _ & F & _). simpl in *. rewrite F. exact Tc.
    + intros d. assert (Td := T1 d). simpl in *. unfold upd at 2. destruct (Nat.eqb_spec d a) as [->|]; exact Td.
    + intros d. assert (Td := T1 d). assert (Ta := T a). simpl in *. unfold upd at 2. destruct (Nat.eqb_spec d a) as [->|]; [|exact Td]. intros _. apply Ta. left. rewrite E. now left.
  - assert (Tn : Told (FState (new_actor r) t k)).
    { intros b. assert (Tb := T b). simpl in *. unfold upd. destruct (Nat.eqb_spec b (size r)) as [->|]; [|exact Tb]. intros X. apply Tb in X. assert (Y := n_gone _ Sn (size r) (le_n _)). simpl in Y. rewrite Y in X. discriminate. }
    destruct y as [a ok|g|p|a|a kk|b]; [discriminate|..]; cbn [step] in H; cbv zeta in H.
    + destruct (is_guard g) eqn:G; [|discriminate]. fold (new_actor r) in H. destruct (opn _); injection H as <-.
      * intros c. assert (Tc := Tn c). destruct (push_usr_frame (new_actor r) 0 (UAdd g (size r)) c) as (_ & _ & _ & _ & _ & _ & F & _). cbn [base todo told] in *. rewrite F. exact Tc.
      * intros d. assert (Td := Tn d). revert Td. generalize (new_actor r). intros w Td. simpl in *. unfold upd. destruct (Nat.eqb_spec d (size r)) as [->|]; exact Td.
    + destruct (_ && _) eqn:G; [|discriminate]. injection H as <-. intros c. assert (Tc := Tn c). destruct (push_sys_frame (new_actor r) p (SAttach (size r)) c) as (_ & _ & _ & _ & _ & _ & F & _). cbn [base todo told] in *. rewrite F. exact Tc.
    + injection H as <-. intros c. assert (Tc := T c). destruct (push_sys_frame r a SStop c) as (_ & _ & _ & _ & _ & _ & F & _). cbn [base todo told] in *. rewrite F. exact Tc.
    + injection H as <-. intros c. assert (Tc := T c). destruct (push_usr_frame r a (if kk then UPoison else UOther) c) as (_ & _ & _ & _ & _ & _ & F & _). cbn [base todo told] in *. rewrite F. exact Tc.
    + injection H as <-. intros c. assert (Tc := T c). destruct (push_usr_frame r 0 (URootTerm b) c) as (_ & _ & _ & _ & _ & _ & F & _). cbn [base todo told nd] in *. rewrite F. exact Tc.
Qed.
Definition Full (f : fstate) (s : state) : Prop := Behaved f s /\ Tail f /\ Told f.
Lemma full_step f x f' s : Full f s -> fbehaved f x -> fstep f x = Some f' -> exists s', Full f' s'.
Proof.
  intros (B & T & K) W H. destruct (behaved_match f x f' s B W H) as (s0 & s' & _ & _ & _ & B'). exists s'. split; [exact B'|].
  destruct B as (R & Sn & II & _). split; [eapply tail_step|eapply told_step]; try eassumption; apply II.
Qed.
Lemma fwell_full f : fwell f -> exists s, Full f s.
Proof.
  assert (X : forall xs f f' s, Full f s -> fbehaved_run f xs -> frun f xs = Some f' -> exists s', Full f' s').
  { induction xs as [|x xs IH]; intros g g' s M W H; simpl in H, W; [injection H as <-; eauto|]. destruct W as [W1 W2]. destruct (fstep g x) as [g1|] eqn:E; [|discriminate].
    destruct (full_step _ _ _ _ M W1 E) as (s1 & M1). eapply IH; eassumption. }
  intros (xs & W & H). eapply X; [|exact W|exact H]. split; [split; [apply rep_init|split; [apply sane_init|split; [apply init_inv|apply init_shut]]]|].
  split; [apply tail_init|]. intros a. simpl. intros [[]|Y]; discriminate.
Qed.

(* ---- the results ---- *)
Lemma full_stopped f s a : Full f s -> a = 0 \/ att (nd (base f) a) = true -> opn (nd s a) = false -> stopped (nd (base f) a) = true.
Proof.
  intros ((R & Sn & II & Sh) & T & K) A O. assert (E := r_nd _ _ _ R a). rewrite <- (skel_stopped _ _ E). rewrite <- (skel_att _ _ E) in A.
  destruct (Sh a) as [S1 S2]. destruct (S1 O) as [H|H]; [exact H|]. apply S2 in A. congruence.
Qed.
Lemma full_told f s a : Full f s -> a = 0 \/ att (nd (base f) a) = true -> opn (nd (base f) a) = false -> told f a = true \/ In ENotify (todo f a).
Proof.
  intros ((R & Sn & II & Sh) & T & K) A O. assert (E := r_nd _ _ _ R a). rewrite <- (skel_att _ _ E) in A.
  destruct (t_shut f T a O) as [H|H]; [|exact H]. destruct (Sh a) as [_ S2]. rewrite (skel_gone _ _ E) in S2. apply S2 in A. congruence.
Qed.
Lemma flow_waits f p c : fwell f -> stopped (nd (base f) p) = true -> att (nd (base f) c) = true -> par (nd (base f) c) = p -> stopped (nd (base f) c) = true.
Proof.
  intros W St A P. destruct (fwell_full f W) as (s & F). eapply full_stopped; [exact F|now right|]. destruct F as ((R & Sn & II & Sh) & T & K).
  assert (C := proj1 II). assert (E := r_nd _ _ _ R). rewrite <- (skel_stopped _ _ (E p)) in St. rewrite <- (skel_att _ _ (E c)) in A. rewrite <- (skel_par _ _ (E c)) in P.
  destruct (c_att s C c A) as [_ [I|I]]; [|exact I]. rewrite P in I. apply (c_stopped s C) in St. destruct St as [_ St]. rewrite St in I. destruct I.
Qed.
Lemma flow_any f p c : freachable f -> stopped (nd (base f) p) = true -> att (nd (base f) c) = true -> par (nd (base f) c) = p -> opn (nd (base f) c) = false \/ In EClose (todo f c).
Proof.
  intros W St A P. destruct (freachable_matched f W) as (s & R & Sn & C). assert (E := r_nd _ _ _ R).
  rewrite <- (skel_stopped _ _ (E p)) in St. rewrite <- (skel_att _ _ (E c)) in A. rewrite <- (skel_par _ _ (E c)) in P.
  assert (O : opn (nd s c) = false).
  { destruct (c_att s C c A) as [_ [I|I]]; [|exact I]. rewrite P in I. apply (c_stopped s C) in St. destruct St as [_ St]. rewrite St in I. destruct I. }
  rewrite (r_opn _ _ _ R c) in O. apply andb_false_iff in O. destruct O as [O|O]; [auto|]. right. apply leaving_in. now apply negb_false_iff in O.
Qed.
Lemma flow_complete f s : Full f s -> requested s = true -> fquiet f -> forall a, a = 0 \/ att (nd (base f) a) = true ->
  opn (nd (base f) a) = false /\ stopped (nd (base f) a) = true /\ told f a = true.
Proof.
  intros F Rq Q a A. assert (F' := F). destruct F as ((R & Sn & II & Sh) & T & K). assert (Qs := quiet_quiescent f s Q R).
  assert (O0 := rest_root_closed s II Qs Rq). assert (Tn := quiet_todo f Q).
  assert (Os : opn (nd s a) = false).
  { destruct A as [->|A]; [exact O0|]. rewrite <- (skel_att _ _ (r_nd _ _ _ R a)) in A. apply (root_closed_all s II O0 (S a)); [lia|exact A]. }
  assert (Or : opn (nd (base f) a) = false).
  { rewrite (r_opn _ _ _ R a) in Os. apply andb_false_iff in Os. destruct Os as [Os|Os]; [exact Os|]. apply negb_false_iff, leaving_in in Os. rewrite Tn in Os. destruct Os. }
  split; [exact Or|]. split; [eapply full_stopped; eassumption|]. destruct (full_told f s a F' A Or) as [H|H]; [exact H|]. rewrite Tn in H. destruct H.
Qed.
Lemma full_run xs : forall f f' s, Full f s -> forallb own xs = true -> frun f xs = Some f' ->
  exists s', Full f' s' /\ requested s' = requested s /\ length xs <= cost (size s) f s.
Proof.
  intros f f' s F Ow H. destruct (own_run xs f f' s (proj1 F) Ow H) as (s' & B' & _ & Rq & L). exists s'. split; [|split; [exact Rq|lia]]. split; [exact B'|].
  clear s' B' Rq L. revert f s F Ow H. induction xs as [|x xs IH]; intros f s F Ow H; simpl in *; [injection H as <-; apply F|].
  apply andb_true_iff in Ow. destruct Ow as [O1 O2]. destruct (fstep f x) as [f1|] eqn:E; [|discriminate].
  destruct (full_step f x f1 s F (own_behaved f x O1) E) as (s1 & F1). eapply IH; eassumption.
Qed.
Lemma flow_returned f : fwell f -> told f 0 = true -> forall a, att (nd (base f) a) = true -> stopped (nd (base f) a) = true.
Proof.
  intros W H a A. destruct (fwell_full f W) as (s & F). assert (F' := F). destruct F as ((R & Sn & II & Sh) & T & K).
  eapply full_stopped; [exact F'|now right|]. assert (E := r_nd _ _ _ R). rewrite <- (skel_att _ _ (E a)) in A.
  apply (root_closed_all s II) with (k := S a); [|lia|exact A]. apply (c_stopped s (proj1 II)). rewrite (skel_stopped _ _ (E 0)). apply K. auto.
Qed.
Lemma flow_erased f c : freachable f -> att (nd (base f) c) = true -> ~ In c (kids (nd (base f) (par (nd (base f) c)))) ->
  (forall ok, fstep f (FHandle c ok) = None) /\ (todo f c = [EClose; ENotify] \/ (opn (nd (base f) c) = false /\ (todo f c = [ENotify] \/ todo f c = []))).
Proof.
  intros W A N. destruct (freachable_tail f W) as (s & _ & T). assert (X := t_drop f T c (or_intror (conj A N))). split; [|exact X].
  intros ok. simpl. destruct X as [X|[O _]]; [rewrite X; reflexivity|]. rewrite O, andb_false_r. reflexivity.
Qed.
