(* TreeModel: left alone, the actors come to rest; and what they rest at. *)
From Coq Require Import List Bool Arith Lia Permutation.
From Verif Require Import TreeModel TreeProofs TreeRegime.
Import ListNotations.

(* ---- at rest ---- *)
Lemma rest s a : Inv s -> quiescent s -> opn (nd s a) = true -> a = 0 \/ att (nd s a) = true ->
  sysq (nd s a) = [] /\ usrq (nd s a) = [].
Proof.
  intros II Q O At. specialize (Q a). simpl in Q. rewrite O in Q.
  destruct (sysq (nd s a)) as [|m q] eqn:E; [|discriminate]. split; [reflexivity|].
  assert (Sta : started (nd s a) = true).
  { destruct II as (_ & L & S). destruct At as [->|At]; [now apply S|]. destruct (l_start s L a At O) as [H|H]; [exact H|]. rewrite E in H. destruct H. }
  rewrite Sta in Q. destruct (usrq (nd s a)); [reflexivity|discriminate].
Qed.
Lemma rest_not_doomed s : Inv s -> quiescent s -> forall k a, size s - a <= k -> a = 0 \/ att (nd s a) = true -> doomed s a -> opn (nd s a) = false.
Proof.
  intros II Q. induction k as [|k IH]; intros a Hk At D; destruct (opn (nd s a)) eqn:O; auto;
    assert (Lt := open_in_range s a (proj1 II) O); [lia|].
  destruct (rest s a II Q O At) as [E1 E2]. destruct D as [D|[D|[D|D]]]; [congruence|rewrite E1 in D; destruct D|rewrite E2 in D; destruct D|].
  destruct II as (C & L & S). assert (St := s_kill s S a D). assert (K := s_stop s S a St O).
  destruct (kids (nd s a)) as [|c ks] eqn:Ks; [congruence|]. assert (Hc : In c (kids (nd s a))) by (rewrite Ks; now left).
  destruct (c_kids s C a c Hc) as (B & Ac & _). exfalso.
  assert (Oc : opn (nd s c) = false).
  { apply IH; [lia|auto|]. eapply (l_killk s L); eauto. }
  apply (l_detw s L a c Hc) in Oc. rewrite E1 in Oc. destruct Oc.
Qed.
Lemma rest_root_closed s : Inv s -> quiescent s -> requested s = true -> opn (nd s 0) = false.
Proof.
  intros II Q R. destruct (opn (nd s 0)) eqn:O; [|reflexivity]. exfalso.
  destruct (rest s 0 II Q O (or_introl eq_refl)) as [E1 E2].
  assert (DC : forall g, 1 <= g <= 4 -> doomed s g -> opn (nd s g) = false /\ flag s g = true).
  { intros g Hg D. assert (X : opn (nd s g) = false).
    { apply (rest_not_doomed s II Q (size s) g); [lia| |exact D]. right. apply II. exact Hg. }
    split; [exact X|]. destruct II as (_ & L & _). destruct (l_guard s L g Hg X O) as [H|H]; [rewrite E2 in H; destruct H|exact H]. }
  destruct II as (C & L & S).
  destruct (l_req s L R O) as [H|[D3 D4]]; [rewrite E2 in H; destruct H|].
  destruct (DC 3) as [C3 F3]; [lia|exact D3|]. destruct (DC 4) as [C4 F4]; [lia|exact D4|].
  destruct (l_usr s L F3 F4) as [D1 D2].
  destruct (DC 1) as [C1 F1]; [lia|exact D1|]. destruct (DC 2) as [C2 F2]; [lia|exact D2|].
  destruct (l_both s L F1 F2 O) as [H|H]; [rewrite E1 in H; destruct H|].
  assert (K := s_stop s S 0 H O). destruct (kids (nd s 0)) as [|c ks] eqn:Ks; [congruence|].
  assert (Hc : In c (kids (nd s 0))) by (rewrite Ks; now left). assert (Hg := s_rootk s S c Hc).
  assert (Oc : opn (nd s c) = false) by (assert (c = 1 \/ c = 2 \/ c = 3 \/ c = 4) as [->|[->|[->| ->]]] by lia; assumption).
  apply (l_detw s L 0 c Hc) in Oc. rewrite E1 in Oc. destruct Oc.
Qed.
Lemma root_closed_all s : Inv s -> opn (nd s 0) = false -> forall k a, a < k -> att (nd s a) = true -> opn (nd s a) = false.
Proof.
  intros (C & L & S) O. induction k as [|k IH]; intros a Hk At; [lia|].
  destruct (c_att s C a At) as [P [I|I]]; [|exact I]. exfalso. set (p := par (nd s a)) in *.
  destruct (opn (nd s p)) eqn:Op; [|rewrite (s_closed s S p Op) in I; destruct I].
  destruct (Nat.eq_dec p 0) as [e|e]; [rewrite e in Op; congruence|].
  destruct (att (nd s p)) eqn:Ap; [rewrite IH in Op; [discriminate|lia|exact Ap]|].
  assert (Lt := open_in_range s p C Op). destruct (s_pend s S p) as (_ & _ & _ & _ & _ & K); [lia|exact Ap|]. rewrite K in I. destruct I.
Qed.
Lemma shutdown_complete s : well_reachable s -> requested s = true -> quiescent s ->
  opn (nd s 0) = false /\ forall a, att (nd s a) = true -> opn (nd s a) = false.
Proof.
  intros W R Q. apply well_reachable_inv in W. assert (O := rest_root_closed s W Q R). split; [exact O|].
  intros a. apply (root_closed_all s W O (S a)). lia.
Qed.

(* ---- coming to rest ---- *)
Section Measure.
  Variable N : nat.
  Hypothesis N5 : 5 <= N.
  Fixpoint f (k : nat) : nat := match k with 0 => 1 | S k => N * (f k + 1) + 1 end.
  Definition W (a : nat) : nat := f (N - a).
  Definition u0 : nat := W 1 + W 2 + 2.
  Definition pot : nat := u0 + 1.
  Definition wsys (a : nat) (m : smsg) : nat := match m with SStop => W a | SAttach _ => 2 | _ => 1 end.
  Definition wusr (a : nat) (u : umsg) : nat :=
    match u with UPoison => W a + 1 | UAdd _ _ => 3 | URootTerm _ => W 3 + W 4 + 3 | UTerm _ => u0 | UOther => 1 end.
  Fixpoint sum {B} (w : B -> nat) (l : list B) : nat := match l with [] => 0 | x :: t => w x + sum w t end.
  Definition phi (a : nat) (v : node) : nat := (if opn v then pot else 0) + sum (wsys a) (sysq v) + sum (wusr a) (usrq v).
  Fixpoint total (k : nat) (g : nat -> node) : nat := match k with 0 => 0 | S k => phi k (g k) + total k g end.

  Lemma f_mono_S k : f k <= f (S k). Proof. simpl. nia. Qed.
  Lemma f_mono j k : j <= k -> f j <= f k.
  Proof. induction 1; [lia|]. eapply Nat.le_trans; [exact IHle|apply f_mono_S]. Qed.
  Lemma f_pos k : 1 <= f k. Proof. destruct k; simpl; lia. Qed.
  Lemma W_pos a : 1 <= W a. Proof. apply f_pos. Qed.
  Lemma wsys_pos a m : 1 <= wsys a m. Proof. destruct m; simpl; try lia. apply W_pos. Qed.
  Lemma wusr_pos a m : 1 <= wusr a m. Proof. destruct m; simpl; unfold u0; lia. Qed.
  Lemma sum_app {B} (w : B -> nat) l l' : sum w (l ++ l') = sum w l + sum w l'.
  Proof. induction l; simpl; lia. Qed.

  Lemma total_same k g h : (forall b, b < k -> g b = h b) -> total k g = total k h.
  Proof. induction k as [|k IH]; intros H; simpl; [reflexivity|]. rewrite (H k) by lia. rewrite IH; auto. Qed.
  Lemma total_upd k g a v : a < k -> total k (upd g a v) + phi a (g a) = total k g + phi a v.
  Proof.
    induction k as [|k IH]; intros H; [lia|]. simpl. destruct (Nat.eq_dec a k) as [->|e].
    - rewrite upd_eq. rewrite (total_same k (upd g k v) g); [lia|]. intros b Hb. apply upd_neq. lia.
    - rewrite upd_neq by lia. assert (a < k) by lia. specialize (IH H0). lia.
  Qed.
  Definition tot (s : state) : nat := total N (nd s).
  Lemma tot_set s a v : a < N -> tot (set_nd s a v) + phi a (nd s a) = tot s + phi a v.
  Proof. intros H. apply total_upd, H. Qed.

  Lemma tot_push_sys s a m : a < N -> tot (push_sys s a m) <= tot s + wsys a m.
  Proof.
    intros H. unfold push_sys. destruct (opn (nd s a)) eqn:O; [|lia].
    match goal with |- tot (set_nd s a ?v) <= _ => assert (X := tot_set s a v H) end.
    unfold phi in X at 2. simpl in X. rewrite sum_app in X. simpl in X. unfold phi in X. rewrite O in X. lia.
  Qed.
  Lemma tot_push_usr s a m : a < N -> tot (push_usr s a m) <= tot s + wusr a m.
  Proof.
    intros H. unfold push_usr. destruct (opn (nd s a)) eqn:O; [|lia].
    match goal with |- tot (set_nd s a ?v) <= _ => assert (X := tot_set s a v H) end.
    unfold phi in X at 2. simpl in X. rewrite sum_app in X. simpl in X. unfold phi in X. rewrite O in X. lia.
  Qed.
  Lemma tot_pop_sys s a m q : a < N -> sysq (nd s a) = m :: q -> tot (pop_sys s a) + wsys a m = tot s.
  Proof.
    intros H E. unfold pop_sys. match goal with |- tot (set_nd s a ?v) + _ = _ => assert (X := tot_set s a v H) end.
    unfold phi in X. rewrite E in X. simpl in X. rewrite E in *. simpl in *. lia.
  Qed.
  Lemma tot_pop_usr s a m q : a < N -> usrq (nd s a) = m :: q -> tot (pop_usr s a) + wusr a m = tot s.
  Proof.
    intros H E. unfold pop_usr. match goal with |- tot (set_nd s a ?v) + _ = _ => assert (X := tot_set s a v H) end.
    unfold phi in X. rewrite E in X. simpl in X. rewrite E in *. simpl in *. lia.
  Qed.
  (* a node update that keeps the queues and opens nothing *)
  Lemma tot_set_le s a v : a < N -> sysq v = sysq (nd s a) -> usrq v = usrq (nd s a) -> (opn v = true -> opn (nd s a) = true) ->
    tot (set_nd s a v) <= tot s.
  Proof.
    intros H E1 E2 O. assert (X := tot_set s a v H). unfold phi in X. rewrite E1, E2 in X. destruct (opn v); [rewrite O in X by reflexivity|]; destruct (opn (nd s a)); lia.
  Qed.
  Lemma tot_stop s a : a < N -> opn (nd s a) = true -> (att (nd s a) = true -> par (nd s a) < N) -> tot (stop_node s a) <= tot s.
  Proof.
    intros H O P. unfold stop_node. set (v := nd s a) in *.
    match goal with |- context[set_nd s a ?n] => set (v1 := n) end.
    assert (X := tot_set s a v1 H). unfold phi in X. fold v in X. rewrite O in X. change (opn v1) with false in X. change (sysq v1) with (sysq v) in X. change (usrq v1) with (usrq v) in X.
    set (s1 := set_nd s a v1) in *. set (s2 := if is_guard a then push_usr s1 0 (UTerm a) else s1).
    assert (Y : tot s2 <= tot s1 + u0).
    { unfold s2. destruct (is_guard a); [|lia]. change u0 with (wusr 0 (UTerm a)). apply tot_push_usr. lia. }
    unfold pot in X. destruct (att v); [|lia]. assert (Z := tot_push_sys s2 (par v) (SDetach a) (P eq_refl)). simpl in Z. lia.
  Qed.
  Lemma tot_poison l : forall s k, (forall c, In c l -> c < N /\ N - c <= k) ->
    tot (fold_left (fun s c => push_usr s c UPoison) l s) <= tot s + length l * (f k + 1).
  Proof.
    induction l as [|c l IH]; intros s k H; simpl; [lia|].
    assert (X := IH (push_usr s c UPoison) k (fun d Hd => H d (or_intror Hd))).
    destruct (H c (or_introl eq_refl)) as [H1 H2]. assert (Y := tot_push_usr s c UPoison H1). simpl in Y. unfold W in Y.
    assert (Z := f_mono _ _ H2). lia.
  Qed.

  Lemma handle_sys_tot s a m q : Core s -> size s = N -> opn (nd s a) = true -> sysq (nd s a) = m :: q ->
    tot (handle_sys s a m true) < tot s + wsys a m.
  Proof.
    intros C Sz O Q. assert (Lt := open_in_range s a C O). rewrite Sz in Lt.
    assert (SN : tot (stop_node s a) <= tot s).
    { apply tot_stop; auto. intros H. destruct (c_att s C a H). lia. }
    assert (I : In m (sysq (nd s a))) by (rewrite Q; now left). assert (Pm := wsys_pos a m).
    destruct m as [| | |c|c]; simpl handle_sys.
    - unfold start_node. match goal with |- tot (set_nd s a ?v) < _ => assert (X : tot (set_nd s a v) <= tot s) by (apply tot_set_le; auto) end. lia.
    - destruct (is_nil (kids (nd s a))) eqn:Nk; [lia|].
      assert (X : tot (set_stopping s a true) <= tot s) by (apply tot_set_le; auto).
      assert (LK : length (kids (nd s a)) <= N).
      { rewrite <- (seq_length N 0). apply NoDup_incl_length; [apply C|]. intros c Hc. apply in_seq. apply (c_kids s C) in Hc. lia. }
      assert (Y := tot_poison (kids (nd s a)) (set_stopping s a true) (N - a - 1)).
      assert (Z : tot (fold_left (fun s c => push_usr s c UPoison) (kids (nd s a)) (set_stopping s a true)) <= tot (set_stopping s a true) + length (kids (nd s a)) * (f (N - a - 1) + 1)).
      { apply Y. intros c Hc. apply (c_kids s C) in Hc. lia. }
      simpl wsys. unfold W. replace (N - a) with (S (N - a - 1)) by lia. simpl f. nia.
    - destruct (is_nil (kids (nd s a))) eqn:Nk; [lia|].
      assert (X : tot (set_stopping s a false) <= tot s) by (apply tot_set_le; auto). lia.
    - apply (c_attq s C) in I. destruct (stopping (nd s a)).
      + destruct (att (nd s c)); [lia|]. assert (X : tot (destroy s c) <= tot s) by (apply tot_set_le; auto; [lia|discriminate]). lia.
      + unfold attach. destruct (att (nd s c) || gone (nd s c)); [lia|].
        set (s1 := set_kids s a _). assert (X : tot s1 <= tot s) by (apply tot_set_le; auto).
        match goal with |- tot (push_sys (set_nd s1 c ?v) _ _) < _ => assert (Y : tot (set_nd s1 c v) <= tot s1) by (apply tot_set_le; auto; lia); assert (Z := tot_push_sys (set_nd s1 c v) c SStart) end.
        cbn [wsys] in *. assert (Lc : c < N) by lia. specialize (Z Lc). lia.
    - destruct (_ && _); [lia|].
      match goal with |- tot (set_kids s a ?k) < _ => assert (X : tot (set_kids s a k) <= tot s) by (apply tot_set_le; auto) end. lia.
  Qed.
  Lemma handle_usr_tot s a u q : Core s -> size s = N -> opn (nd s a) = true -> usrq (nd s a) = u :: q ->
    tot (handle_usr s a u) < tot s + wusr a u.
  Proof.
    intros C Sz O Q. assert (Lt := open_in_range s a C O). rewrite Sz in Lt.
    assert (I : In u (usrq (nd s a))) by (rewrite Q; now left). assert (Pm := wusr_pos a u).
    destruct u as [|g c|b|g|]; cbn [handle_usr]; [|destruct (negb (a =? 0)); [lia|]..|lia].
    - assert (X := tot_push_sys s a SStop Lt). simpl in *. lia.
    - apply (c_addq s C) in I. destruct (opn (nd s g)).
      + assert (X := tot_push_sys s g (SAttach c)). simpl in *. lia.
      + destruct (att (nd s c)); [lia|]. assert (X : tot (destroy s c) <= tot s) by (apply tot_set_le; auto; [lia|discriminate]). lia.
    - set (m := if b then SStop else SStopAfter). assert (X := tot_push_sys s 3 m). assert (Y := tot_push_sys (push_sys s 3 m) 4 m).
      assert (wsys 3 m <= W 3 + 1 /\ wsys 4 m <= W 4 + 1) by (destruct b; simpl; lia). simpl. lia.
    - match goal with |- context[State ?x ?y ?z ?t] => set (s1 := State x y z t) end.
      assert (E : tot s1 = tot s) by reflexivity.
      assert (X0 := tot_push_sys s1 0 SStopAfter). assert (X1 := tot_push_sys s1 1 SStop). assert (X2 := tot_push_sys s1 2 SStop).
      assert (X3 := tot_push_sys (push_sys s1 1 SStop) 2 SStop). simpl in *. unfold u0 in *.
      assert (P1 := W_pos 1). assert (P2 := W_pos 2).
      destruct (_ && _); [lia|]. destruct (_ && _); [|lia]. destruct (upd (flag s) g true 1), (upd (flag s) g true 2); lia.
  Qed.
End Measure.

Lemma push_sys_size s a m : size (push_sys s a m) = size s.
Proof. unfold push_sys. destruct (opn (nd s a)); reflexivity. Qed.
Lemma push_usr_size s a m : size (push_usr s a m) = size s.
Proof. unfold push_usr. destruct (opn (nd s a)); reflexivity. Qed.
Lemma stop_node_size s a : size (stop_node s a) = size s.
Proof. unfold stop_node. destruct (att (nd s a)), (is_guard a); rewrite ?push_sys_size, ?push_usr_size; reflexivity. Qed.
Lemma handle_sys_size s a m ok : size (handle_sys s a m ok) = size s.
Proof.
  destruct m; simpl; try reflexivity.
  - destruct (is_nil _); [apply stop_node_size|].
    assert (X : forall l t, size (fold_left (fun s c => push_usr s c UPoison) l t) = size t) by (induction l; intros t; simpl; [reflexivity|rewrite IHl; apply push_usr_size]).
    rewrite X. reflexivity.
  - destruct (is_nil _); [apply stop_node_size|reflexivity].
  - destruct (stopping _); [destruct (att _); reflexivity|]. unfold attach. destruct (_ || _); [reflexivity|]. rewrite push_sys_size. reflexivity.
  - destruct (_ && _); [apply stop_node_size|reflexivity].
Qed.
Lemma handle_usr_size s a u : size (handle_usr s a u) = size s.
Proof.
  destruct u; cbn [handle_usr]; try (destruct (negb _)); rewrite ?push_sys_size; try reflexivity.
  - destruct (opn _); [apply push_sys_size|]. destruct (att _); reflexivity.
  - cbv zeta. destruct (_ && _); [now rewrite push_sys_size|]. destruct (_ && _); [|reflexivity]. destruct (flag _ 1), (flag _ 2); rewrite ?push_sys_size; reflexivity.
Qed.

Lemma handle_decreases s x s' : Inv s -> is_handle x = true -> step s x = Some s' ->
  size s' = size s /\ tot (size s) s' < tot (size s) s.
Proof.
  intros II HX H. destruct x as [a [|]|g|p|a|a k|b]; try discriminate. cbn [step] in H. cbv zeta in H.
  assert (C := proj1 II). assert (N5 := c_size s C).
  destruct (opn (nd s a)) eqn:O; [|discriminate]. assert (Lt := open_in_range s a C O). destruct (sysq (nd s a)) as [|m q] eqn:Q.
  - destruct (started (nd s a)) eqn:Sta; [|discriminate]. destruct (usrq (nd s a)) as [|u q] eqn:U; [discriminate|].
    injection H as <-. destruct (handle_usr_inv s a u q II O Sta U) as (I1 & I2 & I3). split; [apply handle_usr_size|].
    assert (X := handle_usr_tot (size s) N5 s a u q C eq_refl O U). rewrite U in I2.
    assert (Y := tot_pop_usr (size s) N5 (handle_usr s a u) a u q Lt I2). lia.
  - injection H as <-. destruct (handle_sys_inv s a m q II O Q) as (I1 & I2 & I3). split; [apply handle_sys_size|].
    assert (X := handle_sys_tot (size s) N5 s a m q C eq_refl O Q). rewrite Q in I2.
    assert (Y := tot_pop_sys (size s) N5 (handle_sys s a m true) a m q Lt I2). lia.
Qed.
Lemma handle_well_behaved s x : is_handle x = true -> well_behaved s x.
Proof. destruct x as [a [|]|g|p|a|a k|b]; try discriminate. reflexivity. Qed.
Lemma handles_bounded xs : forall s s', Inv s -> forallb is_handle xs = true -> run s xs = Some s' ->
  length xs + tot (size s) s' <= tot (size s) s.
Proof.
  induction xs as [|x xs IH]; intros s s' II F H; simpl in *; [injection H as <-; lia|].
  apply andb_true_iff in F. destruct F as [Fx F]. destruct (step s x) as [s1|] eqn:E; [|discriminate].
  destruct (handle_decreases s x s1 II Fx E) as [Sz D].
  assert (I1 : Inv s1) by (eapply step_inv; [exact II|apply handle_well_behaved, Fx|exact E]).
  assert (X := IH s1 s' I1 F H). rewrite Sz in X. lia.
Qed.

Lemma run_app s xs ys s1 : run s xs = Some s1 -> run s (xs ++ ys) = run s1 ys.
Proof.
  revert s. induction xs as [|x xs IH]; intros s H; simpl in *; [injection H as <-; reflexivity|].
  destruct (step s x); [auto|discriminate].
Qed.
Lemma handles_well_behaved xs : forall s, forallb is_handle xs = true -> well_behaved_run s xs.
Proof.
  induction xs as [|x xs IH]; intros s F; simpl in *; [exact I|]. apply andb_true_iff in F. destruct F as [F1 F2].
  split; [now apply handle_well_behaved|]. destruct (step s x); auto.
Qed.
Lemma well_behaved_app xs : forall s ys s1, well_behaved_run s xs -> run s xs = Some s1 -> well_behaved_run s1 ys -> well_behaved_run s (xs ++ ys).
Proof.
  induction xs as [|x xs IH]; intros s ys s1 W1 H W2; simpl in *; [injection H as <-; exact W2|]. destruct W1 as [A B]. split; [exact A|].
  destruct (step s x) as [s2|]; [|exact I]. eapply IH; eauto.
Qed.
Lemma well_reachable_step s xs s' : well_reachable s -> forallb is_handle xs = true -> run s xs = Some s' -> well_reachable s'.
Proof.
  intros [ys [W R]] F H. exists (ys ++ xs). split.
  - eapply well_behaved_app; [exact W|exact R|]. now apply handles_well_behaved.
  - erewrite run_app by exact R. exact H.
Qed.
Lemma requested_kept xs : forall s s', forallb is_handle xs = true -> run s xs = Some s' -> requested s' = requested s.
Proof.
  assert (PS : forall s a m, requested (push_sys s a m) = requested s) by (intros; unfold push_sys; destruct (opn _); reflexivity).
  assert (PU : forall s a m, requested (push_usr s a m) = requested s) by (intros; unfold push_usr; destruct (opn _); reflexivity).
  assert (SN : forall s a, requested (stop_node s a) = requested s) by (intros; unfold stop_node; destruct (att (nd s a)), (is_guard a); rewrite ?PS, ?PU; reflexivity).
  induction xs as [|x xs IH]; intros s s' F H; cbn [run forallb] in *; [injection H as <-; reflexivity|].
  apply andb_true_iff in F. destruct F as [F1 F2]. destruct (step s x) as [s1|] eqn:E; [|discriminate].
  rewrite (IH s1 s' F2 H). destruct x as [a [|]|g|p|a|a k|b]; try discriminate. cbn [step] in E. cbv zeta in E.
  destruct (opn (nd s a)); [|discriminate]. destruct (sysq (nd s a)) as [|m q].
  - destruct (started (nd s a)); [|discriminate]. destruct (usrq (nd s a)) as [|u q]; [discriminate|]. injection E as <-.
    change (requested (handle_usr s a u) = requested s).
    destruct u; cbn [handle_usr]; try (destruct (negb _)); rewrite ?PS; try reflexivity.
    + destruct (opn _); [apply PS|]. destruct (att _); reflexivity.
    + cbv zeta. destruct (_ && _); [now rewrite PS|]. destruct (_ && _); [|reflexivity]. destruct (flag _ 1), (flag _ 2); rewrite ?PS; reflexivity.
  - injection E as <-. change (requested (handle_sys s a m true) = requested s).
    destruct m; simpl; try reflexivity.
    + destruct (is_nil _); [apply SN|].
      assert (X : forall l t, requested (fold_left (fun s c => push_usr s c UPoison) l t) = requested t) by (induction l; intros t; simpl; [reflexivity|rewrite IHl; apply PU]).
      rewrite X. reflexivity.
    + destruct (is_nil _); [apply SN|reflexivity].
    + destruct (stopping _); [destruct (att _); reflexivity|]. unfold attach. destruct (_ || _); [reflexivity|]. rewrite PS. reflexivity.
    + destruct (_ && _); [apply SN|reflexivity].
Qed.

(* some actor can act, or none: decidable, since only actors below size can *)
Lemma quiescent_dec s : Core s -> quiescent s \/ exists a s', step s (Handle a true) = Some s'.
Proof.
  intros C.
  assert (X : forall k, (forall a, a < k -> step s (Handle a true) = None) \/ exists a s', step s (Handle a true) = Some s').
  { induction k as [|k [IH|IH]]; [left; lia| |auto]. destruct (step s (Handle k true)) as [s'|] eqn:E; [right; eauto|].
    left. intros a Ha. destruct (Nat.eq_dec a k) as [->|]; [exact E|apply IH; lia]. }
  destruct (X (size s)) as [H|H]; [|auto]. left. intros a. destruct (Nat.lt_ge_cases a (size s)) as [L|L]; [auto|].
  simpl. rewrite (c_abs s C a L). reflexivity.
Qed.
Lemma comes_to_rest s : Inv s -> exists xs s', forallb is_handle xs = true /\ run s xs = Some s' /\ quiescent s'.
Proof.
  intros II. remember (tot (size s) s) as n eqn:E. revert s II E. induction n as [n IH] using lt_wf_ind. intros s II ->.
  destruct (quiescent_dec s (proj1 II)) as [Q|(a & s1 & H)]; [exists [], s; auto|].
  destruct (handle_decreases s (Handle a true) s1 II eq_refl H) as [Sz D].
  assert (I1 : Inv s1) by (eapply step_inv; [exact II| |exact H]; exact eq_refl).
  destruct (IH (tot (size s1) s1)) with (s := s1) as (xs & s' & F & R & Q); [rewrite Sz; exact D|exact I1|reflexivity|].
  exists (Handle a true :: xs), s'. split; [exact F|]. split; [|exact Q]. cbn [run]. rewrite H. exact R.
Qed.

(* ---- in the regime, closed means stopped ---- *)
Definition shut (a : nat) (v : node) : Prop := (opn v = false -> stopped v = true \/ gone v = true) /\ (a = 0 \/ att v = true -> gone v = false).
Definition Shut (s : state) : Prop := forall a, shut a (nd s a).
Lemma shut_set s a v : Shut s -> shut a v -> Shut (set_nd s a v).
Proof. intros H V b. unfold set_nd, upd; simpl. destruct (Nat.eqb_spec b a); subst; auto. Qed.
Lemma shut_push_sys s a m : Shut s -> Shut (push_sys s a m).
Proof. intros H. unfold push_sys. destruct (opn (nd s a)) eqn:O; [|exact H]. apply shut_set; [exact H|]. destruct (H a) as [H1 H2]. split; simpl; [discriminate|exact H2]. Qed.
Lemma shut_push_usr s a m : Shut s -> Shut (push_usr s a m).
Proof. intros H. unfold push_usr. destruct (opn (nd s a)) eqn:O; [|exact H]. apply shut_set; [exact H|]. destruct (H a) as [H1 H2]. split; simpl; [discriminate|exact H2]. Qed.
Lemma shut_stop s a : Shut s -> Shut (stop_node s a).
Proof.
  intros H. unfold stop_node. match goal with |- context[set_nd s a ?n] => set (v1 := n) end.
  assert (X : Shut (set_nd s a v1)) by (apply shut_set; [exact H|]; destruct (H a) as [H1 H2]; split; simpl; auto).
  destruct (att (nd s a)), (is_guard a); auto using shut_push_sys, shut_push_usr.
Qed.
Lemma shut_destroy s c : Shut s -> att (nd s c) = false -> c <> 0 -> Shut (destroy s c).
Proof. intros H A N. apply shut_set; [exact H|]. split; simpl; [auto|intros [?|?]; congruence]. Qed.
Lemma shut_same s a v : Shut s -> opn v = opn (nd s a) -> stopped v = stopped (nd s a) -> gone v = gone (nd s a) -> att v = att (nd s a) -> Shut (set_nd s a v).
Proof. intros H E1 E2 E3 E4. apply shut_set; [exact H|]. unfold shut. rewrite E1, E2, E3, E4. apply H. Qed.
Lemma shut_handle_sys s a m q : Core s -> sysq (nd s a) = m :: q -> Shut s -> Shut (handle_sys s a m true).
Proof.
  intros C Q H. assert (HI : In m (sysq (nd s a))) by (rewrite Q; now left).
  destruct m as [| | |c|c]; simpl.
  - apply shut_same; auto.
  - destruct (is_nil _); [now apply shut_stop|].
    assert (X : forall l t, Shut t -> Shut (fold_left (fun s c => push_usr s c UPoison) l t)) by (induction l; intros t Ht; simpl; auto using shut_push_usr).
    apply X. apply shut_same; auto.
  - destruct (is_nil _); [now apply shut_stop|apply shut_same; auto].
  - apply (c_attq s C) in HI. destruct (stopping _); [destruct (att (nd s c)) eqn:A; [exact H|apply shut_destroy; auto; lia]|]. unfold attach. destruct (att (nd s c) || gone (nd s c)) eqn:E; [exact H|].
    apply orb_false_iff in E. destruct E as [E1 E2].
    apply shut_push_sys. set (s1 := set_kids s a _). assert (X : Shut s1) by (apply shut_same; auto). apply shut_set; [exact X|]. destruct (X c) as [X1 X2]. split; simpl; [exact X1|intros _].
    unfold s1, set_kids, set_nd, upd; simpl. destruct (Nat.eqb_spec c a); subst; auto.
  - destruct (_ && _); [now apply shut_stop|apply shut_same; auto].
Qed.
Lemma shut_handle_usr s a u q : Core s -> usrq (nd s a) = u :: q -> Shut s -> Shut (handle_usr s a u).
Proof.
  intros C Q H. assert (HI : In u (usrq (nd s a))) by (rewrite Q; now left).
  destruct u as [|g c|b|g|]; cbn [handle_usr]; try (destruct (negb _)); auto using shut_push_sys.
  - apply (c_addq s C) in HI. destruct (opn _); auto using shut_push_sys. destruct (att (nd s c)) eqn:A; auto. apply shut_destroy; auto. lia.
  - cbv zeta. set (s1 := State _ _ _ _). assert (X : Shut s1) by exact H.
    destruct (_ && _); auto using shut_push_sys. destruct (_ && _); auto. destruct (flag s1 1), (flag s1 2); auto using shut_push_sys.
Qed.
Lemma shut_step s x s' : Core s -> Shut s -> well_behaved s x -> step s x = Some s' -> Shut s'.
Proof.
  intros C H W E. assert (N5 := c_size s C). destruct x as [a ok|g|p|a|a k|b]; cbn [step] in E; cbv zeta in E; simpl in W.
  - subst ok. destruct (opn (nd s a)); [|discriminate]. destruct (sysq (nd s a)) as [|m q] eqn:Q.
    + destruct (started (nd s a)); [|discriminate]. destruct (usrq (nd s a)) as [|u q] eqn:U; [discriminate|]. injection E as <-.
      assert (X := shut_handle_usr s a u q C U H). apply shut_same; auto.
    + injection E as <-. assert (X := shut_handle_sys s a m q C Q H). apply shut_same; auto.
  - destruct (is_guard g); [|discriminate].
    assert (X : Shut (new_actor s)) by (intros b; unfold new_actor, upd; simpl; destruct (b =? size s); [split; simpl; [discriminate|auto]|apply H]).
    destruct (opn _); injection E as <-; auto using shut_push_usr. apply shut_destroy; [exact X| |lia]. simpl. now rewrite upd_eq.
  - destruct (_ && _); [|discriminate]. injection E as <-. apply shut_push_sys. intros b; unfold new_actor, upd; simpl; destruct (b =? size s); [split; simpl; [discriminate|auto]|apply H].
  - injection E as <-. now apply shut_push_sys.
  - injection E as <-. now apply shut_push_usr.
  - injection E as <-. apply (shut_push_usr s 0 (URootTerm b)) in H. exact H.
Qed.
Lemma well_reachable_shut s : well_reachable s -> Shut s.
Proof.
  assert (X : forall xs s s', Core s -> Shut s -> well_behaved_run s xs -> run s xs = Some s' -> Shut s').
  { induction xs as [|x xs IH]; intros t t' C H W E; simpl in *; [injection E as <-; exact H|]. destruct W as [W1 W2].
    destruct (step t x) as [t1|] eqn:Et; [|discriminate]. eapply IH; [| |exact W2|exact E]; [eapply step_core; eassumption|eapply shut_step; eassumption]. }
  intros [xs [W E]]. eapply X; [apply init_core| |exact W|exact E]. intros a. destruct a as [|[|[|[|[|a]]]]]; split; simpl; auto; try discriminate; intros [?|?]; discriminate.
Qed.
Lemma attached_closed_stopped s c : well_reachable s -> c = 0 \/ att (nd s c) = true -> opn (nd s c) = false -> stopped (nd s c) = true.
Proof.
  intros W A O. assert (S := well_reachable_shut s W c). destruct S as [S1 S2]. destruct (S1 O) as [H|H]; [exact H|].
  apply S2 in A. congruence.
Qed.
