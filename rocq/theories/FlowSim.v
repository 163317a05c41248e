(* FlowModel: every step is matched by a step of TreeModel, or by none. *)
From Coq Require Import List Bool Arith Lia Permutation.
From Verif Require Import TreeModel TreeProofs TreeRegime TreeTerm FlowModel FlowProofs.
Import ListNotations.

Ltac skels := intros ? ? H; unfold skel in *; simpl in *; injection H; intros; congruence.

Lemma rep_idle r t s a : rep r t s -> t a = [] -> rep r (upd t a []) s.
Proof.
  intros R E. eapply rep_perm; [exact R|]. intros b. unfold upd. destruct (Nat.eqb_spec b a) as [->|]; [rewrite E|]; apply Permutation_refl.
Qed.
Lemma rep_notify_end r t s a l : rep r (upd t a l) s -> a < size r -> rep r (upd t a (l ++ [ENotify])) s.
Proof.
  intros R L. assert (X := rep_to_notify r _ s a R L). rewrite upd_eq in X. eapply rep_perm; [exact X|]. intros b. unfold upd.
  destruct (b =? a); apply Permutation_refl.
Qed.
Lemma rep_stop r t s a : rep r t s -> a < size r -> t a = [] ->
  rep (post_stop r a) (upd t a (farewell r a)) (stop_node s a).
Proof.
  intros R L E.
  assert (R1 : rep (post_stop r a) t (post_stop s a)).
  { apply (rep_local r t s a (fun v => Node (par v) (att v) (gone v) [] (stopping v) (killing v) false (opn v) true (sysq v) (usrq v)) R); try reflexivity. skels. }
  assert (Lr : a < size (post_stop r a)) by exact L.
  assert (R2 := rep_to_close _ _ _ _ R1 Lr). rewrite E in R2. simpl in R2.
  unfold stop_node. set (v := nd s a).
  set (s1 := set_nd s a (Node (par v) (att v) (gone v) [] (stopping v) (killing v) false false true (sysq v) (usrq v))).
  assert (R3 : rep (post_stop r a) (upd t a [EClose]) s1).
  { eapply rep_ext; [exact R2|reflexivity..|]. intros b. unfold s1, close, post_stop, set_nd; simpl. unfold upd. destruct (Nat.eqb_spec b a) as [->|]; [|reflexivity].
    rewrite Nat.eqb_refl. reflexivity. }
  assert (Ea : att (nd r a) = att v) by (symmetry; apply skel_att, R).
  assert (Ep : par (nd r a) = par v) by (symmetry; apply skel_par, R).
  unfold farewell. rewrite Ea, Ep.
  set (s2 := if is_guard a then push_usr s1 0 (UTerm a) else s1).
  assert (R4 : rep (post_stop r a) (upd t a ([EClose] ++ (if is_guard a then [EUsr 0 (UTerm a)] else []))) s2).
  { unfold s2. destruct (is_guard a); [|exact R3]. assert (X := rep_push_usr _ _ _ a 0 (UTerm a) R3 Lr). rewrite upd_eq in X.
    eapply rep_perm; [exact X|]. intros b. unfold upd. destruct (b =? a); apply Permutation_refl. }
  assert (R5 : rep (post_stop r a) (upd t a ([EClose] ++ (if is_guard a then [EUsr 0 (UTerm a)] else []) ++ (if att v then [ESys (par v) (SDetach a)] else []))) (if att v then push_sys s2 (par v) (SDetach a) else s2)).
  { destruct (att v); [|rewrite app_nil_r; exact R4]. assert (X := rep_push_sys _ _ _ a (par v) (SDetach a) R4 Lr). rewrite upd_eq in X.
    eapply rep_perm; [exact X|]. intros b. unfold upd. destruct (b =? a); [|apply Permutation_refl]. rewrite app_assoc. apply Permutation_refl. }
  apply rep_notify_end in R5; [|exact Lr]. eapply rep_perm; [exact R5|]. intros b. unfold upd. destruct (b =? a); [|apply Permutation_refl].
  rewrite !app_assoc. set (l1 := _ ++ (if att v then _ else _)). 
  change ([EClose; ENotify]) with ([EClose] ++ [ENotify]). rewrite app_assoc. apply Permutation_app_tail.
  set (x := if is_guard a then [EUsr 0 (UTerm a)] else []) in *. set (y := if att v then _ else _) in *.
  change l1 with (([EClose] ++ x) ++ y). rewrite <- app_assoc. apply Permutation_app_comm.
Qed.

Lemma rep_handle_sys r t s a m ok : rep r t s -> a < size r -> t a = [] -> a <> match m with SAttach c => c | _ => S a end ->
  rep (fst (fhandle_sys r a m ok)) (upd t a (snd (fhandle_sys r a m ok))) (handle_sys s a m ok).
Proof.
  intros R L E Ne.
  assert (K : forall b, kids (nd r b) = kids (nd s b)) by (intros; symmetry; apply skel_kids, R).
  assert (ST : forall b, stopping (nd r b) = stopping (nd s b)) by (intros; symmetry; apply skel_stopping, R).
  assert (AT : forall b, att (nd r b) = att (nd s b)) by (intros; symmetry; apply skel_att, R).
  assert (GO : forall b, gone (nd r b) = gone (nd s b)) by (intros; symmetry; apply skel_gone, R).
  assert (Stp : forall k, rep (set_stopping r a k) t (set_stopping s a k)).
  { intros k. apply (rep_local r t s a (fun v => Node (par v) (att v) (gone v) (kids v) true (killing v || k) (started v) (opn v) (stopped v) (sysq v) (usrq v)) R); try reflexivity. skels. }
  assert (SK : forall ks, rep (set_kids r a ks) t (set_kids s a ks)).
  { intros ks. apply (rep_local r t s a (fun v => Node (par v) (att v) (gone v) ks (stopping v) (killing v) (started v) (opn v) (stopped v) (sysq v) (usrq v)) R); try reflexivity. skels. }
  destruct m as [| | |c|c]; unfold fhandle_sys, handle_sys; cbv zeta.
  - assert (R1 : rep (pre_start r a ok) t (pre_start s a ok)).
    { apply (rep_local r t s a (fun v => Node (par v) (att v) (gone v) (kids v) (stopping v) (killing v) ok (opn v) (stopped v) (sysq v) (usrq v)) R); try reflexivity. skels. }
    simpl fst. simpl snd. destruct ok; [apply rep_idle; [exact R1|exact E]|].
    assert (R2 := rep_to_close _ _ _ _ R1 (L : a < size (pre_start r a false))). rewrite E in R2. simpl in R2.
    apply (rep_notify_end _ _ _ _ [EClose]); [|exact L]. eapply rep_ext; [exact R2|reflexivity..|]. intros b. unfold start_node, close, pre_start, set_nd; simpl. unfold upd.
    destruct (Nat.eqb_spec b a) as [->|]; [|reflexivity]. rewrite Nat.eqb_refl. reflexivity.
  - rewrite K. destruct (is_nil (kids (nd s a))); [now apply rep_stop|]. simpl fst. simpl snd.
    assert (X := rep_poison _ a (kids (nd s a)) t _ (Stp true) L). rewrite E in X. exact X.
  - rewrite K. destruct (is_nil (kids (nd s a))); [now apply rep_stop|]. simpl fst. simpl snd. apply rep_idle; auto.
  - rewrite ST, AT, GO. destruct (stopping (nd s a)).
    + simpl fst. simpl snd. apply rep_idle; [|exact E]. destruct (att (nd s c)); [exact R|now apply rep_destroy].
    + unfold attach. destruct (att (nd s c) || gone (nd s c)); [simpl; now apply rep_idle|]. simpl fst. simpl snd.
      assert (R1 : rep (link r a c) t (link s a c)).
      { unfold link. rewrite K. set (ks := kids (nd s a) ++ [c]).
        apply (rep_local _ t _ c (fun v => Node a true (gone v) (kids v) (stopping v) (killing v) (started v) (opn v) (stopped v) (sysq v) (usrq v)) (SK ks)); try reflexivity. skels. }
      assert (X := rep_push_sys _ _ _ a c SStart R1 L). rewrite E in X. exact X.
  - rewrite K, ST. destruct (stopping (nd s a) && is_nil (remove_first c (kids (nd s a)))); [now apply rep_stop|]. simpl fst. simpl snd. apply rep_idle; auto.
Qed.

Lemma rep_flag r t s g : rep r t s -> rep (State (size r) (nd r) (upd (flag r) g true) (requested r)) t (State (size s) (nd s) (upd (flag s) g true) (requested s)).
Proof. intros [A1 A2 A3 A4 A5 A6 A7 A8]. constructor; auto. simpl. now rewrite A2. Qed.
Lemma rep_one_sys r t s a b m : rep r t s -> a < size r -> t a = [] -> rep r (upd t a [ESys b m]) (push_sys s b m).
Proof. intros R L E. assert (X := rep_push_sys r t s a b m R L). now rewrite E in X. Qed.
Lemma rep_two_sys r t s a b m b' m' : rep r t s -> a < size r -> t a = [] -> rep r (upd t a [ESys b m; ESys b' m']) (push_sys (push_sys s b m) b' m').
Proof.
  intros R L E. assert (X := rep_push_sys r t s a b m R L). rewrite E in X. assert (Y := rep_push_sys _ _ _ a b' m' X L). rewrite upd_eq in Y.
  eapply rep_perm; [exact Y|]. intros d. unfold upd. destruct (d =? a); apply Permutation_refl.
Qed.
(* the root does not look whether the guardian is open, so an addition to a
   closed one is lost later than in TreeModel *)
Definition lost (s : state) (a : nat) (u : umsg) : Prop := match u with UAdd g c => a = 0 /\ opn (nd s g) = false | _ => False end.
Lemma rep_handle_usr r t s a u : rep r t s -> a < size r -> t a = [] -> 
  (rep (fst (fhandle_usr r a u)) (upd t a (snd (fhandle_usr r a u))) (handle_usr s a u)) \/
  (lost s a u /\ rep (fst (fhandle_usr r a u)) (upd t a (snd (fhandle_usr r a u))) s).
Proof.
  intros R L E. destruct u as [|g c|b|g|]; unfold fhandle_usr, handle_usr; cbv zeta.
  - left. now apply rep_one_sys.
  - destruct (Nat.eqb_spec a 0) as [->|N]; simpl negb; cbv iota; [|left; now apply rep_idle].
    simpl fst. simpl snd. assert (X := rep_one_sys r t s 0 g (SAttach c) R L E). destruct (opn (nd s g)) eqn:O; [now left|]. right. split; [split; auto|].
    unfold push_sys in X. rewrite O in X. exact X.
  - left. destruct (negb (a =? 0)); [now apply rep_idle|]. simpl fst. simpl snd. now apply rep_two_sys.
  - left. destruct (negb (a =? 0)); [now apply rep_idle|]. assert (R1 := rep_flag r t s g R). set (r1 := State (size r) _ _ _) in *. set (s1 := State (size s) _ _ _) in *.
    assert (F : flag r1 = flag s1) by (symmetry; apply R1). rewrite F. cbn [fst snd]. assert (L1 : a < size r1) by exact L.
    destruct (flag s1 1 && flag s1 2); [now apply rep_one_sys|]. destruct (flag s1 3 && flag s1 4); [|now apply rep_idle].
    destruct (flag s1 1), (flag s1 2); cbn [app]; [now apply rep_idle|now apply rep_one_sys|now apply rep_one_sys|now apply rep_two_sys].
  - left. now apply rep_idle.
Qed.

(* handlers do not touch the queue the message is taken from *)
Lemma push_sys_other s a m b : b <> a -> sysq (nd (push_sys s a m) b) = sysq (nd s b).
Proof. intros N. unfold push_sys. destruct (opn (nd s a)); [|reflexivity]. simpl. rewrite upd_neq by exact N. reflexivity. Qed.
Lemma stop_node_sysq s a : (att (nd s a) = true -> par (nd s a) <> a) -> sysq (nd (stop_node s a) a) = sysq (nd s a).
Proof.
  intros P. unfold stop_node. set (v := nd s a) in *. set (s1 := set_nd s a _).
  assert (E1 : sysq (nd s1 a) = sysq v) by (unfold s1; simpl; rewrite upd_eq; reflexivity).
  set (s2 := if is_guard a then _ else _). assert (E2 : sysq (nd s2 a) = sysq v) by (unfold s2; destruct (is_guard a); [rewrite push_usr_sysq|]; exact E1).
  destruct (att v); [|exact E2]. rewrite push_sys_other; [exact E2|]. intros H. now apply P.
Qed.
Lemma handle_sys_sysq s a m ok : Core s -> In m (sysq (nd s a)) -> sysq (nd (handle_sys s a m ok) a) = sysq (nd s a).
Proof.
  intros C I.
  assert (SN : sysq (nd (stop_node s a) a) = sysq (nd s a)).
  { apply stop_node_sysq. intros H. destruct (c_att s C a H). lia. }
  destruct m as [| | |c|c]; simpl.
  - now rewrite upd_eq.
  - destruct (is_nil _); [exact SN|].
    assert (X : forall l t, sysq (nd (fold_left (fun s c => push_usr s c UPoison) l t) a) = sysq (nd t a)).
    { induction l as [|c l IH]; intros t; simpl; [reflexivity|]. rewrite IH. apply push_usr_sysq. }
    rewrite X. simpl. now rewrite upd_eq.
  - destruct (is_nil _); [exact SN|]. simpl. now rewrite upd_eq.
  - apply (c_attq s C) in I. destruct (stopping _).
    + destruct (att _); [reflexivity|]. simpl. rewrite upd_neq by lia. reflexivity.
    + unfold attach. destruct (_ || _); [reflexivity|]. rewrite push_sys_other by lia. simpl. rewrite upd_neq by lia. now rewrite upd_eq.
  - destruct (_ && _); [exact SN|]. simpl. now rewrite upd_eq.
Qed.
Lemma handle_usr_usrq s a u : Core s -> In u (usrq (nd s a)) -> usrq (nd (handle_usr s a u) a) = usrq (nd s a).
Proof.
  intros C I. destruct u as [|g c|b|g|]; unfold handle_usr; [|destruct (Nat.eqb_spec a 0) as [->|]; simpl negb; cbv iota; [|reflexivity]..|reflexivity]; rewrite ?push_sys_usrq; try reflexivity.
  - apply (c_addq s C) in I. destruct (opn _); [now rewrite push_sys_usrq|]. destruct (att _); [reflexivity|]. simpl. rewrite upd_neq by lia. reflexivity.
  - cbv zeta. set (s1 := State _ _ _ _). destruct (_ && _); [now rewrite push_sys_usrq|]. destruct (_ && _); [|reflexivity].
    destruct (flag s1 1), (flag s1 2); rewrite ?push_sys_usrq; reflexivity.
Qed.
Lemma fhandle_sys_sysq s a m ok : a <> match m with SAttach c => c | _ => S a end -> sysq (nd (fst (fhandle_sys s a m ok)) a) = sysq (nd s a).
Proof.
  intros Ne. destruct m as [| | |c|c]; simpl; repeat match goal with |- context[if ?b then _ else _] => destruct b end; simpl; rewrite ?upd_eq; try reflexivity.
  - rewrite upd_neq by exact Ne. reflexivity.
  - rewrite upd_neq by exact Ne. now rewrite upd_eq.
Qed.
Lemma fhandle_usr_usrq s a u : usrq (nd (fst (fhandle_usr s a u)) a) = usrq (nd s a).
Proof. destruct u; simpl; try (destruct (negb _)); reflexivity. Qed.

(* ---- the matching step ---- *)
Inductive match_step (x : faction) (s0 s' : state) : Prop :=
| m_sys a ok m q : x = FHandle a ok -> opn (nd s0 a) = true -> sysq (nd s0 a) = m :: q -> s' = pop_sys (handle_sys s0 a m ok) a -> match_step x s0 s'
| m_usr a ok u q : x = FHandle a ok -> opn (nd s0 a) = true -> started (nd s0 a) = true -> usrq (nd s0 a) = u :: q ->
    s' = pop_usr (handle_usr s0 a u) a -> match_step x s0 s'
| m_lost a ok u q : x = FHandle a ok -> opn (nd s0 a) = true -> lost s0 a u -> usrq (nd s0 a) = u :: q -> s' = pop_usr s0 a -> match_step x s0 s'
| m_env y : x = FEnv y -> step s0 y = Some s' -> (forall a ok, y <> Handle a ok) -> match_step x s0 s'
| m_new g : x = FEnv (CreateTop g) -> s' = new_actor s0 -> match_step x s0 s'
| m_destroy a c : x = FEmit a -> 1 <= c < size s0 -> att (nd s0 c) = false -> s' = destroy s0 c -> match_step x s0 s'
| m_same a : x = FEmit a -> s' = s0 -> match_step x s0 s'.

(* every attach_child is about a younger actor that exists *)
Definition sane_sys (n b : nat) (m : smsg) : Prop := match m with SAttach c => 1 <= b /\ b < c < n | _ => True end.
Definition sane_usr (n : nat) (u : umsg) : Prop := match u with UAdd g c => 1 <= g <= 4 /\ 5 <= c < n | _ => True end.
Definition target (e : effect) : nat := match e with ESys b _ | EUsr b _ => b | _ => 0 end.
Record Sane (f : fstate) : Prop := {
  n_five : 5 <= size (base f);
  n_sys : forall b m, In m (sysq (nd (base f) b)) -> sane_sys (size (base f)) b m;
  n_usr : forall b u, In u (usrq (nd (base f) b)) -> sane_usr (size (base f)) u;
  n_todo : forall a b m, In (ESys b m) (todo f a) -> sane_sys (size (base f)) b m;
  n_todou : forall a b u, In (EUsr b u) (todo f a) -> sane_usr (size (base f)) u;
  n_tgt : forall a e, In e (todo f a) -> target e < size (base f);
  n_gone : forall b, size (base f) <= b -> nd (base f) b = absent;
  n_leave : forall a, In EClose (todo f a) -> started (nd (base f) a) = false
}.

Lemma fhandle_sys_frame r a m ok : a < size r -> sane_sys (size r) a m ->
  let r' := fst (fhandle_sys r a m ok) in
  size r' = size r /\ (forall b, sysq (nd r' b) = sysq (nd r b)) /\ (forall b, usrq (nd r' b) = usrq (nd r b)) /\
  (forall b, size r <= b -> nd r' b = nd r b) /\ (forall b, b <> a -> started (nd r' b) = started (nd r b)) /\
  (In EClose (snd (fhandle_sys r a m ok)) -> started (nd r' a) = false).
Proof.
  intros L Sn. destruct m as [| | |c|c]; simpl in Sn; simpl; repeat match goal with |- context[if ?b then _ else _] => destruct b end; simpl;
    (split; [reflexivity|]); (split; [intros b|split; [intros b|split; [intros b Hb|split; [intros b Hb|intros Hc]]]]); unfold upd;
    repeat match goal with |- context[?x =? ?y] => destruct (Nat.eqb_spec x y); subst; simpl end; auto; try lia; try tauto;
    try (exfalso; repeat (destruct Hc as [Hc|Hc]; try discriminate Hc); tauto).
  apply in_map_iff in Hc. destruct Hc as (? & Hc & _). discriminate.
Qed.
Lemma fhandle_usr_frame r a u :
  let r' := fst (fhandle_usr r a u) in
  size r' = size r /\ nd r' = nd r /\ ~ In EClose (snd (fhandle_usr r a u)).
Proof.
  destruct u; simpl; repeat match goal with |- context[if ?b then _ else _] => destruct b end; simpl; repeat split; auto; intuition discriminate.
Qed.
Lemma fhandle_sys_sane r a m ok b : a < size r ->
  (forall m', In (ESys b m') (snd (fhandle_sys r a m ok)) -> sane_sys (size r) b m') /\
  (forall u, In (EUsr b u) (snd (fhandle_sys r a m ok)) -> sane_usr (size r) u).
Proof.
  intros L.
  assert (F : (forall m', In (ESys b m') (farewell r a) -> sane_sys (size r) b m') /\ (forall u, In (EUsr b u) (farewell r a) -> sane_usr (size r) u)).
  { unfold farewell. destruct (is_guard a), (att (nd r a)); simpl; split; intros x H;
      repeat (destruct H as [H|H]; try discriminate H; try (injection H as _ <-; exact I)); contradiction. }
  assert (P : forall l, (forall m', In (ESys b m') (map (fun c => EUsr c UPoison) l) -> sane_sys (size r) b m') /\ (forall u, In (EUsr b u) (map (fun c => EUsr c UPoison) l) -> sane_usr (size r) u)).
  { intros l. split; intros x H; apply in_map_iff in H; destruct H as (? & H & _); [discriminate|]. injection H as _ <-. exact I. }
  destruct m as [| | |c|c]; unfold fhandle_sys; cbv zeta; repeat match goal with |- context[if ?b then _ else _] => destruct b end; cbn [snd]; auto;
    simpl; split; intros x H; repeat (destruct H as [H|H]; try discriminate H; try (injection H as _ <-; exact I)); contradiction.
Qed.
Lemma fhandle_usr_sane r a u b : 5 <= size r -> sane_usr (size r) u ->
  (forall m', In (ESys b m') (snd (fhandle_usr r a u)) -> sane_sys (size r) b m') /\
  (forall u', In (EUsr b u') (snd (fhandle_usr r a u)) -> sane_usr (size r) u').
Proof.
  intros L Sn. destruct u; simpl in Sn; simpl; repeat match goal with |- context[if ?b then _ else _] => destruct b end; simpl;
    split; intros x H; repeat (destruct H as [H|H]; try discriminate H; try (injection H as <- <-; simpl; first [exact I|lia])); try contradiction.
Qed.
Lemma fhandle_sys_tgt r a m ok e : 5 <= size r -> a < size r -> sane_sys (size r) a m -> (att (nd r a) = true -> par (nd r a) < size r) ->
  (forall c, In c (kids (nd r a)) -> c < size r) -> In e (snd (fhandle_sys r a m ok)) -> target e < size r.
Proof.
  intros L5 L Sn P K. assert (F : forall e, In e (farewell r a) -> target e < size r).
  { intros x H. unfold farewell in H. destruct (is_guard a), (att (nd r a)); simpl in H; repeat (destruct H as [H|H]; [subst; simpl; auto; lia|]); contradiction. }
  destruct m as [| | |c|c]; simpl in Sn; unfold fhandle_sys; cbv zeta; repeat match goal with |- context[if ?b then _ else _] => destruct b end; cbn [snd]; intros H; auto;
    try (apply in_map_iff in H; destruct H as (? & <- & H); simpl; auto);
    simpl in H; repeat (destruct H as [H|H]; [subst; simpl; auto; lia|]); contradiction.
Qed.
Lemma fhandle_usr_tgt r a u e : 5 <= size r -> a < size r -> sane_usr (size r) u -> In e (snd (fhandle_usr r a u)) -> target e < size r.
Proof.
  intros L5 L Sn. destruct u; simpl in Sn; unfold fhandle_usr; cbv zeta; repeat match goal with |- context[if ?b then _ else _] => destruct b end; cbn [snd app]; intros H;
    simpl in H; repeat (destruct H as [H|H]; [subst; simpl; auto; lia|]); contradiction.
Qed.
Lemma push_sys_in_inv s a m b x : In x (sysq (nd (push_sys s a m) b)) -> In x (sysq (nd s b)) \/ (b = a /\ x = m).
Proof.
  unfold push_sys. destruct (opn (nd s a)); [|auto]. simpl. unfold upd. destruct (Nat.eqb_spec b a) as [->|]; [|auto]. simpl.
  intros H. apply in_app_or in H. destruct H as [H|[H|[]]]; auto.
Qed.
Lemma push_usr_in_inv s a m b x : In x (usrq (nd (push_usr s a m) b)) -> In x (usrq (nd s b)) \/ (b = a /\ x = m).
Proof.
  unfold push_usr. destruct (opn (nd s a)); [|auto]. simpl. unfold upd. destruct (Nat.eqb_spec b a) as [->|]; [|auto]. simpl.
  intros H. apply in_app_or in H. destruct H as [H|[H|[]]]; auto.
Qed.
Lemma push_sys_absent s a m b : nd s b = absent -> nd (push_sys s a m) b = absent.
Proof. intros H. unfold push_sys. destruct (opn (nd s a)) eqn:O; [|exact H]. simpl. unfold upd. destruct (Nat.eqb_spec b a) as [->|]; [rewrite H in O; discriminate|exact H]. Qed.
Lemma push_usr_absent s a m b : nd s b = absent -> nd (push_usr s a m) b = absent.
Proof. intros H. unfold push_usr. destruct (opn (nd s a)) eqn:O; [|exact H]. simpl. unfold upd. destruct (Nat.eqb_spec b a) as [->|]; [rewrite H in O; discriminate|exact H]. Qed.
Lemma push_sys_started s a m b : started (nd (push_sys s a m) b) = started (nd s b).
Proof. unfold push_sys. destruct (opn (nd s a)); [|reflexivity]. simpl. unfold upd. destruct (Nat.eqb_spec b a) as [->|]; reflexivity. Qed.
Lemma push_usr_started s a m b : started (nd (push_usr s a m) b) = started (nd s b).
Proof. unfold push_usr. destruct (opn (nd s a)); [|reflexivity]. simpl. unfold upd. destruct (Nat.eqb_spec b a) as [->|]; reflexivity. Qed.

Lemma sane_push_sys r t k a m : Sane (FState r t k) -> sane_sys (size r) a m -> Sane (FState (push_sys r a m) t k).
Proof.
  intros [S1 S2 S3 S4 S5 ST S6 S7] H. simpl in *. constructor; simpl; rewrite ?push_sys_size; auto.
  - intros b x Hx. apply push_sys_in_inv in Hx. destruct Hx as [Hx|[-> ->]]; auto.
  - intros b x. rewrite push_sys_usrq. apply S3.
  - intros b Hb. apply push_sys_absent. auto.
  - intros b. rewrite push_sys_started. auto.
Qed.
Lemma sane_push_usr r t k a m : Sane (FState r t k) -> sane_usr (size r) m -> Sane (FState (push_usr r a m) t k).
Proof.
  intros [S1 S2 S3 S4 S5 ST S6 S7] H. simpl in *. constructor; simpl; rewrite ?push_usr_size; auto.
  - intros b x. rewrite push_usr_sysq. auto.
  - intros b x Hx. apply push_usr_in_inv in Hx. destruct Hx as [Hx|[-> ->]]; eauto.
  - intros b Hb. apply push_usr_absent. auto.
  - intros b. rewrite push_usr_started. auto.
Qed.
Lemma sane_destroy r t k c : Sane (FState r t k) -> c < size r -> Sane (FState (destroy r c) t k).
Proof.
  intros [S1 S2 S3 S4 S5 ST S6 S7] H. simpl in *. constructor; simpl; auto; intros b; unfold upd; destruct (Nat.eqb_spec b c) as [->|]; simpl; auto; first [apply S2|apply S3|lia|apply S7].
Qed.
Lemma sane_todo r t k a e l : Sane (FState r t k) -> t a = e :: l -> Sane (FState r (upd t a l) k).
Proof.
  intros [S1 S2 S3 S4 S5 ST S6 S7] E. simpl in *.
  assert (X : forall b x, In x (upd t a l b) -> In x (t b)) by (intros b x; unfold upd; destruct (Nat.eqb_spec b a) as [->|]; [rewrite E; now right|auto]).
  constructor; simpl; auto; intros; eauto.
Qed.
Lemma sane_size n n' b m : n <= n' -> sane_sys n b m -> sane_sys n' b m.
Proof. intros H. destruct m; simpl; auto. lia. Qed.
Lemma sane_sizeu n n' m : n <= n' -> sane_usr n m -> sane_usr n' m.
Proof. intros H. destruct m; simpl; auto. lia. Qed.
Lemma sane_new r t k : Sane (FState r t k) -> t (size r) = [] -> Sane (FState (new_actor r) t k).
Proof.
  intros [S1 S2 S3 S4 S5 ST S6 S7] E. simpl in *. assert (L : size r <= S (size r)) by lia.
  constructor; simpl.
  - lia.
  - intros b m. unfold upd. destruct (Nat.eqb_spec b (size r)) as [->|]; [intros []|]. intros H. eapply sane_size; [exact L|auto].
  - intros b m. unfold upd. destruct (Nat.eqb_spec b (size r)) as [->|]; [intros []|]. intros H. eapply sane_sizeu; [exact L|eauto].
  - intros a b m H. eapply sane_size; [exact L|eauto].
  - intros a b m H. eapply sane_sizeu; [exact L|eauto].
  - intros a e H. apply ST in H. lia.
  - intros b H. rewrite upd_neq by lia. apply S6. lia.
  - intros a H. unfold upd. destruct (Nat.eqb_spec a (size r)) as [->|]; [reflexivity|auto].
Qed.
Lemma sane_told r t k k' : Sane (FState r t k) -> Sane (FState r t k').
Proof. intros [S1 S2 S3 S4 S5 ST S6 S7]. constructor; assumption. Qed.
Lemma sane_close r t k a : Sane (FState r t k) -> a < size r -> Sane (FState (close r a) t k).
Proof.
  intros [S1 S2 S3 S4 S5 ST S6 S7] H. simpl in *. constructor; simpl; auto; intros b; unfold upd; destruct (Nat.eqb_spec b a) as [->|]; simpl; auto; first [apply S2|apply S3|lia|apply S7].
Qed.

Definition out (f : fstate) : Prop := forall a, size (base f) <= a -> todo f a = [].
Lemma open_below f a : Sane f -> opn (nd (base f) a) = true -> a < size (base f).
Proof. intros S O. destruct (Nat.lt_ge_cases a (size (base f))) as [H|H]; [exact H|]. rewrite (n_gone f S a H) in O. discriminate. Qed.
Lemma todo_below f a e l : out f -> todo f a = e :: l -> a < size (base f).
Proof. intros S O. destruct (Nat.lt_ge_cases a (size (base f))) as [H|H]; [exact H|]. rewrite (S a H) in O. discriminate. Qed.

Lemma sane_step f x f' s : Core s -> rep (base f) (todo f) s -> Sane f -> out f -> fstep f x = Some f' -> Sane f'.
Proof.
  intros C R Sn Ou H. destruct f as [r t k]. simpl in R.
  assert (Pr : forall a, a < size r -> att (nd r a) = true -> par (nd r a) < size r).
  { intros a La Ha. rewrite <- (skel_att _ _ (r_nd _ _ _ R a)) in Ha. rewrite <- (skel_par _ _ (r_nd _ _ _ R a)). destruct (c_att s C a Ha). lia. }
  assert (Kr : forall a c, In c (kids (nd r a)) -> c < size r).
  { intros a c Hc. rewrite <- (skel_kids _ _ (r_nd _ _ _ R a)) in Hc. apply (c_kids s C) in Hc. rewrite <- (r_size _ _ _ R). tauto. }
  unfold out in Ou. simpl in Ou. destruct x as [a ok|a|y]; unfold fstep in H; simpl base in H; simpl todo in H; cbv zeta in H.
  - destruct (is_nil (t a) && opn (nd r a)) eqn:G; [|discriminate]. apply andb_true_iff in G. destruct G as [G1 G2]. apply is_nil_spec in G1.
    assert (L := open_below _ a Sn G2). simpl in L.
    destruct (sysq (nd r a)) as [|m q] eqn:Q.
    + destruct (started (nd r a)) eqn:Sta; [|discriminate]. destruct (usrq (nd r a)) as [|u q] eqn:U; [discriminate|]. injection H as <-.
      assert (Su : sane_usr (size r) u) by (eapply (n_usr _ Sn a); simpl; rewrite U; now left).
      destruct Sn as [S1 S2 S3 S4 S5 ST S6 S7]. simpl in *.
      destruct (fhandle_usr_frame r a u) as (F1 & F2 & F3). assert (F4 := fun b => fhandle_usr_sane r a u b S1 Su). assert (FT := fun e => fhandle_usr_tgt r a u e S1 L Su).
      unfold begin. set (Rr := fhandle_usr r a u) in *. clearbody Rr. destruct Rr as [r' l]. simpl in *. destruct r' as [n' nd' fl' rq']. simpl in *. subst n' nd'.
      constructor; simpl; auto.
      * intros b m. unfold upd. destruct (Nat.eqb_spec b a) as [->|]; auto.
      * intros b m. unfold upd. destruct (Nat.eqb_spec b a) as [->|]; [|apply S3]. intros Hm. apply tl_in in Hm. eapply S3, Hm.
      * intros b d m. unfold upd. destruct (Nat.eqb_spec b a) as [->|]; [apply F4|apply S4].
      * intros b d m. unfold upd. destruct (Nat.eqb_spec b a) as [->|]; [apply F4|apply S5].
      * intros b e. unfold upd. destruct (Nat.eqb_spec b a) as [->|]; [apply FT|apply ST].
      * intros b Hb. rewrite upd_neq by lia. auto.
      * intros b. unfold upd. destruct (Nat.eqb_spec b a) as [->|]; [intros X; now apply F3 in X|auto].
    + injection H as <-.
      assert (Su : sane_sys (size r) a m) by (apply (n_sys _ Sn a); simpl; rewrite Q; now left).
      destruct Sn as [S1 S2 S3 S4 S5 ST S6 S7]. simpl in *.
      destruct (fhandle_sys_frame r a m ok L Su) as (F1 & F2 & F3 & F4 & F5 & F6). assert (F7 := fun b => fhandle_sys_sane r a m ok b L). assert (FT := fun e => fhandle_sys_tgt r a m ok e S1 L Su (Pr a L) (Kr a)).
      unfold begin. set (Rr := fhandle_sys r a m ok) in *. clearbody Rr. destruct Rr as [r' l]. simpl in *. destruct r' as [n' nd' fl' rq']. simpl in *. subst n'.
      constructor; simpl; auto.
      * intros b x. unfold upd. destruct (Nat.eqb_spec b a) as [->|]; [|rewrite F2; auto]. simpl. rewrite F2. intros Hm. apply tl_in in Hm. auto.
      * intros b x. unfold upd. destruct (Nat.eqb_spec b a) as [->|]; simpl; rewrite F3; apply S3.
      * intros b d x. unfold upd. destruct (Nat.eqb_spec b a) as [->|]; [apply F7|apply S4].
      * intros b d x. unfold upd. destruct (Nat.eqb_spec b a) as [->|]; [apply F7|apply S5].
      * intros b e. unfold upd. destruct (Nat.eqb_spec b a) as [->|]; [apply FT|apply ST].
      * intros b Hb. rewrite upd_neq by lia. rewrite F4 by exact Hb. auto.
      * intros b. unfold upd. destruct (Nat.eqb_spec b a) as [->|]; [exact F6|]. rewrite F5 by assumption. auto.
  - destruct (t a) as [|e l] eqn:E; [discriminate|]. injection H as <-. assert (L := todo_below (FState r t k) a e l Ou E). simpl in L.
    assert (St := sane_todo r t k a e l Sn E). unfold emit. simpl. destruct e as [b m|b u| |].
    + assert (Sm : sane_sys (size r) b m) by (eapply (n_todo _ Sn a); simpl; rewrite E; now left).
      unfold deliver. destruct (opn (nd r b)); [now apply sane_push_sys|]. destruct m; auto. destruct (att (nd r c)); [exact St|]. apply sane_destroy; [exact St|]. simpl in Sm. lia.
    + assert (Sm : sane_usr (size r) u) by (eapply (n_todou _ Sn a); simpl; rewrite E; now left). now apply sane_push_usr.
    + now apply sane_close.
    + eapply sane_told, St.
  - assert (S5 := n_five _ Sn). simpl in S5. assert (Nw := sane_new r t k Sn (Ou (size r) (le_n _))).
    destruct y as [a ok|g|p|a|a kk|b]; [discriminate|..]; cbn [step] in H; cbv zeta in H.
    + destruct (is_guard g) eqn:G; [|discriminate]. apply is_guard_spec in G. fold (new_actor r) in H.
      destruct (opn _); injection H as <-; [apply sane_push_usr; [exact Nw|simpl; lia]|apply sane_destroy; [exact Nw|simpl; lia]].
    + destruct (_ && _) eqn:G; [|discriminate]. rewrite !andb_true_iff, Nat.leb_le in G. destruct G as [[G1 G2] G3].
      assert (L := open_below _ p Sn G2). simpl in L. injection H as <-. apply sane_push_sys; [exact Nw|simpl; lia].
    + injection H as <-. apply sane_push_sys; [exact Sn|exact I].
    + injection H as <-. apply sane_push_usr; [exact Sn|destruct kk; exact I].
    + injection H as <-. assert (X := sane_push_usr r t k 0 (URootTerm b) Sn I). destruct X as [X1 X2 X3 X4 X5 XT X6 X7]. constructor; assumption.
Qed.
Lemma sane_init : Sane finit.
Proof.
  constructor; simpl; try tauto; [lia|..].
  - intros b m. destruct b as [|[|[|[|[|b]]]]]; simpl; intros H; repeat (destruct H as [H|H]); subst; simpl; auto; contradiction.
  - intros b u. destruct b as [|[|[|[|[|b]]]]]; simpl; tauto.
  - intros b H. do 5 (destruct b as [|b]; [lia|]). reflexivity.
Qed.

(* ---- pushes from outside ---- *)
Lemma rep_env_sys r t s b m : rep r t s -> rep (push_sys r b m) t (push_sys s b m).
Proof.
  intros [A1 A2 A3 A4 A5 A6 A7 A8]. constructor.
  - now rewrite !push_sys_size.
  - now rewrite !push_sys_flag.
  - unfold push_sys. destruct (opn (nd r b)), (opn (nd s b)); exact A3.
  - intros d. assert (X : forall z, skel (nd (push_sys z b m) d) = skel (nd z d)).
    { intros z. unfold push_sys. destruct (opn (nd z b)); [|reflexivity]. simpl. unfold upd. destruct (Nat.eqb_spec d b) as [->|]; reflexivity. }
    rewrite !X. auto.
  - intros d. rewrite !push_sys_opn. auto.
  - intros d. rewrite push_sys_opn, push_sys_size. intros H. specialize (A6 d H). assert (Or := A5 d). rewrite H in Or. symmetry in Or. apply andb_true_iff in Or. destruct Or as [Or _].
    destruct (Nat.eq_dec d b) as [->|N]; [|rewrite !push_sys_other by exact N; exact A6]. unfold push_sys. rewrite H, Or. simpl. rewrite !upd_eq. simpl.
    rewrite A6, <- !app_assoc. apply Permutation_app_head, Permutation_app_comm.
  - intros d. rewrite push_sys_opn, push_sys_size, !push_sys_usrq. auto.
  - intros d. rewrite push_sys_size. auto.
Qed.
Lemma push_usr_other s a m b : b <> a -> usrq (nd (push_usr s a m) b) = usrq (nd s b).
Proof. intros N. unfold push_usr. destruct (opn (nd s a)); [|reflexivity]. simpl. rewrite upd_neq by exact N. reflexivity. Qed.
Lemma rep_env_usr r t s b m : rep r t s -> rep (push_usr r b m) t (push_usr s b m).
Proof.
  intros [A1 A2 A3 A4 A5 A6 A7 A8]. constructor.
  - now rewrite !push_usr_size.
  - unfold push_usr. destruct (opn (nd r b)), (opn (nd s b)); exact A2.
  - unfold push_usr. destruct (opn (nd r b)), (opn (nd s b)); exact A3.
  - intros d. assert (X : forall z, skel (nd (push_usr z b m) d) = skel (nd z d)).
    { intros z. unfold push_usr. destruct (opn (nd z b)); [|reflexivity]. simpl. unfold upd. destruct (Nat.eqb_spec d b) as [->|]; reflexivity. }
    rewrite !X. auto.
  - intros d. rewrite !push_usr_opn. auto.
  - intros d. rewrite push_usr_opn, push_usr_size, !push_usr_sysq. auto.
  - intros d. rewrite push_usr_opn, push_usr_size. intros H. specialize (A7 d H). assert (Or := A5 d). rewrite H in Or. symmetry in Or. apply andb_true_iff in Or. destruct Or as [Or _].
    destruct (Nat.eq_dec d b) as [->|N]; [|rewrite !push_usr_other by exact N; exact A7]. unfold push_usr. rewrite H, Or. simpl. rewrite !upd_eq. simpl.
    rewrite A7, <- !app_assoc. apply Permutation_app_head, Permutation_app_comm.
  - intros d. rewrite push_usr_size. auto.
Qed.
Lemma pend_none {M} (g : effect -> list M) n t : (forall a e, In e (t a) -> g e = []) -> pend g n t = [].
Proof.
  intros H. induction n as [|n IH]; simpl; [reflexivity|]. rewrite IH, app_nil_r. specialize (H n). induction (t n) as [|e l IHl]; simpl; [reflexivity|].
  rewrite H by now left. apply IHl. intros e' H'. apply H. now right.
Qed.
Lemma rep_new r t s k : Sane (FState r t k) -> rep r t s -> rep (new_actor r) t (new_actor s).
Proof.
  intros Sn [A1 A2 A3 A4 A5 A6 A7 A8]. assert (T : t (size r) = []) by (apply A8; lia).
  assert (PS : pend (to_sys (size r)) (size r) t = []).
  { apply pend_none. intros a e H. apply (n_tgt _ Sn) in H. simpl in H. destruct e; simpl in *; auto. destruct (Nat.eqb_spec b (size r)); [lia|reflexivity]. }
  assert (PU : pend (to_usr (size r)) (size r) t = []).
  { apply pend_none. intros a e H. apply (n_tgt _ Sn) in H. simpl in H. destruct e; simpl in *; auto. destruct (Nat.eqb_spec b (size r)); [lia|reflexivity]. }
  constructor; simpl; auto; rewrite ?A1, ?T; simpl.
  - intros b. unfold upd. destruct (b =? size r); auto.
  - intros b. unfold upd. destruct (Nat.eqb_spec b (size r)) as [->|]; auto. unfold leaving. rewrite T. reflexivity.
  - intros b. unfold upd. destruct (Nat.eqb_spec b (size r)) as [->|]; auto. intros _. rewrite PS. apply Permutation_refl.
  - intros b. unfold upd. destruct (Nat.eqb_spec b (size r)) as [->|]; auto. intros _. rewrite PU. apply Permutation_refl.
  - intros a H. apply A8. lia.
Qed.

(* ---- the matching step exists ---- *)
Lemma leaving_in t a : leaving t a = true <-> In EClose (t a).
Proof.
  unfold leaving. rewrite existsb_exists. split; [|intros H; exists EClose; auto]. intros (e & H & E). destruct e; try discriminate. exact H.
Qed.
Lemma fstep_match f x f' s : Core s -> rep (base f) (todo f) s -> Sane f -> fstep f x = Some f' ->
  exists s0 s', shuffle s s0 /\ match_step x s0 s' /\ rep (base f') (todo f') s'.
Proof.
  intros C R Sn H. destruct f as [r t k]. simpl in R. assert (Ou := r_out _ _ _ R).
  destruct x as [a ok|a|y]; unfold fstep in H; simpl base in H; simpl todo in H; cbv zeta in H.
  - destruct (is_nil (t a) && opn (nd r a)) eqn:G; [|discriminate]. apply andb_true_iff in G. destruct G as [G1 G2]. apply is_nil_spec in G1.
    assert (L := open_below _ a Sn G2). simpl in L.
    assert (O : opn (nd s a) = true) by (rewrite (r_opn _ _ _ R), G2; unfold leaving; rewrite G1; reflexivity).
    destruct (sysq (nd r a)) as [|m q] eqn:Q.
    + destruct (started (nd r a)) eqn:Sta; [|discriminate]. destruct (usrq (nd r a)) as [|u q] eqn:U; [discriminate|]. injection H as <-.
      destruct (shuffle_usr r t s a u q R O U) as (s0 & q0 & Sh & Q0). assert (R0 := rep_shuffle _ _ _ _ R Sh). assert (C0 := shuffle_Core _ _ Sh C).
      assert (O0 : opn (nd s0 a) = true) by (destruct (sh_nd _ _ Sh a) as (_ & -> & _); exact O).
      assert (St0 : started (nd s0 a) = true) by (rewrite (skel_started _ _ (r_nd _ _ _ R0 a)); exact Sta).
      assert (I0 : In u (usrq (nd s0 a))) by (rewrite Q0; now left).
      assert (Qr : usrq (nd (fst (fhandle_usr r a u)) a) = u :: q) by (rewrite fhandle_usr_usrq; exact U).
      destruct (rep_handle_usr r t s0 a u R0 L G1) as [X|[Lo X]].
      * exists s0, (pop_usr (handle_usr s0 a u) a). split; [exact Sh|]. split; [eapply m_usr; eauto|]. simpl.
        eapply rep_pop_usr; [exact X|exact Qr|]. intros _. exists q0. rewrite handle_usr_usrq; auto.
      * exists s0, (pop_usr s0 a). split; [exact Sh|]. split; [eapply m_lost; eauto|]. simpl.
        eapply rep_pop_usr; [exact X|exact Qr|]. intros _. exists q0. exact Q0.
    + injection H as <-.
      destruct (shuffle_sys r t s a m q R O Q) as (s0 & q0 & Sh & Q0). assert (R0 := rep_shuffle _ _ _ _ R Sh). assert (C0 := shuffle_Core _ _ Sh C).
      assert (O0 : opn (nd s0 a) = true) by (destruct (sh_nd _ _ Sh a) as (_ & -> & _); exact O).
      assert (I0 : In m (sysq (nd s0 a))) by (rewrite Q0; now left).
      assert (Ne : a <> match m with SAttach c => c | _ => S a end) by (destruct m; try lia; apply (c_attq s0 C0) in I0; lia).
      exists s0, (pop_sys (handle_sys s0 a m ok) a). split; [exact Sh|]. split; [eapply m_sys; eauto|]. simpl.
      eapply rep_pop_sys; [now apply rep_handle_sys|rewrite fhandle_sys_sysq by exact Ne; exact Q|]. intros _. exists q0. rewrite handle_sys_sysq; auto.
  - destruct (t a) as [|e l] eqn:E; [discriminate|]. injection H as <-. unfold emit. simpl. exists s.
    assert (None' : forall b m, e = ESys b m -> opn (nd r b) = false -> rep r (upd t a l) s).
    { intros b m -> O. eapply rep_emit_none; [exact R|exact E|reflexivity|]. intros d Hd. split; [|reflexivity]. simpl. destruct (Nat.eqb_spec b d) as [->|]; [|reflexivity].
      rewrite (r_opn _ _ _ R), O in Hd. discriminate. }
    destruct e as [b m|b u| |]; simpl.
    + unfold deliver. destruct (opn (nd r b)) eqn:O; [exists s; split; [apply shuffle_refl|]; split; [now eapply m_same|]; simpl; now apply (rep_emit_sys r t s a)|].
      specialize (None' b m eq_refl O).
      destruct m as [| | |c|c]; try (exists s; split; [apply shuffle_refl|]; split; [now eapply m_same|exact None']).
      destruct (att (nd r c)) eqn:A; [exists s; split; [apply shuffle_refl|]; split; [now eapply m_same|exact None']|].
      exists (destroy s c). split; [apply shuffle_refl|]. split; [|now apply rep_destroy].
      assert (Sm : sane_sys (size r) b (SAttach c)) by (eapply (n_todo _ Sn a); simpl; rewrite E; now left). simpl in Sm.
      eapply m_destroy; [reflexivity| |rewrite (skel_att _ _ (r_nd _ _ _ R c)); exact A|reflexivity]. rewrite (r_size _ _ _ R). lia.
    + exists s. split; [apply shuffle_refl|]. split; [now eapply m_same|]. now apply (rep_emit_usr r t s a).
    + exists s. split; [apply shuffle_refl|]. split; [now eapply m_same|]. now apply rep_emit_close.
    + exists s. split; [apply shuffle_refl|]. split; [now eapply m_same|]. eapply rep_emit_none; [exact R|exact E|reflexivity|]. intros; split; reflexivity.
  - exists s. assert (Nw := rep_new r t s k Sn R). destruct y as [a ok|g|p|a|a kk|b]; [discriminate|..]; cbn [step] in H; cbv zeta in H.
    + destruct (is_guard g) eqn:G; [|discriminate]. fold (new_actor r) in H. assert (Sz := r_size _ _ _ R).
      destruct (opn (nd (new_actor r) 0)) eqn:Or.
      * injection H as <-. simpl. destruct (opn (nd (new_actor s) 0)) eqn:Os.
        -- exists (push_usr (new_actor s) 0 (UAdd g (size s))). split; [apply shuffle_refl|]. split; [eapply m_env; [reflexivity| |discriminate]; cbn [step]; cbv zeta; rewrite G, Os; reflexivity|].
           rewrite Sz. now apply rep_env_usr.
        -- exists (new_actor s). split; [apply shuffle_refl|]. split; [eapply m_new; reflexivity|]. assert (X := rep_env_usr _ _ _ 0 (UAdd g (size r)) Nw). unfold push_usr at 2 in X. rewrite Os in X. exact X.
      * injection H as <-. simpl. exists (destroy (new_actor s) (size s)). split; [apply shuffle_refl|]. split; [|rewrite Sz; now apply rep_destroy].
        eapply m_env; [reflexivity| |discriminate]. cbn [step]. cbv zeta. rewrite G. assert (Os := r_opn _ _ _ Nw 0). rewrite Or in Os. simpl andb in Os. rewrite Os. reflexivity.
    + destruct ((5 <=? p) && opn (nd r p) && started (nd r p)) eqn:G; [|discriminate]. injection H as <-. simpl.
      rewrite !andb_true_iff in G. destruct G as [[G1 G2] G3].
      assert (Os : opn (nd s p) = true).
      { rewrite (r_opn _ _ _ R), G2. simpl. destruct (leaving t p) eqn:Lv; [|reflexivity]. apply leaving_in in Lv. apply (n_leave _ Sn) in Lv. simpl in Lv. congruence. }
      exists (push_sys (new_actor s) p (SAttach (size s))). split; [apply shuffle_refl|]. split.
      * eapply m_env; [reflexivity| |discriminate]. cbn [step]. rewrite G1, Os, (skel_started _ _ (r_nd _ _ _ R p)), G3. reflexivity.
      * rewrite (r_size _ _ _ R). now apply rep_env_sys.
    + injection H as <-. exists (push_sys s a SStop). split; [apply shuffle_refl|]. split; [eapply m_env; [reflexivity|reflexivity|discriminate]|]. now apply rep_env_sys.
    + injection H as <-. eexists. split; [apply shuffle_refl|]. split; [eapply m_env; [reflexivity|reflexivity|discriminate]|]. now apply rep_env_usr.
    + injection H as <-. eexists. split; [apply shuffle_refl|]. split; [eapply m_env; [reflexivity|reflexivity|discriminate]|].
      assert (X := rep_env_usr _ _ _ 0 (URootTerm b) R). destruct X as [X1 X2 X3 X4 X5 X6 X7 X8]. constructor; auto. simpl. congruence.
Qed.
Lemma match_core x s0 s' : Core s0 -> match_step x s0 s' -> Core s'.
Proof.
  intros C M. destruct M as [a ok m q _ O Q ->|a ok u q _ O St Q ->|a ok u q _ O Lo Q ->|y _ E _|g _ ->|a c _ L A ->|a _ ->].
  - apply pop_sys_core. eapply handle_sys_core; eassumption.
  - apply pop_usr_core. eapply handle_usr_core; eassumption.
  - now apply pop_usr_core.
  - eapply step_core; eassumption.
  - now apply new_actor_core.
  - apply destroy_core; [exact C|lia].
  - exact C.
Qed.
Lemma match_inv x s0 s' : Inv s0 -> match_step x s0 s' -> (forall a ok, x = FHandle a ok -> ok = true) ->
  (forall y, x = FEnv y -> well_behaved s0 y) -> Inv s'.
Proof.
  intros II M OK WB. destruct M as [a ok m q E O Q ->|a ok u q E O St Q ->|a ok u q E O Lo Q ->|y E St _|g E ->|a c E L A ->|a E ->].
  - rewrite (OK a ok E) in *. destruct (handle_sys_inv s0 a m q II O Q) as (I1 & I2 & I3). eapply pop_sys_inv; [exact I1|rewrite I2; exact Q|exact I3].
  - destruct (handle_usr_inv s0 a u q II O St Q) as (I1 & I2 & I3). eapply pop_usr_inv; [exact I1|rewrite I2; exact Q|exact I3].
  - eapply pop_usr_inv; [exact II|exact Q|]. destruct u; simpl in Lo; try contradiction. exact I.
  - eapply step_inv; eauto.
  - now apply new_actor_inv.
  - apply destroy_inv; auto; lia.
  - exact II.
Qed.
Lemma match_shut x s0 s' : Core s0 -> Shut s0 -> match_step x s0 s' -> (forall a ok, x = FHandle a ok -> ok = true) ->
  (forall y, x = FEnv y -> well_behaved s0 y) -> Shut s'.
Proof.
  intros C Sh M OK WB. destruct M as [a ok m q E O Q ->|a ok u q E O St Q ->|a ok u q E O Lo Q ->|y E St _|g E ->|a c E L A ->|a E ->].
  - rewrite (OK a ok E) in *. assert (X := shut_handle_sys s0 a m q C Q Sh). apply shut_same; auto.
  - assert (X := shut_handle_usr s0 a u q C Q Sh). apply shut_same; auto.
  - apply shut_same; auto.
  - eapply shut_step; eauto.
  - intros b. unfold new_actor, upd; simpl. destruct (b =? size s0); [split; simpl; [discriminate|auto]|apply Sh].
  - apply shut_destroy; auto. lia.
  - exact Sh.
Qed.

Definition Matched (f : fstate) (s : state) : Prop := rep (base f) (todo f) s /\ Sane f /\ Core s.
Definition Behaved (f : fstate) (s : state) : Prop := rep (base f) (todo f) s /\ Sane f /\ Inv s /\ Shut s.
Lemma matched_step f x f' s : Matched f s -> fstep f x = Some f' -> exists s', Matched f' s'.
Proof.
  intros (R & Sn & C) H. destruct (fstep_match f x f' s C R Sn H) as (s0 & s' & Sh & M & R'). exists s'. split; [exact R'|]. split.
  - eapply sane_step; try eassumption. exact (r_out _ _ _ R).
  - eapply match_core; [|exact M]. now apply (shuffle_Core s).
Qed.
Lemma behaved_match f x f' s : Behaved f s -> fbehaved f x -> fstep f x = Some f' ->
  exists s0 s', shuffle s s0 /\ match_step x s0 s' /\ Inv s0 /\ Behaved f' s'.
Proof.
  intros (R & Sn & II & Sd) W H. assert (C := proj1 II). destruct (fstep_match f x f' s C R Sn H) as (s0 & s' & Sh & M & R'). exists s0, s'. split; [exact Sh|]. split; [exact M|].
  assert (I0 := shuffle_Inv _ _ Sh II). split; [exact I0|]. split; [exact R'|]. split; [|].
  - eapply sane_step; try eassumption. exact (r_out _ _ _ R).
  - assert (OK : forall a ok, x = FHandle a ok -> ok = true) by (intros a ok ->; exact W).
    assert (WB : forall y, x = FEnv y -> well_behaved s0 y).
    { intros y ->. destruct y; simpl in *; auto; [discriminate|]. destruct W as [W|W]; [now left|right].
      destruct (sh_nd _ _ Sh a) as (E & _). rewrite (skel_att _ _ E), (skel_att _ _ (r_nd _ _ _ R a)). exact W. }
    split; [eapply match_inv; eassumption|]. eapply match_shut; [exact (proj1 I0)|eapply shuffle_Shut; eassumption|exact M|exact OK|exact WB].
Qed.
Lemma rep_init : rep init (fun _ => []) init.
Proof.
  constructor; auto; intros b; try (unfold leaving; simpl; now rewrite andb_true_r);
    intros _; rewrite pend_none, app_nil_r by (intros ? ? []); apply Permutation_refl.
Qed.
Lemma freachable_matched f : freachable f -> exists s, Matched f s.
Proof.
  assert (X : forall xs f f' s, Matched f s -> frun f xs = Some f' -> exists s', Matched f' s').
  { induction xs as [|x xs IH]; intros g g' s M H; simpl in H; [injection H as <-; eauto|]. destruct (fstep g x) as [g1|] eqn:E; [|discriminate].
    destruct (matched_step _ _ _ _ M E) as [s1 M1]. eapply IH; eassumption. }
  intros [xs H]. eapply X; [|exact H]. split; [apply rep_init|]. split; [apply sane_init|apply init_core].
Qed.
Lemma init_shut : Shut init.
Proof. intros a. destruct a as [|[|[|[|[|a]]]]]; split; simpl; auto; try discriminate; intros [?|?]; discriminate. Qed.
Lemma behaved_run xs : forall f f' s, Behaved f s -> fbehaved_run f xs -> frun f xs = Some f' -> exists s', Behaved f' s'.
Proof.
  induction xs as [|x xs IH]; intros g g' s M W H; simpl in H, W; [injection H as <-; eauto|]. destruct W as [W1 W2]. destruct (fstep g x) as [g1|] eqn:E; [|discriminate].
  destruct (behaved_match _ _ _ _ M W1 E) as (s0 & s1 & _ & _ & _ & M1). eapply IH; eassumption.
Qed.
Lemma fwell_behaved f : fwell f -> exists s, Behaved f s.
Proof.
  intros (xs & W & H). eapply behaved_run; [|exact W|exact H]. split; [apply rep_init|]. split; [apply sane_init|]. split; [apply init_inv|apply init_shut].
Qed.
